(** C66-C70: what reading a file gives. *)
From Coq Require Import Reals SpecFloat.
From Flocq Require Import Core.Core IEEE754.BinarySingleNaN.
From Verif Require Import Base Text PyDict PyDict_Proofs Float Coerce_Model Coerce_Spec Grammar_Model Grammar_Proofs Lex_Spec Lex_Proofs
  Doc_Spec Doc_Proofs SceneGraph_Model VrmlStr_Model VrmlStr_Values Scene_Model Scene_Spec Build_Model Reading_Spec Reading_Proofs Reading_Facts
  Closed_Spec Closed_Proofs StdNodes Std_Proofs P_VrmlStr P_Grammar P_Linearise P_Scene.
Local Open Scope nat_scope.
Local Open Scope list_scope.
Notation RNode := Scene_Model.RNode.

(** reading the text gives [r]: PROTOs and scene, or an exception *)
Definition loads (P : prims) (base : list (text * list fdecl)) (s : text) (r : res file) : Prop :=
  exists c trees, parses (rule G_vrmlFile) s (POk c [] trees) /\ build_file P base trees = r.
Definition tidy_doc (d : doc) : Prop := forallb tidy_root (sk_doc d) = true.

Lemma doc_loads P base d r : ok_doc d -> loads P base (show_doc d) r ->
  exists ch, map erase ch = map et_root (sk_doc d) /\ build_scene P base ctx0 ch file0 = r.
Proof.
  intros Ok (c & trees & Pa & E). destruct (doc_reads d Ok) as (c' & trees' & Pa' & Er).
  pose proof (parses_det _ _ _ _ Pa Pa') as Q. injection Q as -> ->.
  destruct trees' as [|t0 [|t1 [|t2 [|]]]]; try discriminate. injection Er as _ Er _.
  apply erase_not_kept in Er as (s1 & ch & -> & Ech). exists ch. split; [exact Ech|]. exact E.
Qed.
Lemma loads_doc P base d : ok_doc d -> exists ch, map erase ch = map et_root (sk_doc d) /\
  loads P base (show_doc d) (build_scene P base ctx0 ch file0).
Proof.
  intros Ok. destruct (doc_reads d Ok) as (c & trees & Pa & Er). destruct trees as [|t0 [|t1 [|t2 [|]]]]; try discriminate. injection Er as _ Er _.
  apply erase_not_kept in Er as (s1 & ch & -> & Ech). exists ch. split; [exact Ech|]. exists c, [t0; T G_vrmlScene s1 ch; t2]. split; [exact Pa|reflexivity].
Qed.
Lemma doc_given d : ok_doc d -> forallb names_root (sk_doc d) = true.
Proof. destruct d as [h w l]. intros (_ & _ & H & _). exact (proj2 roots_names l _ H). Qed.

(** C66.  Whatever reading a document gives is what the document means. *)
Theorem C66_reading_is_faithful : forall P base d tab S, ok_doc d -> tidy_doc d ->
  loads P base (show_doc d) (Ok (tab, S)) ->
  exists st, roots_read P base false [] ([], rs0) (sk_doc d) (tab, st) /\ describes st S.
Proof.
  intros P base d tab S Ok Ti L. destruct (doc_loads P base d _ Ok L) as (ch & Ech & E).
  destruct (roots_sound P base ctx0 (sk_doc d)) with (l := ch) (tab := @nil (text * pdef)) (st := rs0) (b := scene0) (s' := (tab, S)) as (st & R & H); auto.
  - apply Forall_forall. intros r _. apply root_sound.
  - apply doc_given. exact Ok.
  - exact holds0.
  - exists st. split; [exact R|exact (proj1 H)].
Qed.
Print Assumptions C66_reading_is_faithful.

(** C66.  A document without PROTOs that has a meaning is read. *)
Theorem C66_meaningful_documents_are_read : forall P base d st, ok_doc d -> forallb no_proto (sk_doc d) = true ->
  (forall gi fs, proto base gi = Some fs -> ~ In gi not_types /\ NoDup (map f_name fs)) ->
  roots_read P base false [] ([], rs0) (sk_doc d) ([], st) ->
  exists S, loads P base (show_doc d) (Ok ([], S)) /\ describes st S.
Proof.
  intros P base d st Ok Np Fine R. destruct (loads_doc P base d Ok) as (ch & Ech & L).
  destruct (roots_complete P base) with (rl := sk_doc d) (l := ch) (tab := @nil (text * pdef)) (st := rs0) (b := scene0) (s' := ([] : list (text * pdef), st)) as (S & E & _ & H); auto.
  - intros gi fs Q. destruct (Fine gi fs Q) as (A & B). split; [|exact B]. unfold among. destruct (existsb (text_eqb gi) not_types) eqn:X; [|reflexivity].
    apply existsb_exists in X as (x & Hx & X). apply text_eqb_spec in X. subst. contradiction.
  - apply doc_given. exact Ok.
  - exact holds0.
  - exists S. split; [|exact (proj1 H)]. unfold file0 in L. rewrite E in L. exact L.
Qed.
Print Assumptions C66_meaningful_documents_are_read.

(** C25.  Two layouts of the same contents are read with the same result: the
    same PROTOs and scene, or the same exception. *)
Theorem C25_same_scene_in_every_layout : forall P base d d', ok_doc d -> ok_doc d' -> tidy_doc d -> sk_doc d = sk_doc d' ->
  exists r, loads P base (show_doc d) r /\ loads P base (show_doc d') r /\
            forall r', loads P base (show_doc d) r' \/ loads P base (show_doc d') r' -> r' = r.
Proof.
  intros P base d d' Ok Ok' Ti E. destruct (loads_doc P base d Ok) as (ch & Ech & L). destruct (loads_doc P base d' Ok') as (ch' & Ech' & L').
  rewrite <- E in Ech'.
  assert (Sm : forall x y, map erase x = map et_root (sk_doc d) -> map erase y = map et_root (sk_doc d) -> build_scene P base ctx0 x file0 = build_scene P base ctx0 y file0).
  { intros x y Hx Hy. apply (roots_same P base (sk_doc d)); auto. apply Forall_forall. intros r _. apply root_same. }
  exists (build_scene P base ctx0 ch file0). split; [exact L|]. split; [rewrite (Sm ch ch' Ech Ech'); exact L'|].
  intros r' [H|H].
  - destruct (doc_loads P base d _ Ok H) as (x & Hx & <-). apply Sm; assumption.
  - destruct (doc_loads P base d' _ Ok' H) as (x & Hx & <-). rewrite <- E in Hx. apply Sm; assumption.
Qed.
Print Assumptions C25_same_scene_in_every_layout.

(** C67.  In every document that can be read, every name used by USE or by a
    ROUTE is defined before, in the same scene: in the file itself, or in the
    body of the same PROTO. *)
Theorem C67_names_defined_before_use : forall P base sfn d f x, ok_doc d -> tidy_doc d ->
  (forall gi fs g, In (gi, fs) base -> In g fs -> f_kind g = KNode -> sfn (f_name g) = true) ->
  forallb (lone_root sfn) (sk_doc d) = true ->
  loads P base (show_doc d) (Ok f) -> scene_in (sk_doc d) x -> defined_before_use (flat_map occs_root x).
Proof.
  intros P base sfn d [tab S] x Ok Ti Sf Lo L Hx. destruct (C66_reading_is_faithful P base d tab S Ok Ti L) as (st & R & _).
  destruct (proj2 (roots_facts P base sfn) _ _ _ _ _ R) as (_ & (U & _) & _ & B & _); auto; [constructor|].
  inversion Hx; subst.
  - apply defined_used. intros pre nm post Q. destruct (U pre nm post Q) as [H|H]; [auto|exfalso; apply H; reflexivity].
  - eapply B; eassumption.
Qed.
Print Assumptions C67_names_defined_before_use.

(** C68.  In every document that can be read, every node type is built in or
    declared by a PROTO before, in the same scene or in one around it; no PROTO
    takes a name already known. *)
Theorem C68_types_declared_before_use : forall P base sfn d f, ok_doc d -> tidy_doc d ->
  (forall gi fs g, In (gi, fs) base -> In g fs -> f_kind g = KNode -> sfn (f_name g) = true) ->
  forallb (lone_root sfn) (sk_doc d) = true ->
  loads P base (show_doc d) (Ok f) -> types_known (map fst base) (sk_doc d).
Proof.
  intros P base sfn d [tab S] Ok Ti Sf Lo L. destruct (C66_reading_is_faithful P base d tab S Ok Ti L) as (st & R & _).
  destruct (proj2 (roots_facts P base sfn) _ _ _ _ _ R) as (_ & _ & _ & _ & Ty); auto; [constructor|]. apply Ty. intros x. reflexivity.
Qed.
Print Assumptions C68_types_declared_before_use.

(** C69.  Whatever text is read: the scene, and the body of every PROTO, has no
    dangling references, and holds values only in declared fields, in the
    storage formats of their types. *)
Theorem C69_no_dangling_references : forall P base s tab S, sane P -> loads P base s (Ok (tab, S)) ->
  closed_protos base [] tab /\ closed (types base tab) S.
Proof. intros P base s tab S SP (c & trees & _ & E). exact (file_closed P base SP trees tab S E). Qed.
Print Assumptions C69_no_dangling_references.

(** *** C70 *)
Lemma roots_app P base l : forall inp e s l' s', roots_read P base inp e s (l ++ l') s' ->
  exists s1, roots_read P base inp e s l s1 /\ roots_read P base inp e s1 l' s'.
Proof.
  induction l as [|x l IH]; intros inp e s l' s' H; [exists s; split; [constructor|exact H]|].
  inversion H; subst. destruct (IH _ _ _ _ _ H7) as (s2 & A & B). exists s2. split; [econstructor; eassumption|exact B].
Qed.
Lemma types_first base tab gi p : dget text_eqb tab gi = Some p -> proto (types base tab) gi = Some (pfields p).
Proof.
  unfold proto, types. induction tab as [|[g q] tab IH]; intros H; [discriminate|]. cbn [map app dget fst snd] in *.
  destruct (text_eqb g gi); [injection H as <-; reflexivity|exact (IH H)].
Qed.
Lemma value_all_set n fn (v : val) l r : In n l ->
  value_set (mkrs [] [] (map (fun m => (m, fn, v)) l ++ r) [] [] [] []) n fn = Some v.
Proof.
  unfold value_set. cbn [r_sets]. induction l as [|m l IH]; intros H; [destruct H|]. cbn [map app find].
  destruct (Nat.eqb_spec (fst (fst (m, fn, v))) n) as [E|E]; cbn [fst snd] in E |- *.
  - subst. rewrite (proj2 (text_eqb_spec fn fn) eq_refl). reflexivity.
  - destruct H as [->|H]; [congruence|]. exact (IH H).
Qed.
Lemma plain_value P base inp e st f its st' v : forallb plain its = true -> value_reads P base inp e st f its st' v ->
  st' = st /\ ((exists t d u, f_kind f = KVal t d /\ read_value P t (map et_item its) = Ok u /\ v = VPv u) \/ (exists o, f_kind f = KNodes o /\ v = VRefs [])).
Proof.
  intros Pl H. inversion H; subst.
  - split; [reflexivity|]. left. eauto 6.
  - cbn in Pl. destruct i; inversion H1; subst; discriminate.
  - destruct its as [|i its]; [|inversion H1; subst; cbn in Pl; destruct i; try discriminate Pl; match goal with X : item_reads _ _ _ _ _ _ _ _ |- _ => inversion X end]. inversion H1; subst. split; [reflexivity|]. right. eauto.
  - split; [reflexivity|]. right. eauto.
Qed.

(** C66.  A document that ends with an instance of a PROTO is read only if the
    fields of the PROTO's body stand, by IS, for declared fields of the same type
    or for declared events. *)
Theorem C66_is_names_are_declared : forall P base d tab S pre d1 gi l, ok_doc d -> tidy_doc d ->
  sk_doc d = pre ++ [SRItem (SNode d1 gi l)] -> loads P base (show_doc d) (Ok (tab, S)) ->
  forall p pn xs, dget text_eqb tab gi = Some p -> In (pn, xs) (s_is (p_body p)) ->
  (exists o ty, dget text_eqb (p_mem p) pn = Some (MEvent o ty)) \/
  exists k, ((exists ex, dget text_eqb (p_mem p) pn = Some (MField ex k)) \/
             (dget text_eqb (p_mem p) pn = None /\ pn = lit "externalURL" /\ k = f_kind url_field)) /\
    forall n y nd f, In (n, y) xs -> s_node (p_body p) n = Some nd -> node_field (types base (p_inner p ++ tab)) nd y = Some f ->
      class_name (f_kind f) = class_name k.
Proof.
  intros P base d tab S pre d1 gi l Ok Ti E L. destruct (C66_reading_is_faithful P base d tab S Ok Ti L) as (st & R & D). rewrite E in R.
  apply roots_app in R as (s1 & _ & R). inversion R as [|? ? ? ? s2 ? ? R1 R2]; subst. inversion R2; subst. inversion R1; subst.
  match goal with H : item_reads _ _ _ _ _ _ _ _ |- _ => inversion H; subst end. rewrite app_nil_r in *. assumption.
Qed.
Print Assumptions C66_is_names_are_declared.

(** C70.  The instances of a PROTO do not keep their own values: when two are
    given different values in a field that stands for one in the body (and is
    not a list of nodes), both end up with the value of the second. *)
Theorem C70_instances_keep_their_values_refuted : forall P base d tab S pre d1 d2 gi fn i1 i2 p xs, ok_doc d -> tidy_doc d ->
  sk_doc d = pre ++ [SRItem (SNode d1 gi [(fn, SVal i1)]); SRItem (SNode d2 gi [(fn, SVal i2)])] ->
  forallb plain i1 = true -> forallb plain i2 = true ->
  loads P base (show_doc d) (Ok (tab, S)) ->
  dget text_eqb tab gi = Some p -> dget text_eqb (s_is (p_body p)) fn = Some xs -> (forall o, ~ In (mkfd fn (KNodes o)) (pfields p)) ->
  exists ks n nd nd' t u, s_kids S = ks ++ [RNode n; RNode (Datatypes.S n)] /\
    s_node S n = Some nd /\ s_node S (Datatypes.S n) = Some nd' /\
    read_value P t (map et_item i2) = Ok u /\
    dget text_eqb (n_vals nd) fn = Some (VPv u) /\ dget text_eqb (n_vals nd') fn = Some (VPv u).
Proof.
  intros P base d tab S pre d1 d2 gi fn i1 i2 p xs Ok Ti E Pl1 Pl2 L Dp Dx Nk.
  destruct (C66_reading_is_faithful P base d tab S Ok Ti L) as (st & R & D). rewrite E in R.
  apply roots_app in R as (s1 & _ & R).
  inversion R as [|? ? ? ? s2 ? ? R1 R2]; subst. inversion R2 as [|? ? ? ? s3 ? ? R3 R4]; subst. inversion R4; subst. clear R R2 R4.
  inversion R1; subst. inversion R3; subst. clear R1 R3. rewrite app_nil_r in *.
  repeat match goal with H : item_reads _ _ _ _ _ _ _ _ |- _ => inversion H; subst; clear H end.
  repeat match goal with H : maps_declared _ _ _ |- _ => clear H end.
  repeat match goal with H : attrs_read _ _ _ _ _ _ _ _ (_ :: _) _ |- _ => inversion H; subst; clear H end.
  repeat match goal with H : attrs_read _ _ _ _ _ _ _ _ [] _ |- _ => inversion H; subst; clear H end.
  repeat match goal with H : value_reads _ _ _ _ _ _ _ _ _ |- _ => apply plain_value in H as (-> & H); [|assumption] end.
  repeat match goal with H : proto (types base tab) gi = Some _ |- _ => rewrite (types_first base tab gi p Dp) in H; injection H as <- end.
  destruct H14 as [(t & dv & u & Kf & Rv & ->)|(o & Kf & _)]; [|exfalso; destruct f0 as [fn0 k0]; cbn [f_name f_kind] in *; subst; apply (Nk o); assumption].
  assert (Po : passed_on tab gi f0 = true) by (unfold passed_on; rewrite Dp, Kf, H, Dx; reflexivity).
  remember (with_kid (RNode (r_next st0)) (set_value tab (r_next st0) gi f v (enter_node d1 gi st0))) as st1 eqn:E1.
  assert (N1 : r_nodes st1 = r_nodes st0 ++ [(gi, match d1 with Some nm => nm | None => [] end)]) by (subst st1; unfold set_value; destruct (passed_on tab gi f); reflexivity).
  assert (K1 : r_kids st1 = r_kids st0 ++ [RNode (r_next st0)]) by (subst st1; unfold set_value; destruct (passed_on tab gi f); reflexivity).
  clear E1.
  assert (X1 : r_next st1 = Datatypes.S (r_next st0)) by (unfold r_next; rewrite N1, app_length; cbn; lia).
  unfold set_value in D. rewrite Po in D.
  set (l := filter _ _) in D.
  assert (In1 : In (r_next st0) l /\ In (r_next st1) l).
  { unfold l. split; apply filter_In; (split; [apply in_seq; unfold enter_node, r_next in *; cbn [r_nodes]; rewrite app_length; cbn [List.length]; lia|]).
    - unfold enter_node. cbn [r_nodes]. rewrite nth_error_app1 by (unfold r_next in *; lia). rewrite N1, nth_error_app2 by (unfold r_next; lia).
      unfold r_next. rewrite Nat.sub_diag. cbn. apply text_eqb_spec. reflexivity.
    - unfold enter_node. cbn [r_nodes]. rewrite nth_error_app2 by (unfold r_next in *; lia).
      unfold r_next. rewrite Nat.sub_diag. cbn. apply text_eqb_spec. reflexivity. }
  destruct In1 as (In1 & In2).
  destruct (ds_node _ _ D (r_next st0) gi (match d1 with Some nm => nm | None => [] end)) as (nd & Hn & _ & _ & Hv & _).
  { unfold with_kid, with_sets, enter_node. cbn [r_nodes]. rewrite nth_error_app1 by (unfold r_next in *; lia). rewrite N1, nth_error_app2 by (unfold r_next; lia).
    unfold r_next. rewrite Nat.sub_diag. reflexivity. }
  destruct (ds_node _ _ D (r_next st1) gi (match d2 with Some nm => nm | None => [] end)) as (nd' & Hn' & _ & _ & Hv' & _).
  { unfold with_kid, with_sets, enter_node. cbn [r_nodes]. rewrite nth_error_app2 by (unfold r_next in *; lia).
    unfold r_next. rewrite Nat.sub_diag. reflexivity. }
  exists (r_kids st0), (r_next st0), nd, nd', t, u. split; [|split; [|split; [|split; [|split]]]].
  - rewrite (ds_kids _ _ D). unfold with_kid, with_sets, enter_node. cbn [r_kids]. rewrite K1, X1, <- app_assoc. reflexivity.
  - exact Hn.
  - rewrite <- X1. exact Hn'.
  - exact Rv.
  - rewrite Hv. exact (value_all_set _ _ _ _ _ In1).
  - rewrite Hv'. exact (value_all_set _ _ _ _ _ In2).
Qed.
Print Assumptions C70_instances_keep_their_values_refuted.

(** *** concrete documents *)
Definition file_of (s : text) : res file :=
  match run 300 (rule G_vrmlFile) s with
  | Some (POk _ [] trees) => build_file P_ex std_protos trees
  | _ => Exc OtherError
  end.
Lemma file_of_loads s f : file_of s = Ok f -> loads P_ex std_protos s (Ok f).
Proof.
  unfold file_of. intros H. destruct (run 300 (rule G_vrmlFile) s) as [[c [|] l| |]|] eqn:E; try discriminate.
  exists c, l. split; [exists 300; exact E|exact H].
Qed.
Definition num (s : String.string) : items := SCons (INum (lit s)) (lit " ") SNil.
Definition pin (d : option (text * text * text)) (s : String.string) : Doc_Spec.node :=
  Nd d (lit "Pin") (lit " ") (lit " ") (ACons (lit "size") (lit " ") (FPl (num s)) ANil).
(** PROTO Pin [ field SFFloat size 1 ] { DEF B Sphere { radius IS size } USE B }
    DEF C Group { children [ DEF B Cone { } USE B ] } ROUTE C.a TO B.b
    DEF A Pin { size 2 } Pin { size 3 } *)
Definition pins : doc := Doc (lit "#VRML V2.0 utf8") [10%N]
  (RCons (RProto (lit " ") (lit "Pin") (lit " ") (lit " ")
     [DField false (lit " ") (lit "SFFloat") (lit " ") (lit "size") (lit " ") (FPl (num "1"))]
     (lit " ") (lit " ")
     (RCons (Doc_Spec.RNode (Nd (Some (lit " ", lit "B", lit " ")) (lit "Sphere") (lit " ") (lit " ")
        (AIs (lit "radius") (lit " ") (lit " ") (lit "size") (lit " ") ANil))) (lit " ")
     (RCons (RUse (lit " ") (lit "B")) (lit " ") RNil))) (lit " ")
  (RCons (Doc_Spec.RNode (Nd (Some (lit " ", lit "C", lit " ")) (lit "Group") (lit " ") (lit " ")
     (ACons (lit "children") (lit " ") (FBr (lit " ")
        (SCons (INode (Nd (Some (lit " ", lit "B", lit " ")) (lit "Cone") (lit " ") (lit " ") ANil)) (lit " ")
        (SCons (IUse (lit " ") (lit "B")) (lit " ") SNil)) (lit " ")) ANil))) (lit " ")
  (RCons (RRoute (lit " ") (lit "C") (lit "a") (lit " ") (lit " ") (lit "B") (lit "b")) (lit " ")
  (RCons (Doc_Spec.RNode (pin (Some (lit " ", lit "A", lit " ")) "2")) (lit " ")
  (RCons (Doc_Spec.RNode (pin None "3")) (lit " ") RNil))))).
Example pins_ok : ok_doc pins /\ tidy_doc pins.
Proof.
  split; [|reflexivity]. cbn [ok_doc pins]. split; [dnin|]. split; [dsep|]. split; [|eauto].
  cbn -[ok_type is_name safe_name]. repeat split; try discriminate; try reflexivity; try dsep;
      try (left; eexists; split; reflexivity).
  all: try (apply (num_plain [] (lit "1")); reflexivity).
  all: try (apply (num_plain [] (lit "2")); reflexivity).
  all: try (apply (num_plain [] (lit "3")); reflexivity).
  all: try (repeat constructor; dsep).
Qed.
(** the names of the SFNode fields of the built-in nodes *)
Definition std_sfn (nm : text) : bool :=
  existsb (fun e => existsb (fun f => match f_kind f with KNode => text_eqb (f_name f) nm | _ => false end) (snd e)) std_protos.
Lemma std_sfn_all : forall gi fs g, In (gi, fs) std_protos -> In g fs -> f_kind g = KNode -> std_sfn (f_name g) = true.
Proof.
  intros gi fs g H1 H2 K. unfold std_sfn. apply existsb_exists. exists (gi, fs). split; [exact H1|]. cbn [snd].
  apply existsb_exists. exists g. split; [exact H2|]. rewrite K. apply text_eqb_spec. reflexivity.
Qed.
Definition value_of (S0 : scene) (n : nat) (t : text) : option val :=
  match s_node S0 n with Some nd => dget text_eqb (n_vals nd) t | None => None end.
(** the document is read; what is read is described by its contents; the names
    in both scenes are defined before they are used *)
Example pins_read : exists tab S0, loads P_ex std_protos (show_doc pins) (Ok (tab, S0)) /\
  (exists st, roots_read P_ex std_protos false [] ([], rs0) (sk_doc pins) (tab, st) /\ describes st S0) /\
  (forall x, scene_in (sk_doc pins) x -> defined_before_use (flat_map occs_root x)) /\
  types_known (map fst std_protos) (sk_doc pins) /\
  closed_protos std_protos [] tab /\ closed (types std_protos tab) S0 /\
  s_kids S0 = [RNode 0; RNode 2; RNode 3] /\ getDEF (s_defs S0) (lit "A") = Some 2.
Proof.
  destruct (file_of (show_doc pins)) as [[tab S0]|] eqn:E; [|exfalso; apply (f_equal (fun r => match r with Ok _ => true | _ => false end)) in E; vm_compute in E; discriminate E].
  pose proof (file_of_loads _ _ E) as L. exists tab, S0. destruct pins_ok as [Ok Ti].
  assert (Lo : forallb (lone_root std_sfn) (sk_doc pins) = true) by (vm_compute; reflexivity).
  split; [exact L|]. split; [exact (C66_reading_is_faithful _ _ _ _ _ Ok Ti L)|].
  split; [intros x; exact (C67_names_defined_before_use _ _ _ _ _ x Ok Ti std_sfn_all Lo L)|].
  split; [exact (C68_types_declared_before_use _ _ _ _ _ Ok Ti std_sfn_all Lo L)|].
  destruct (C69_no_dangling_references _ _ _ _ _ sane_ex L) as (A & B). split; [exact A|]. split; [exact B|].
  assert (V : match file_of (show_doc pins) with Base.Ok (_, S0) => Some (s_kids S0, getDEF (s_defs S0) (lit "A")) | _ => None end
              = Some ([RNode 0; RNode 2; RNode 3], Some 2)) by (vm_compute; reflexivity).
  rewrite E in V. injection V as V1 V2. split; [exact V1|exact V2].
Qed.
(** the hypotheses of C70 hold, and the first pin has lost its size *)
Example pins_lose_values : exists tab S0 p, loads P_ex std_protos (show_doc pins) (Ok (tab, S0)) /\
  dget text_eqb tab (lit "Pin") = Some p /\ dget text_eqb (s_is (p_body p)) (lit "size") = Some [(0, lit "radius")] /\
  (forall o, ~ In (mkfd (lit "size") (KNodes o)) (pfields p)) /\
  exists pre, sk_doc pins = pre ++ [SRItem (SNode (Some (lit "A")) (lit "Pin") [(lit "size", SVal [SNum (lit "2")])]);
                                    SRItem (SNode None (lit "Pin") [(lit "size", SVal [SNum (lit "3")])])] /\
  let u := VPv (PFloat (S754_finite false 6755399441055744 (-51))) in (** 3.0 *)
  value_of S0 2 (lit "size") = Some u /\ value_of S0 3 (lit "size") = Some u.
Proof.
  destruct (file_of (show_doc pins)) as [[tab S0]|] eqn:E; [|exfalso; apply (f_equal (fun r => match r with Ok _ => true | _ => false end)) in E; vm_compute in E; discriminate E].
  pose proof (file_of_loads _ _ E) as L.
  assert (V : match file_of (show_doc pins) with Base.Ok (tab, S0) => match dget text_eqb tab (lit "Pin") with
    | Some p => Some (dget text_eqb (s_is (p_body p)) (lit "size"),
                      existsb (fun f => match f_kind f with KNodes _ => true | _ => false end) (pfields p)) | None => None end | _ => None end
              = Some (Some [(0, lit "radius")], false)) by (vm_compute; reflexivity).
  rewrite E in V. destruct (dget text_eqb tab (lit "Pin")) as [p|] eqn:Ep; [|discriminate V]. injection V as V1 V2.
  exists tab, S0, p. split; [exact L|]. split; [exact Ep|]. split; [exact V1|].
  split; [intros o Ho; assert (X : existsb (fun f => match f_kind f with KNodes _ => true | _ => false end) (pfields p) = true) by (apply existsb_exists; eexists; split; [exact Ho|reflexivity]); congruence|].
  assert (W : match file_of (show_doc pins) with Base.Ok (_, S0) => Some (value_of S0 2 (lit "size"), value_of S0 3 (lit "size")) | _ => None end
    = Some (Some (VPv (PFloat (S754_finite false 6755399441055744 (-51)))), Some (VPv (PFloat (S754_finite false 6755399441055744 (-51))))))
    by (vm_compute; reflexivity).
  rewrite E in W. injection W as W1 W2.
  eexists. split; [exact (eq_refl (([SRProto _ _ _; SRItem _; SRRoute _ _ _ _] : list sroot) ++ _))|].
  cbv zeta. split; [exact W1|exact W2].
Qed.

(** C67.  Not for names in what follows the node of an SFNode field: that text is
    not looked at. *)
Definition stray : doc := Doc (lit "#VRML V2.0 utf8") [10%N]
  (RCons (Doc_Spec.RNode (Nd None (lit "Shape") (lit " ") (lit " ")
     (ACons (lit "geometry") (lit " ") (FPl
        (SCons (INode (Nd None (lit "Cone") (lit " ") (lit " ") ANil)) (lit " ")
        (SCons (IUse (lit " ") (lit "nowhere")) (lit " ") SNil))) ANil))) (lit " ") RNil).
Theorem C67_extra_entries_refuted : exists d f, ok_doc d /\ tidy_doc d /\ loads P_ex std_protos (show_doc d) (Ok f) /\
  ~ defined_before_use (flat_map occs_root (sk_doc d)).
Proof.
  exists stray. destruct (file_of (show_doc stray)) as [f|] eqn:E; [|exfalso; apply (f_equal (fun r => match r with Ok _ => true | _ => false end)) in E; vm_compute in E; discriminate E].
  exists f. split; [|split; [reflexivity|split; [exact (file_of_loads _ _ E)|]]].
  - cbn [ok_doc stray]. split; [dnin|]. split; [dsep|]. split; [|eauto].
    cbn -[is_name safe_name]. repeat split; try discriminate; try reflexivity; try dsep; eauto.
  - intros H. cbn in H.
    specialize (H [] (lit "nowhere") [] eq_refl). destruct H.
Qed.
Print Assumptions C67_extra_entries_refuted.

(** the built-in nodes meet the hypothesis of C66_meaningful_documents_are_read *)
Lemma fine_base (base : list (text * list fdecl)) :
  forallb (fun e => negb (existsb (text_eqb (fst e)) not_types) && nodupb (map f_name (snd e))) base = true ->
  forall gi fs, proto base gi = Some fs -> ~ In gi not_types /\ NoDup (map f_name fs).
Proof.
  intros H gi fs Q. unfold proto in Q. pose proof (dget_In text_eqb text_eqb_spec _ _ _ Q) as Hg.
  rewrite forallb_forall in H. specialize (H _ Hg). cbn [fst snd] in H. apply andb_prop in H as (A & B). split; [|apply nodupb_ok; exact B].
  intros Hx. assert (X : existsb (text_eqb gi) not_types = true) by (apply existsb_exists; exists gi; split; [exact Hx|apply text_eqb_spec; reflexivity]).
  rewrite X in A. discriminate.
Qed.
Example C66_std_fine : forall gi fs, proto std_protos gi = Some fs -> ~ In gi not_types /\ NoDup (map f_name fs).
Proof. exact (fine_base std_protos ltac:(vm_compute; reflexivity)). Qed.
