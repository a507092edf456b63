(** C100: scenes saved by a program that knows some node types and loaded by one
    that knows others; the types of the NURBS and shader extensions. *)
From Coq Require Import Reals SpecFloat.
From Flocq Require Import Core.Core IEEE754.BinarySingleNaN.
From Verif Require Import Base Text PyDict PyDict_Proofs Float Coerce_Model Coerce_Spec Grammar_Model Grammar_Proofs Lex_Spec Lex_Proofs
  Doc_Spec Doc_Proofs SceneGraph_Model SceneGraph_Proofs VrmlStr_Model VrmlStr_Spec VrmlStr_Values Scene_Model Scene_Spec Linearise_Model Linearise_Proofs Build_Model
  Layout_Proofs Reading_Spec Reading_Proofs Written Rebuilt Scene_Proofs Whole StdNodes ExtNodes Std_Proofs P_VrmlStr P_Grammar P_Linearise P_Scene P_Reading.
Local Open Scope nat_scope.
Local Open Scope list_scope.
Notation RNode := Scene_Model.RNode.

(** the types that both the loader [base] and the writer [protos] know are the same *)
Definition agrees (protos base : list (text * list fdecl)) : Prop :=
  forall gi fs fs', proto base gi = Some fs -> proto protos gi = Some fs' -> fs = fs'.
(** the loader knows type [gi]: it declares at least the fields of the writer,
    with the same field types and defaults *)
Definition knows (P : prims) (protos base : list (text * list fdecl)) (gi : text) : Prop :=
  forall fs, proto protos gi = Some fs -> exists fs', proto base gi = Some fs' /\
    forall f, In f fs -> exists k, find_field fs' (f_name f) = Some (mkfd (f_name f) k) /\ alike_kind P (f_kind f) k.

Section Walks.
Variable P : prims.
Variables protos base : list (text * list fdecl).
Variable N : scene.
Hypothesis WP : wf_protos P protos.
Hypothesis AG : agrees protos base.

Definition new_known (D D' : list nat) : Prop :=
  forall n, In n D' -> In n D \/ exists nd, s_node N n = Some nd /\ In (n_gi nd) (map fst base).
Lemma known_refl D : new_known D D. Proof. intros n H. auto. Qed.
Lemma known_trans D D1 D' : new_known D D1 -> new_known D1 D' -> new_known D D'.
Proof. intros A B n H. destruct (B n H) as [H1|H1]; auto. Qed.
Lemma refs_plain D l D' is : walk_refs P protos N no_maps D l D' is -> forallb plain is = true -> D' = D.
Proof.
  intros W. destruct W as [|D r D1 i l D' is Wi Wl]; [reflexivity|]. cbn. intros H. apply andb_true_iff in H as [H _]. destruct Wi; discriminate.
Qed.
Lemma item_tidy_all :
  (forall D r D' i, walk_ref P protos N no_maps D r D' i -> nodeish i = true /\ tidy i = true) /\
  (forall D l D' is, walk_refs P protos N no_maps D l D' is -> forallb nodeish is = true /\ forallb tidy is = true) /\
  (forall n D fs D' l, walk_attrs P protos N no_maps n D fs D' l ->
     forallb (fun p => match snd p with SVal its => tidy_value its && forallb tidy its | SIs _ => true end) l = true) /\
  (forall D f v D' is, walk_val P protos N no_maps D f v D' is -> tidy_value is = true /\ forallb tidy is = true).
Proof.
  apply walk_mut; cbn [nodeish tidy forallb tidy_value snd]; auto.
  - intros D r D1 i l D' is _ [H1 H2] _ [H3 H4]. rewrite H1, H2, H3, H4. auto.
  - intros n D f v D1 is fs D' l _ _ _ _ [H1 H2] _ H3. rewrite H1, H2, H3. reflexivity.
  - intros D f t d v its _ Pl _. split.
    + destruct its as [|i its]; [reflexivity|]. cbn. cbn in Pl. rewrite Pl. apply orb_true_r.
    + clear - Pl. induction its as [|i its IH]; [reflexivity|]. cbn in *. apply andb_true_iff in Pl as [A B]. rewrite (IH B), andb_true_r. destruct i; try discriminate; reflexivity.
  - intros D f r D' i _ _ [H1 H2]. rewrite H1, H2. auto.
  - intros D f o l D' is _ _ [H1 H2]. split; [|exact H2]. destruct is as [|i is]; [reflexivity|]. cbn in *. apply andb_true_iff in H1 as [H1 _]. rewrite H1. reflexivity.
Qed.
Lemma known_all inp :
  (forall D r D' i, walk_ref P protos N no_maps D r D' i -> forall st st' x, item_reads P base inp [] st i st' x -> new_known D D') /\
  (forall D l D' is, walk_refs P protos N no_maps D l D' is -> forall st st' x, items_read P base inp [] st is st' x -> new_known D D') /\
  (forall n D fs D' l, walk_attrs P protos N no_maps n D fs D' l -> forall m gi fs0 st st', incl fs fs0 -> NoDup (map f_name fs0) ->
     attrs_read P base inp [] m gi fs0 st l st' -> new_known D D') /\
  (forall D f v D' is, walk_val P protos N no_maps D f v D' is -> forall st st' x, value_reads P base inp [] st f is st' x -> new_known D D').
Proof.
  apply walk_mut.
  - intros D st st' x _. apply known_refl.
  - intros D n nd _ _ _ st st' x _. apply known_refl.
  - intros D n nd fs D' l Nn Nd Pr _ IH st st' x R. inversion R as [| |st0 d gi fs1 l0 st1 Pb _ At|]; subst.
    assert (Pb' : proto base (n_gi nd) = Some fs1) by exact Pb. pose proof (AG _ _ _ Pb' Pr) as ->.
    eapply known_trans; [|eapply IH; [|exact (proj1 (proj2 (proj2 (WP _ _ Pr))))|exact At]].
    + intros m [<-|H]; [|auto]. right. exists nd. split; [exact Nd|]. apply (dget_In text_eqb text_eqb_spec) in Pb'. apply (in_map fst) in Pb'. exact Pb'.
    + intros f Hf. eapply Permutation.Permutation_in; [apply sort_perm|exact Hf].
  - intros D st st' x _. apply known_refl.
  - intros D r D1 i l D' is _ IH1 _ IH2 st st' x R. inversion R; subst. eapply known_trans; [eapply IH1|eapply IH2]; eassumption.
  - intros n D m gi fs0 st st' _ _ _. apply known_refl.
  - intros n D f v pn fs D' l _ _ Im. discriminate Im.
  - intros n D f v fs D' l _ _ _ _ IH m gi fs0 st st' I ND R. eapply IH; [|exact ND|exact R]. intros g Hg. apply I. right. exact Hg.
  - intros n D f v D1 is fs D' l _ _ _ _ IHv _ IH m gi fs0 st st' I ND R. inversion R as [|n0 gi0 fs1 st0 f0 its st1 v0 l0 st2 Hf Vr At|]; subst.
    assert (f0 = f) as ->.
    { assert (F1 : find_field fs0 (f_name f0) = Some f0) by (apply find_field_in; auto).
      assert (F2 : find_field fs0 (f_name f) = Some f) by (apply find_field_in; [exact ND|apply I; left; reflexivity]). congruence. }
    eapply known_trans; [eapply IHv; exact Vr|eapply IH; [|exact ND|exact At]]. intros g Hg. apply I. right. exact Hg.
  - intros D f t d v its _ _ _ st st' x _. apply known_refl.
  - intros D f r D' i K _ IH st st' x R. inversion R; subst; try congruence. eapply IH. eassumption.
  - intros D f o l D' is K W IH st st' x R. inversion R; subst; try congruence.
    + eapply IH. eassumption.
    + match goal with H : forallb plain is = true |- _ => rewrite (refs_plain _ _ _ _ W H) end. apply known_refl.
Qed.
Lemma roots_known is D l D' rt st s' : walk_refs P protos N no_maps D l D' is ->
  Forall (fun r => match r with SRRoute _ _ _ _ => True | _ => False end) rt ->
  roots_read P base false [] ([], st) (map SRItem is ++ rt) s' -> new_known D D'.
Proof.
  intros W Rt. revert st. induction W as [D|D r D1 i l D' is Wi Wl IH]; intros st R; [apply known_refl|].
  inversion R as [|inp e s r0 s1 l0 s2 R1 R2]; subst. inversion R1; subst.
  eapply known_trans; [eapply (proj1 (known_all false)); [exact Wi|]|eapply IH; exact R2]. eassumption.
Qed.
End Walks.

(** C100.  A saved scene that reaches a node of a type the loader does not know is
    not loaded: the text parses, and an exception is raised. *)
Theorem C100_unknown_types_are_refused : forall P fstr protos base st S n nd,
  wf_protos P protos -> agrees protos base -> wf_scene P protos S -> ok_settings st -> faithful fstr ->
  reach P protos S n -> s_node S n = Some nd -> ~ In (n_gi nd) (map fst base) ->
  exists text, linearise P fstr protos st S = Some text /\
    (exists e, loads P base text (Exc e)) /\ forall F, ~ loads P base text (Ok F).
Proof.
  intros P fstr protos base st S n nd WP AG WS ST FS Re Nd Un.
  destruct (written P fstr protos st S WP WS ST FS) as (text & d & N & D' & is & El & -> & Okd & (dn & EN & NM) & H1 & H2 & H4 & Wk & Nn & Sk & Rc).
  exists (show_doc d). split; [exact El|].
  assert (No : forall F, ~ loads P base (show_doc d) (Ok F)).
  { intros [tab S'] L.
    assert (Ti : tidy_doc d).
    { unfold tidy_doc. rewrite Sk, forallb_app. apply andb_true_iff. split.
      - destruct (proj1 (proj2 (item_tidy_all P protos N)) _ _ _ _ Wk) as [_ T]. clear - T. induction is as [|i is IH]; [reflexivity|].
        cbn in *. apply andb_true_iff in T as [A B]. rewrite A. exact (IH B).
      - clear. induction (s_routes S) as [|r l IH]; [reflexivity|]. exact IH. }
    destruct (C66_reading_is_faithful P base d tab S' Okd Ti L) as (x & R & _). rewrite Sk in R.
    assert (K : new_known base N [] D').
    { eapply roots_known; [exact WP|exact AG|exact Wk| |exact R]. apply Forall_forall. intros r Hr. apply in_map_iff in Hr as (y & <- & _). exact Logic.I. }
    destruct (K n (Rc n Re)) as [[]|(nd' & Nd' & Kn)]. subst N. change (s_node S n = Some nd') in Nd'. rewrite Nd in Nd'. injection Nd' as <-. exact (Un Kn). }
  split; [|exact No].
  destruct (loads_doc P base d Okd) as (ch & _ & L). destruct (build_scene P base ctx0 ch file0) as [F|e] eqn:E; [destruct (No F L)|exists e; exact L].
Qed.
Print Assumptions C100_unknown_types_are_refused.

(** C100.  A saved scene is loaded as the same scene by every loader that knows
    its node types, whatever other types and whatever further fields it knows. *)
Theorem C100_known_types_are_enough : forall P fstr protos base st S,
  wf_protos P protos -> wf_scene P protos S -> ok_settings st -> faithful fstr ->
  (forall n nd, s_node S n = Some nd -> knows P protos base (n_gi nd)) ->
  exists text S', linearise P fstr protos st S = Some text /\ loads P base text (Ok ([], S')) /\ same_scene P protos S S'.
Proof.
  intros P fstr protos base st S WP WS ST FS KN.
  destruct (written P fstr protos st S WP WS ST FS) as (text & d & N & D' & is & El & -> & Okd & (dn & EN & NM) & H1 & H2 & H4 & Wk & Nn & Sk & Rc).
  destruct (loads_doc P base d Okd) as (ch & Ech & L). rewrite Sk in Ech.
  destruct (rebuilt_roots P base ctx0 [] protos S no_maps N dn D' is ch WP WS) as (S' & rho & Eb & I2 & Okn2 & Sl & Sr); auto.
  { intros n nd fs Nd Pr. destruct (KN n nd Nd fs Pr) as (fs' & Pb & Hf). exists fs'. split; [exact Pb|]. split; [reflexivity|].
    intros f Hf'. destruct (Hf f Hf') as (k & F & A). exists (mkfd (f_name f) k). auto. }
  { intros n nd fs f v Nd Pr Hf G Im Dr. exact Logic.I. }
  { discriminate. }
  exists (show_doc d), S'. split; [exact El|]. split; [unfold file0 in L; rewrite Eb in L; exact L|].
  destruct (bi_fun _ _ _ I2) as (F1 & F2).
  exists (Rho rho). split; [exact F1|]. split; [exact F2|]. split; [exact Sl|]. split; [exact Sr|].
  intros a b Hab. destruct (bi_node _ _ _ I2 a b Hab) as (nd & ndb & Na & Nb & Gi & Df & Gd).
  assert (NodesN : forall n nd, s_node N n = Some nd -> exists fs, proto protos (n_gi nd) = Some fs /\
    forall f, In f fs -> exists v, fget P N n f = Ok v /\ ok_value N f v) by (subst N; exact (wf_nodes _ _ _ WS)).
  destruct (NodesN a nd Na) as (fs & Pr & _). exists nd, ndb, fs. rewrite Forall_forall in Okn2.
  assert (NaS : s_node S a = Some nd) by (subst N; exact Na).
  split; [exact NaS|]. split; [exact Nb|]. split; [exact Gi|].
  split; [rewrite Df; exact (H1 a)|]. split; [rewrite Df; exact Gd|]. split; [exact Pr|].
  intros f Hf. destruct (proj1 (Okn2 _ Hab nd fs Na Pr) f Hf eq_refl) as (v & v' & G1 & G2 & Sv & _). exists v, v'.
  split; [subst N; exact G1|]. auto.
Qed.
Print Assumptions C100_known_types_are_enough.

(** *** the NURBS and shader extensions *)
(** the types a program with the extensions has; those of the default loader:
    basenamespaces.py 13-28 takes the types of basenodes.py *)
Definition with_extensions : list (text * list fdecl) := std_but_font ++ nurbs_protos ++ shader_protos.
Lemma ext_decls P : Forall (fun p => Forall (ok_decl P) (snd p)) (nurbs_protos ++ shader_protos).
Proof.
  unfold nurbs_protos, shader_protos. cbn [app].
  repeat (apply Forall_cons; [cbn [snd];
    unfold Contour2D_decl, Polyline2D_decl, NurbsCurve2D_decl, NurbsCurve_decl, NurbsSurface_decl, TrimmedSurface_decl, NurbsGroup_decl,
      IntUniform_decl, TextureUniform_decl, TextureBufferUniform_decl, GLSLShader_decl, GLSLImport_decl, GLSLObject_decl, Shader_decl; decls|]).
  apply Forall_nil.
Qed.
Lemma ext_checked : forallb (fun p => safe_name (fst p) && negb (text_eqb (fst p) (lit "sceneGraph")) &&
  nodupb (map f_name (snd p))) (nurbs_protos ++ shader_protos) = true.
Proof. vm_compute. reflexivity. Qed.
Lemma plain_wf P l : forallb (fun p => safe_name (fst p) && negb (text_eqb (fst p) (lit "sceneGraph")) && nodupb (map f_name (snd p))) l = true ->
  Forall (fun p => Forall (ok_decl P) (snd p)) l -> wf_protos P l.
Proof.
  intros C Q gi fs H. apply (dget_In text_eqb text_eqb_spec) in H.
  rewrite forallb_forall in C. specialize (C _ H). cbn [fst snd] in C. apply andb_true_iff in C as [C C3]. apply andb_true_iff in C as [C1 C2].
  split; [exact C1|]. split; [intros E; rewrite (proj2 (text_eqb_spec _ _) E) in C2; discriminate|].
  split; [apply nodupb_ok; exact C3|]. rewrite Forall_forall in Q. exact (Q _ H).
Qed.
Lemma proto_app l1 l2 gi fs : proto (l1 ++ l2) gi = Some fs -> proto l1 gi = Some fs \/ proto l2 gi = Some fs.
Proof. unfold proto. induction l1 as [|[a b] l1 IH]; cbn; [auto|]. destruct (text_eqb a gi); auto. Qed.
Lemma wf_app P l1 l2 : wf_protos P l1 -> wf_protos P l2 -> wf_protos P (l1 ++ l2).
Proof. intros A B gi fs H. apply proto_app in H as [H|H]; [exact (A _ _ H)|exact (B _ _ H)]. Qed.

(** C100.  The extension types have the fields and defaults that can be saved:
    scenes of standard and extension types are saved, and loaded again by a loader
    that is given these types. *)
Theorem C100_extensions_wf : forall P, wf_protos P with_extensions.
Proof.
  intros P. exact (wf_app P _ _ (std_wf P) (plain_wf P _ ext_checked (ext_decls P))).
Qed.
Print Assumptions C100_extensions_wf.
Theorem C100_extension_scenes_with_extended_loader : forall P fstr st S,
  wf_scene P with_extensions S -> ok_settings st -> faithful fstr ->
  exists text S', linearise P fstr with_extensions st S = Some text /\ loads P with_extensions text (Ok ([], S')) /\ same_scene P with_extensions S S'.
Proof.
  intros P fstr st S WS ST FS. apply C100_known_types_are_enough; auto; [apply C100_extensions_wf|].
  intros n nd Nd fs Pr. exists fs. split; [exact Pr|]. intros f Hf. exists (f_kind f). split; [|apply alike_refl].
  destruct f as [nm k]. apply (find_field_in fs (mkfd nm k)); [|exact Hf]. apply (C100_extensions_wf P _ _ Pr).
Qed.
Print Assumptions C100_extension_scenes_with_extended_loader.

Lemma ext_new x : In x (map fst (nurbs_protos ++ shader_protos)) -> ~ In x (map fst std_protos).
Proof.
  intros Ex H.
  assert (C : forallb (fun x => negb (existsb (text_eqb x) (map fst std_protos))) (map fst (nurbs_protos ++ shader_protos)) = true) by (vm_compute; reflexivity).
  rewrite forallb_forall in C. specialize (C _ Ex). apply negb_true_iff in C. assert (existsb (text_eqb x) (map fst std_protos) = true); [|congruence].
  apply existsb_exists. exists x. split; [exact H|apply text_eqb_spec; reflexivity].
Qed.
Lemma agrees_named (g : text -> bool) l ext : (forall x, In x (map fst ext) -> ~ In x (map fst l)) ->
  agrees (filter (fun p => negb (g (fst p))) l ++ ext) l.
Proof.
  intros Nw gi fs fs' H H'. apply proto_app in H' as [H'|H'].
  - revert H H'. unfold proto. clear. induction l as [|[n x] l IH]; cbn [dget filter fst]; [discriminate|]. destruct (text_eqb n gi) eqn:E.
    + intros H. injection H as ->. destruct (g n) eqn:F; cbn [negb dget]; [|rewrite E; congruence].
      apply text_eqb_spec in E. subst. intros H. exfalso. apply (dget_In text_eqb text_eqb_spec) in H. apply filter_In in H as [_ H].
      cbn [fst] in H. rewrite F in H. discriminate H.
    + destruct (g n); cbn [negb dget]; [exact IH|]. rewrite E. exact IH.
  - exfalso. apply (dget_In text_eqb text_eqb_spec) in H, H'. exact (Nw gi (in_map fst _ _ H') (in_map fst _ _ H)).
Qed.
Lemma ext_agrees : agrees with_extensions std_protos.
Proof. exact (agrees_named (fun x => text_eqb x (lit "FontStyle")) std_protos _ ext_new). Qed.

(** C100 (refuted): the default loader loads no saved scene that has a node of an
    extension type. *)
Theorem C100_extension_scenes_by_default_refuted : forall P fstr st S n nd,
  wf_scene P with_extensions S -> ok_settings st -> faithful fstr ->
  reach P with_extensions S n -> s_node S n = Some nd -> In (n_gi nd) (map fst (nurbs_protos ++ shader_protos)) ->
  exists text, linearise P fstr with_extensions st S = Some text /\ forall F, ~ loads P std_protos text (Ok F).
Proof.
  intros P fstr st S n nd WS ST FS Re Nd Ex.
  destruct (C100_unknown_types_are_refused P fstr with_extensions std_protos st S n nd (C100_extensions_wf P) ext_agrees WS ST FS Re Nd (ext_new _ Ex)) as (text & El & _ & No).
  exists text. split; [exact El|exact No].
Qed.
Print Assumptions C100_extension_scenes_by_default_refuted.

(** such scenes exist: a shape whose geometry is a NURBS curve with an order
    and a name, next to a shader *)
Definition curve_nodes : list snode :=
  [mksn (lit "Shape") [(lit "geometry", VRef (RNode 1)); (lit "appearance", VRef (RNode 2))] [];
   mksn (lit "NurbsCurve") [(lit "order", VPv (PInt 4)); (lit "tessellation", VPv (PInt 5))] [];
   mksn (lit "Shader") [(lit "objects", VRefs [RNode 3])] [];
   mksn (lit "GLSLObject") [(lit "role", VPv (PStr (lit "DEPTH")))] []].
Definition curve : scene :=
  mkscene 4 (nth_error curve_nodes) {| defs := [(lit "Path", 1)]; ndef := fun n => match n with 1 => lit "Path" | _ => [] end |} [RNode 0] [] [].
Lemma ext_plain : Forall (fun p => Forall plain_default (snd p)) (nurbs_protos ++ shader_protos).
Proof.
  unfold nurbs_protos, shader_protos. cbn [app].
  repeat (apply Forall_cons; [cbn [snd]; repeat (apply Forall_cons; [unfold plain_default; cbn [f_kind]; first [exact Logic.I | cbn; repeat split; reflexivity|cbn]|]); apply Forall_nil|]). apply Forall_nil.
Qed.
Lemma curve_wf : wf_scene P_ex with_extensions curve.
Proof.
  split.
  - intros n nd H. cbn [curve s_node s_next] in *. change 4 with (List.length curve_nodes). apply nth_error_Some. congruence.
  - split; [discriminate|]. repeat constructor; eexists; reflexivity.
  - apply (set_fields_ok P_ex with_extensions curve sane_ex (C100_extensions_wf P_ex)).
    { unfold with_extensions. apply Forall_app. split; [exact (Forall_filter _ _ _ std_plain)|exact ext_plain]. }
    intros n nd H. cbn [curve s_node] in H.
    destruct n as [|[|[|[|n]]]]; [| | | |destruct n; discriminate H]; injection H as <-; (eexists; split; [vm_compute; reflexivity|]);
    set_fields.
  - intros n nd H Hn. destruct n as [|[|[|[|n]]]]; try (exfalso; apply Hn; reflexivity). split; vm_compute; reflexivity.
  - repeat constructor. intros [].
  - intros n. left. assert (E : all_refs P_ex with_extensions curve = [0; 1; 2; 3]) by (vm_compute; reflexivity). rewrite E.
    destruct n as [|[|[|[|n]]]]; cbn; lia.
  - intros r [].
Qed.
Example C100_case : wf_scene P_ex with_extensions curve /\ ok_settings set_defaults /\ faithful FloatStr.exact_str /\
  (exists nd, reach P_ex with_extensions curve 1 /\ s_node curve 1 = Some nd /\ In (n_gi nd) (map fst (nurbs_protos ++ shader_protos))).
Proof.
  split; [exact curve_wf|]. split; [exact st_default|]. split; [exact FloatStr.exact_faithful|]. eexists. split; [|split; [reflexivity|]].
  - apply (reach_field _ _ _ 0); [constructor; left; reflexivity|]. assert (E : node_refs P_ex with_extensions curve 0 = [1; 2]) by (vm_compute; reflexivity). rewrite E. cbn. auto.
  - cbn. auto 10.
Qed.
(** a loader that knows a further type and a further field of NurbsCurve also reads
    it *)
Definition richer : list (text * list fdecl) :=
  (lit "Extra", []) :: (lit "NurbsCurve", mkfd (lit "closed") (KVal SFBool (PBool false)) :: NurbsCurve_decl) :: with_extensions.
Example C100_richer_case : forall n nd, s_node curve n = Some nd -> knows P_ex with_extensions richer (n_gi nd).
Proof.
  intros n nd H fs Pr. cbn [curve s_node] in H.
  destruct n as [|[|[|[|n]]]]; [| | | |destruct n; discriminate H]; injection H as <-; vm_compute in Pr; injection Pr as <-;
  (eexists; split; [vm_compute; reflexivity|]);
  intros f Hf; repeat (destruct Hf as [<-|Hf]; [eexists; split; [vm_compute; reflexivity|first [exact Logic.I|split; reflexivity]]|]); destruct Hf.
Qed.

(** *** types without a name *)
(** ShaderSlice, ShaderAttribute, ShaderBuffer, ShaderIndexBuffer and FloatUniform
    (shaders.py 28-69) do not set PROTO and have the name of node.py 52, which is
    empty.  A text that starts with such a node is not read. *)
Lemma f_nameless d k : d = [] \/ (exists nm, is_name nm = true /\ d = lit "DEF " ++ nm ++ lit " ") ->
  fails (NT G_rootItem) (10%N :: d ++ lit " {" ++ k).
Proof.
  intros H. apply f_nt. cbn [rule sq]. fold root_e.
  assert (Ns : no_sep (lit "{" ++ k)) by (apply no_sep_head; reflexivity).
  assert (Fn : fails (NT G_nodegi) (lit "{" ++ k)) by (apply Doc_Proofs.f_gi; apply Doc_Proofs.f_name; reflexivity).
  destruct H as [->|(nm & Hn & ->)].
  - eapply f_seq2; [apply (r_ts [10%N; 32%N] (lit "{" ++ k)); [reflexivity|repeat (apply sep_blank; [reflexivity|]); constructor|exact Ns]|].
    apply f_seq. fold root_e. unfold root_e. cbn [al].
    do 3 (apply f_alt; [apply f_nt; apply f_seq; apply f_lit; reflexivity|]).
    apply f_alt; [apply f_use; reflexivity|]. apply f_alt; [apply f_script; reflexivity|]. apply f_node_noname; [reflexivity|]. apply Doc_Proofs.f_name. reflexivity.
  - eapply f_seq2; [apply (r_ts [10%N]); [reflexivity|apply sep_blank; [reflexivity|constructor]|apply no_sep_head; reflexivity]|].
    apply f_seq. fold root_e. unfold root_e. cbn [al].
    replace ((lit "DEF " ++ nm ++ lit " ") ++ lit " {" ++ k) with (lit "DEF" ++ [32%N] ++ nm ++ [32%N; 32%N] ++ lit "{" ++ k)
      by (cbn; rewrite <- app_assoc; reflexivity).
    assert (Rd : reads def_e (lit "DEF" ++ [32%N] ++ nm ++ [32%N; 32%N] ++ lit "{" ++ k) (lit "{" ++ k) [tname nm]).
    { apply r_def; auto; try discriminate; repeat (apply sep_blank; [reflexivity|]); constructor. }
    do 3 (apply f_alt; [apply f_nt; apply f_seq; apply f_lit; reflexivity|]).
    apply f_alt; [apply f_use; reflexivity|]. apply f_alt.
    + apply f_nt. rewrite Script_rule. eapply f_seq2; [exact Rd|]. apply f_seq. apply f_lit. reflexivity.
    + apply f_nt. rewrite Node_rule. eapply f_seq2; [exact Rd|]. apply f_seq. exact Fn.
Qed.
Lemma nameless_text P fstr protos st S fuel n nd s' : s_node S n = Some nd -> n_gi nd = [] ->
  lin P fstr protos st S no_maps fuel (RNode n) (mklst [] [] 0) = LOk s' -> exists k, l_buf s' = def_text S n ++ lit " {" ++ k.
Proof.
  intros Nd Gi E. destruct fuel as [|fuel]; [discriminate|]. cbn [lin] in E. unfold linear in E. rewrite Nd, Gi in E.
  change (text_eqb [] script_gi) with false in E. change (text_eqb [] (lit "sceneGraph") || text_eqb [] (lit "NULL")) with false in E. cbv iota in E.
  destruct (proto protos []) as [fs|]; [|discriminate]. rewrite node_body_eq in E. unfold can_use in E. cbn [l_done dget] in E. cbv zeta in E.
  apply lbind_ok in E as (s3 & E & [= <-]). apply each_extends in E as [t E].
  - match goal with |- context [closed st S n ?a ?b ?g s3] => destruct (closed_extends st S n a b g s3) as [u ->] end.
    rewrite E. cbn [more emit mark l_buf app]. eexists. rewrite <- !app_assoc. reflexivity.
  - intros f s1 s2 E2. eapply attr_extends; [|exact E2]. apply lin_extends.
Qed.
(** C100 (refuted): a node of such a type, written by itself or as the first node
    of a scene, gives a text that cannot be parsed. *)
Theorem C100_nameless_types_refuted : forall P fstr protos st S n nd text,
  s_node S n = Some nd -> n_gi nd = [] -> node_def S n = [] \/ is_name (node_def S n) = true ->
  linearise_node P fstr protos st S n = Some text \/
    (linearise P fstr protos st S = Some text /\ s_routes S = [] /\ exists l, s_kids S = RNode n :: l) ->
  parses (NT G_vrmlFile) text PErr.
Proof.
  intros P fstr protos st S n nd text Nd Gi Df H.
  assert (Q : exists k, text = header ++ 10%N :: def_text S n ++ lit " {" ++ k).
  { destruct H as [H|(H & Rt & l & K)].
    - unfold linearise_node, finish in H. destruct (lin _ _ _ _ _ _ _ _ _) as [s| |] eqn:E; try discriminate. injection H as <-.
      destruct (nameless_text _ _ _ _ _ _ _ _ _ Nd Gi E) as (k & ->). exists k. reflexivity.
    - unfold linearise, finish, lin_scene, named in H. rewrite Rt in H. cbn [map preroutes] in H.
      destruct (scene_body _ _ _ _ _ _ _ _) as [s| |] eqn:E; try discriminate. injection H as <-.
      unfold scene_body in E. cbn [with_defs s_kids s_routes] in E. rewrite K, Rt in E. cbn [each] in E.
      apply lbind_ok in E as (s1 & E & [= <-]). apply lbind_ok in E as (s2 & E & Er). apply lbind_ok in E as (s3 & E & [= <-]).
      apply (nameless_text P fstr protos st _ _ n nd) in E as (k & B); [|exact Nd|exact Gi].
      apply each_extends in Er as (t & Er).
      + cbn [emit l_buf] in *. rewrite Er, B. eexists. unfold def_text. cbn [with_defs s_defs]. rewrite <- !app_assoc. reflexivity.
      + intros x y z Ex. apply lbind_ok in Ex as (y1 & Ex & [= <-]). apply lin_extends in Ex as (t & Ex). cbn [emit l_buf]. rewrite Ex, <- app_assoc. eexists. reflexivity. }
  destruct Q as (k & ->).
  eapply (e_file_rest header _ 10%N); [vm_compute; intuition discriminate|].
  apply r_nt; [reflexivity|reflexivity|]. cbn [rule]. apply r_star0. apply f_nameless. unfold def_text.
  destruct (node_def S n) as [|c d] eqn:E; [left; reflexivity|]. destruct Df as [Df|Df]; [discriminate|]. right. exists (c :: d). auto.
Qed.
Print Assumptions C100_nameless_types_refuted.
(** such nodes are written: a ShaderSlice with its default fields left out *)
Example C100_nameless_case : exists text,
  linearise_node P_ex FloatStr.exact_str [([], [mkfd (lit "uniforms") (KNodes false)])] set_defaults (mkscene 1 (nth_error [mksn [] [] []]) dempty [RNode 0] [] []) 0 = Some text.
Proof. eexists. vm_compute. reflexivity. Qed.
