(** C85, C86: Scripts and EXTERNPROTOs are read as they are written. *)
From Coq Require Import Reals SpecFloat.
From Flocq Require Import Core.Core IEEE754.BinarySingleNaN.
From Verif Require Import Base Text PyDict PyDict_Proofs Float Coerce_Model Coerce_Spec Grammar_Model Grammar_Proofs Lex_Spec Lex_Proofs
  Doc_Spec Doc_Proofs SceneGraph_Model VrmlStr_Model VrmlStr_Proofs VrmlStr_Values Scene_Model Scene_Spec Build_Model Reading_Spec Reading_Proofs Reading_Facts
  Closed_Spec Closed_Proofs StdNodes Std_Proofs P_VrmlStr P_Grammar P_Linearise P_Scene P_Reading Script_Spec Script_Proofs.
Local Open Scope nat_scope.
Local Open Scope list_scope.

(** *** helpers *)
Section Kids.
Variable P : prims.
Variable base : list (text * list fdecl).
Variable inp : bool.
Variable e : list (text * pdef).
Lemma kids_maps n ms : forall st, r_kids (with_maps n ms st) = r_kids st.
Proof. unfold with_maps. induction ms as [|m ms IH]; intros st; [reflexivity|]. cbn [fold_left]. rewrite IH. reflexivity. Qed.
Lemma kids_value n gi f v st : r_kids (set_value e n gi f v st) = r_kids st.
Proof. unfold set_value. destruct (passed_on e gi f); reflexivity. Qed.
Lemma kids_kept :
  (forall st i st' r, item_reads P base inp e st i st' r -> r_kids st' = r_kids st) /\
  (forall st l st' rs, items_read P base inp e st l st' rs -> r_kids st' = r_kids st) /\
  (forall n gi fs st l st', attrs_read P base inp e n gi fs st l st' -> r_kids st' = r_kids st) /\
  (forall st f its st' v, value_reads P base inp e st f its st' v -> r_kids st' = r_kids st) /\
  (forall st ex ty its st' m, member_reads P base inp e st ex ty its st' m -> r_kids st' = r_kids st) /\
  (forall n st ms l st' ms', sdecls_read P base inp e n st ms l st' ms' -> r_kids st' = r_kids st) /\
  (forall n st l st', sattrs_read P base inp e n st l st' -> r_kids st' = r_kids st).
Proof.
  apply item_reads_all; intros; try reflexivity; try assumption; try congruence;
    repeat match goal with H : r_kids _ = _ |- _ => rewrite ?kids_maps, ?kids_value in H end; cbn [with_sets with_member with_is enter_node r_kids] in *; congruence.
Qed.
(** nothing is said about nodes to come *)
Definition fresh (st : rstate) : Prop := sets_below st /\ mems_below st.
Lemma fresh_same st st' : r_sets st' = r_sets st -> r_mems st' = r_mems st -> r_next st <= r_next st' -> fresh st -> fresh st'.
Proof. unfold fresh, sets_below, mems_below. intros -> -> L [A B]. split; (eapply Forall_impl; [|eassumption]); cbn; lia. Qed.
Definition tended (st st' : rstate) : Prop := fresh st -> fresh st' /\ r_next st <= r_next st'.
Lemma tended_refl st : tended st st. Proof. intros H. split; [exact H|lia]. Qed.
Lemma tended_enter d gi st : tended st (enter_node d gi st).
Proof. intros H. assert (L : r_next st <= r_next (enter_node d gi st)) by (unfold r_next; cbn [enter_node r_nodes]; rewrite app_length; lia). split; [|exact L]. refine (fresh_same st _ _ _ L H); reflexivity. Qed.
Lemma tended_trans a b c : tended a b -> tended b c -> tended a c.
Proof. intros H1 H2 F. destruct (H1 F) as [F1 L1]. destruct (H2 F1) as [F2 L2]. split; [exact F2|lia]. Qed.
Lemma tended_maps n ms : forall st, tended st (with_maps n ms st).
Proof. unfold with_maps. induction ms as [|m ms IH]; intros st; [apply tended_refl|]. cbn [fold_left]. apply (tended_trans _ (with_is (fst m) n (snd m) st)); [|apply IH]. intros H. split; [exact H|]. unfold r_next. cbn. lia. Qed.
Lemma tended_sets l st : Forall (fun x => fst (fst x) < r_next st) l -> tended st (with_sets l st).
Proof. intros Hl [A B]. split; [|unfold r_next; cbn; lia]. split; [|exact B]. unfold sets_below. cbn [with_sets r_sets]. apply Forall_app. split; [exact Hl|exact A]. Qed.
Lemma tended_value n gi f v st : n < r_next st -> tended st (set_value e n gi f v st).
Proof.
  intros L. unfold set_value. destruct (passed_on e gi f); apply tended_sets.
  - apply Forall_forall. intros x Hx. apply in_map_iff in Hx as (m & <- & Hm). apply filter_In in Hm as [Hm _]. apply in_seq in Hm. cbn. lia.
  - constructor; [exact L|constructor].
Qed.
Lemma tended_member n nm m st : n < r_next st -> tended st (with_member n nm m st).
Proof. intros L [A B]. split; [|unfold r_next; cbn; lia]. split; [exact A|]. constructor; [exact L|exact B]. Qed.
Lemma all_tended :
  (forall st i st' r, item_reads P base inp e st i st' r -> tended st st') /\
  (forall st l st' rs, items_read P base inp e st l st' rs -> tended st st') /\
  (forall n gi fs st l st', attrs_read P base inp e n gi fs st l st' -> n < r_next st -> tended st st') /\
  (forall st f its st' v, value_reads P base inp e st f its st' v -> tended st st') /\
  (forall st ex ty its st' m, member_reads P base inp e st ex ty its st' m -> tended st st') /\
  (forall n st ms l st' ms', sdecls_read P base inp e n st ms l st' ms' -> n < r_next st -> tended st st') /\
  (forall n st l st', sattrs_read P base inp e n st l st' -> n < r_next st -> tended st st').
Proof.
  assert (En : forall d gi st, r_next st < r_next (enter_node d gi st)) by (intros; unfold r_next; cbn [enter_node r_nodes]; rewrite app_length; cbn; lia).
  assert (Nv : forall n gi f v st, r_next (set_value e n gi f v st) = r_next st) by (intros; unfold set_value; destruct (passed_on e gi f); reflexivity).
  assert (Nm : forall n ms st, r_next (with_maps n ms st) = r_next st).
  { intros n ms. unfold with_maps. induction ms as [|m ms IH]; intros st; [reflexivity|]. cbn [fold_left]. rewrite IH. reflexivity. }
  apply item_reads_all; try (intros; apply tended_refl); try (intros; assumption).
  - intros st d gi fs l st' _ _ _ IH. exact (tended_trans _ _ _ (tended_enter d gi st) (IH (En d gi st))).
  - intros st d l st1 ms st' _ IH1 _ _ IH2 F. destruct (tended_enter d script_gi st F) as [F1 L1]. destruct (IH1 (En d script_gi st) F1) as [F2 L2].
    pose proof (En d script_gi st). destruct (tended_maps (r_next st) ms _ F2) as [F3 L3]. assert (Lm : r_next st < r_next (with_maps (r_next st) ms st1)) by (rewrite Nm; lia). destruct (IH2 Lm F3) as [F4 L4]. split; [exact F4|lia].
  - intros st i st1 r l st' rs _ IH1 _ IH2. exact (tended_trans _ _ _ IH1 IH2).
  - intros n gi fs st f its st1 v l st' _ _ IH1 _ IH2 L F. destruct (IH1 F) as [F1 L1]. pose proof (Nat.lt_le_trans _ _ _ L L1) as L'. destruct (tended_value n gi f v st1 L' F1) as [F2 L2].
    rewrite Nv in *. destruct (IH2 L' F2) as [F3 L3]. rewrite Nv in L3. split; [exact F3|lia].
  - intros n gi fs st nm pn l st' _ _ IH L F. exact (IH L F).
  - intros n st ms ex ty nm its st1 m l st' ms' _ _ IH1 _ IH2 L F. destruct (IH1 F) as [F1 L1].
    pose proof (Nat.lt_le_trans _ _ _ L L1) as L'. exact (let (F2, _) := tended_member n nm m st1 L' F1 in let (F3, L3) := IH2 L' F2 in conj F3 (Nat.le_trans _ _ _ L1 L3)).
  - intros n st ms ex ty nm k pn l st' ms' _ _ _ IH L. exact (tended_trans _ _ _ (tended_member n nm _ st L) (IH L)).
  - intros n st ms out ty nm pn l st' ms' _ _ _ IH L. exact (tended_trans _ _ _ (tended_member n nm _ st L) (IH L)).
  - intros; auto.
  - intros; auto.
  - intros n st f its st1 v l st' _ _ IH1 _ IH2 L F. destruct (IH1 F) as [F1 L1].
    pose proof (Nat.lt_le_trans _ _ _ L L1) as L'. assert (Fl : Forall (fun x : nat * text * val => fst (fst x) < r_next st1) [(n, f_name f, v)]) by (constructor; [exact L'|constructor]).
    exact (let (F2, _) := tended_sets _ st1 Fl F1 in let (F3, L3) := IH2 L' F2 in conj F3 (Nat.le_trans _ _ _ L1 L3)).
  - intros n st nm pn l st' _ _ _ IH L F. exact (IH L F).
Qed.
End Kids.
Definition is_child (r : sroot) : bool := match r with SRItem _ => true | _ => false end.
Lemma roots_kids P base l : forall inp e s s', roots_read P base inp e s l s' ->
  exists ks, r_kids (snd s') = r_kids (snd s) ++ ks /\ List.length ks = List.length (filter is_child l).
Proof.
  induction l as [|r l IH]; intros inp e s s' H; inversion H; subst; [exists []; rewrite app_nil_r; split; reflexivity|].
  match goal with A : roots_read _ _ _ _ _ _ _ |- _ => apply IH in A as (ks & E & L) end.
  match goal with A : root_reads _ _ _ _ _ _ _ |- _ => destruct A end; cbn [snd filter is_child] in *; try (exists ks; auto; fail).
  exists (r :: ks). cbn [List.length]. rewrite E, L. cbn [with_kid r_kids]. rewrite (proj1 (kids_kept P base inp _) _ _ _ _ H0), <- app_assoc. split; reflexivity.
Qed.
Lemma fty_named ty t : fty_of ty = Some t -> fty_name t = ty.
Proof. unfold fty_of. intros H. apply find_some in H as [_ H]. apply text_eqb_spec. exact H. Qed.
Lemma kind_named ty k : kind_of ty = Some k -> class_name k = ty.
Proof.
  unfold kind_of. destruct (text_eqb ty (lit "SFNode")) eqn:E1; [intros H; injection H as <-; apply text_eqb_spec in E1; auto|].
  destruct (text_eqb ty (lit "MFNode")) eqn:E2; [intros H; injection H as <-; apply text_eqb_spec in E2; auto|].
  destruct (fty_of ty) as [t|] eqn:F; [|discriminate]. intros H. injection H as <-. exact (fty_named _ _ F).
Qed.
Lemma fty_not_node ty t : fty_of ty = Some t -> ty <> lit "SFNode" /\ ty <> lit "MFNode".
Proof. intros H. split; intros ->; vm_compute in H; discriminate H. Qed.
Lemma declared_name l x : match last_decl l x with Some (SSField _ _ nm _) | Some (SSEvent _ _ nm _) => nm = x | Some (SSAttr _ _) => False | None => True end.
Proof.
  induction l as [|s l IH]; [exact Logic.I|]. cbn [last_decl]. destruct (last_decl l x) as [y|]; [exact IH|].
  destruct (declares s x) eqn:E; [|exact Logic.I]. destruct s; cbn [declares] in E; try discriminate; apply text_eqb_spec; exact E.
Qed.
Lemma last_decl_in l x s : last_decl l x = Some s -> In s l.
Proof.
  induction l as [|y l IH]; [discriminate|]. cbn [last_decl]. destruct (last_decl l x) as [z|]; [intros H; right; apply IH; exact H|].
  destruct (declares y x); [|discriminate]. intros H. injection H as <-. left. reflexivity.
Qed.
Lemma last_attr_in l x v : last_attr l x = Some v -> In (SSAttr x v) l.
Proof.
  induction l as [|y l IH]; [discriminate|]. cbn [last_attr]. destruct (last_attr l x) as [z|]; [intros H; right; apply IH; exact H|].
  destruct y as [| |nm w]; try discriminate. destruct (text_eqb nm x) eqn:E; [|discriminate]. apply text_eqb_spec in E. subst. intros H. injection H as <-. left. reflexivity.
Qed.

Lemma roots_fresh P base l : forall inp e s s', roots_read P base inp e s l s' -> fresh (snd s) -> fresh (snd s').
Proof.
  induction l as [|r l IH]; intros inp e s s' H F; inversion H; subst; [exact F|].
  match goal with A : roots_read _ _ _ _ _ _ _ |- _ => apply (IH _ _ _ _ A) end.
  match goal with A : root_reads _ _ _ _ _ _ _ |- _ => destruct A end; cbn [snd] in *; try exact F.
  exact (proj1 (proj1 (all_tended P base inp _) _ _ _ _ H0 F)).
Qed.

(** the value of type [t] that the entries give, as an attribute *)
Definition given_value (P : prims) (t : fty) (its : list sitem) : res val :=
  bind (read_value P t (map et_item its)) (fun v => Ok (VPv v)).

(** C85.  A Script in a file: it becomes the node at its place, with its name;
    it declares what its text declares (for every name the last declaration of
    it), with the type and the class written; the value of a declared field is the one
    last given to it as an attribute, or the one in its declaration; the same for url,
    directOutput and mustEvaluate, which every Script has; only fields can be given as
    attributes, and nothing stands for a field of a PROTO; a node field declared with
    NULL, or with no nodes, holds that. *)
Theorem C85_scripts_are_read_as_written : forall P base d tab S pre nm l post, ok_doc d -> tidy_doc d ->
  sk_doc d = pre ++ SRItem (SScript nm l) :: post -> loads P base (show_doc d) (Ok (tab, S)) ->
  exists n nd ks ks', s_kids S = ks ++ RNode n :: ks' /\ List.length ks = List.length (filter is_child pre) /\
    s_node S n = Some nd /\ n_gi nd = lit "Script" /\ node_def S n = match nm with Some x => x | None => [] end /\
    (forall x, match last_decl l x with
               | Some (SSField ex ty _ _) => exists k dn, dget text_eqb (n_mem nd) x = Some (SMField ex k dn) /\ class_name k = ty
               | Some (SSEvent out ty _ _) => dget text_eqb (n_mem nd) x = Some (SMEvent out ty)
               | _ => dget text_eqb (n_mem nd) x = None
               end) /\
    (forall x ex ty t its k dn, last_decl l x = Some (SSField ex ty x (SVal its)) -> fty_of ty = Some t ->
       dget text_eqb (n_mem nd) x = Some (SMField ex k dn) ->
       script_fget P nd (mkfd x k) = given_value P t (match last_attr l x with Some (SVal its') => its' | _ => its end)) /\
    (forall f t dflt, In f standard_fields -> f_kind f = KVal t dflt -> last_decl l (f_name f) = None ->
       script_fget P nd f = match last_attr l (f_name f) with
                            | Some (SVal its) => given_value P t its
                            | _ => bind (coerce P t dflt) (fun v => Ok (VPv v))
                            end) /\
    (forall x v, In (SSAttr x v) l ->
       (exists ex ty w, last_decl l x = Some (SSField ex ty x w)) \/ (last_decl l x = None /\ In x (map f_name standard_fields))) /\
    (forall s, In s l -> has_is s = false) /\
    (forall x ex, last_decl l x = Some (SSField ex (lit "SFNode") x (SVal [SNull])) -> dget text_eqb (n_mem nd) x = Some (SMField ex KNode [RNull])) /\
    (forall x ex, last_decl l x = Some (SSField ex (lit "MFNode") x (SVal [])) -> dget text_eqb (n_mem nd) x = Some (SMField ex (KNodes false) [])).
Proof.
  change standard_fields with script_base. intros P base d tab S pre nm l post Ok Ti E L. destruct (C66_reading_is_faithful _ _ _ _ _ Ok Ti L) as (st & R & D).
  pose proof (doc_is_typed d Ok) as Ty. rewrite E in R, Ty. rewrite forallb_app in Ty. apply andb_true_iff in Ty as [_ Ty]. cbn [forallb] in Ty.
  apply andb_true_iff in Ty as [T1 T2]. cbn [typed_root typed_item] in T1. fold typed_sel in T1.
  apply roots_app in R as ([tb s1] & R0 & R1). inversion R1 as [|? ? ? ? s2 ? ? R2 R3]; subst. clear R1.
  destruct (roots_kids _ _ _ _ _ _ _ R0) as (ks & K0 & K1). inversion R2 as [? ? ? ? ? s3 ? I|? ? ? ? ? ? ? ? ? ?|? ? ? ? ? ? ? ? ? ? ?|? ? ? ? ? ? ? ? ?]; subst.
  inversion I as [|? ? ? ?|? ? ? ? ? ? ? ? ?|? ? ? st1 ms ? Dc Ms Da]; subst. clear R2.
  destruct Ms as [->|Q]; [|discriminate Q].
  pose proof (roots_kids _ _ _ _ _ _ _ R3) as (ks' & K2 & _). pose proof (roots_going _ _ _ _ _ _ _ R3 T2) as G. cbn [snd] in *.
  set (n := r_next s1) in *.
  assert (Sc0 : is_script (enter_node nm script_gi s1) n) by (eexists; apply entered).
  assert (Ld : later (enter_node nm script_gi s1) st1) by (eapply (proj1 (proj2 (proj2 (proj2 (proj2 (proj2 (all_going P base false (tb ++ [])))))))); eassumption).
  pose proof (later_script _ _ _ Ld Sc0) as Sc1. change (with_maps n [] st1) with st1 in Da.
  assert (La : later st1 s3) by (eapply (proj2 (proj2 (proj2 (proj2 (proj2 (proj2 (all_going P base false (tb ++ [])))))))); eassumption).
  destruct (decls_give _ _ _ _ _ _ _ _ _ _ Dc T1 Sc0) as (V1 & D1 & _ & Is1).
  destruct (attrs_give _ _ _ _ _ _ _ _ Da T1 Sc1) as (M2 & A2 & F2).
  assert (Sc3 : is_script (with_kid (RNode n) s3) n) by (destruct (later_script _ _ _ La Sc1) as (x & Hx); exists x; exact Hx).
  destruct (proj2 G n Sc3 (fun f => f)) as [M3 V3].
  assert (Nn : nth_error (r_nodes st) n = Some (script_gi, match nm with Some x => x | None => [] end)).
  { apply (later_node _ _ _ _ (proj1 G)). apply (later_node _ _ _ _ La). apply (later_node _ _ _ _ Ld). apply entered. }
  destruct (ds_node _ _ D _ _ _ Nn) as (nd & N1 & N2 & N3 & N4 & N5).
  assert (MM : forall x, dget text_eqb (n_mem nd) x = member_of st1 n x) by (intros x; rewrite N5, M3; exact (M2 x)).
  assert (VV : forall x, dget text_eqb (n_vals nd) x = value_set s3 n x) by (intros x; rewrite N4, V3; reflexivity).
  assert (Fr : fresh s1) by (apply (roots_fresh _ _ _ _ _ _ _ R0); split; constructor).
  assert (V0 : forall x, value_set st1 n x = None) by (intros x; rewrite V1; exact (value_set_next s1 x (proj1 Fr))).
  assert (M0 : forall x, member_of (enter_node nm script_gi s1) n x = None) by (intros x; exact (member_of_next s1 x (proj2 Fr))).
  assert (NoIs : forall s, In s l -> has_is s = false).
  { intros s Hs. destruct (has_is s) eqn:Q; [|reflexivity]. specialize (Is1 s Hs Q). destruct s as [ex ty x v|out ty x pn|x v]; try (contradiction Is1; reflexivity).
    destruct v as [its|pn]; [discriminate Q|]. symmetry. exact (F2 _ _ Hs). }
  exists n, nd, ks, ks'. split; [|split; [|split; [|split; [|split; [|split; [|split; [|split; [|split; [|split; [|split]]]]]]]]]].
  - rewrite (ds_kids _ _ D), K2. cbn [with_kid r_kids]. rewrite (proj1 (kids_kept P base false _) _ _ _ _ I), K0. cbn [rs0 r_kids snd app]. rewrite <- app_assoc. reflexivity.
  - exact K1.
  - exact N1.
  - exact N2.
  - exact N3.
  - intros x. rewrite MM. specialize (D1 x). unfold declared in D1. rewrite M0 in D1. destruct (last_decl l x) as [[ex ty y [its|pn]|out ty y pn|y v]|]; try assumption.
    + destruct D1 as (a & b & m & Mr & ->). inversion Mr; subst; eexists _, _; (split; [reflexivity|]); try reflexivity. cbn [class_name]. apply fty_named. assumption.
    + destruct D1 as (k & dd & K & ->). exists k, dd. split; [reflexivity|]. exact (kind_named _ _ K).
    + contradiction.
  - intros x ex ty t its k dn Ed Ft Em. rewrite MM in Em. pose proof (D1 x) as Dx. unfold declared in Dx. rewrite Ed in Dx. destruct Dx as (a & b & m & Mr & Em').
    rewrite Em in Em'. injection Em' as <-. destruct (fty_not_node _ _ Ft) as [Nf1 Nf2]. inversion Mr; subst; try congruence.
    assert (t0 = t) as -> by congruence. unfold script_fget. cbn [f_name f_kind]. rewrite VV. pose proof (A2 x) as Ax. unfold set_to in Ax.
    destruct (last_attr l x) as [[its'|pn]|] eqn:Ea.
    + destruct Ax as (f & c & c' & w & Fn & Sf & Vr & ->). unfold script_field in Sf. rewrite Fn, Em in Sf.
      inversion Vr as [? ? t1 d1 its1 v1 Kf Pl Rv| | |]; subst; rewrite Sf in *; try discriminate. injection Kf as <- <-. unfold given_value. rewrite Rv. reflexivity.
    + exfalso. apply last_attr_in in Ea. specialize (NoIs _ Ea). discriminate NoIs.
    + rewrite Ax, V0. unfold default_of. cbn [f_kind]. unfold given_value, read_value.
      match goal with H : handler t _ = _ |- _ => rewrite H end. reflexivity.
  - intros f t dflt Hf Kf Ed. unfold script_fget. rewrite VV, Kf. pose proof (A2 (f_name f)) as Ax. unfold set_to in Ax.
    pose proof (D1 (f_name f)) as Dx. unfold declared in Dx. rewrite Ed, M0 in Dx.
    destruct (last_attr l (f_name f)) as [[its'|pn]|] eqn:Ea.
    + destruct Ax as (g & c & c' & w & Fn & Sf & Vr & ->). unfold script_field in Sf. rewrite Fn, Dx in Sf.
      assert (g = f) as -> by (clear - Sf Hf Fn; unfold script_base in *; cbn [In] in *;
        repeat match goal with H : _ \/ _ |- _ => destruct H end; try contradiction; subst; try reflexivity; vm_compute in Fn; discriminate Fn).
      inversion Vr as [? ? t1 d1 its1 v1 Kf' Pl Rv| | |]; subst; rewrite Kf in *; try discriminate. injection Kf' as <- <-. unfold given_value. rewrite Rv. reflexivity.
    + exfalso. apply last_attr_in in Ea. specialize (NoIs _ Ea). discriminate NoIs.
    + rewrite Ax, V0. unfold default_of. rewrite Kf. reflexivity.
  - intros x v Hx. specialize (F2 x v Hx). destruct v as [its|pn]; [|discriminate F2]. destruct F2 as (f & Fn & Sf). unfold script_field in Sf. rewrite Fn in Sf.
    pose proof (D1 x) as Dx. pose proof (declared_name l x) as Nx. unfold declared in Dx. rewrite M0 in Dx.
    destruct (last_decl l x) as [[ex ty y w|out ty y pn|y w]|].
    + subst y. left. eauto.
    + rewrite Dx in Sf. contradiction.
    + contradiction.
    + right. split; [reflexivity|]. rewrite Dx in Sf. rewrite <- Fn. apply in_map. exact Sf.
  - exact NoIs.
  - intros x ex Ed. rewrite MM. pose proof (D1 x) as Dx. unfold declared in Dx. rewrite Ed in Dx. destruct Dx as (a & b & m & Mr & ->).
    inversion Mr as [? ? ? ? ? ? Ft| ? ? ? ? ? ? Ir| |]; subst; [vm_compute in Ft; discriminate Ft|]. inversion Ir; subst. reflexivity.
  - intros x ex Ed. rewrite MM. pose proof (D1 x) as Dx. unfold declared in Dx. rewrite Ed in Dx. destruct Dx as (a & b & m & Mr & ->).
    inversion Mr as [? ? ? ? ? ? Ft| |? ? ? ? ? Ir|]; subst; [vm_compute in Ft; discriminate Ft| |reflexivity]. inversion Ir; subst. reflexivity.
Qed.
Print Assumptions C85_scripts_are_read_as_written.

(** *** EXTERNPROTO *)
Lemma roots_tab P base l : forall inp e s s', roots_read P base inp e s l s' -> exists t, fst s' = fst s ++ t.
Proof.
  induction l as [|r l IH]; intros inp e s s' H; inversion H; subst; [exists []; rewrite app_nil_r; reflexivity|].
  match goal with A : roots_read _ _ _ _ _ _ _ |- _ => apply IH in A as (t & E) end.
  match goal with A : root_reads _ _ _ _ _ _ _ |- _ => destruct A end; cbn [fst] in *; rewrite E, ?app_nil_r; rewrite <- ?app_assoc; eauto.
Qed.
Lemma dget_app_none {V} (l l' : list (text * V)) x : dget text_eqb l x = None -> dget text_eqb (l ++ l') x = dget text_eqb l' x.
Proof. induction l as [|[k v] l IH]; [reflexivity|]. cbn [app dget]. destruct (text_eqb k x); [discriminate|exact IH]. Qed.
Lemma proto_dget base tab gi : proto (types base tab) gi = None -> dget text_eqb tab gi = None /\ proto base gi = None.
Proof.
  unfold proto, types. induction tab as [|[g q] tab IH]; intros H; [split; [reflexivity|exact H]|]. cbn [map app dget fst snd] in *.
  destruct (text_eqb g gi); [discriminate|exact (IH H)].
Qed.
Lemma xdecls_give ds : forall mem mem', xdecls_read mem ds mem' -> forall x,
  match last_xdecl ds x with
  | Some (SXField ex ty _) => exists k, dget text_eqb mem' x = Some (MField ex k) /\ kind_of ty = Some k
  | Some (SXEvent out ty _) => dget text_eqb mem' x = Some (MEvent out ty)
  | None => dget text_eqb mem' x = dget text_eqb mem x
  end.
Proof.
  induction ds as [|s ds IH]; intros mem mem' H x; inversion H; subst; cbn [last_xdecl]; [reflexivity| |];
    match goal with A : xdecls_read _ _ _ |- _ => specialize (IH _ _ A x) end; destruct (last_xdecl ds x); try exact IH;
    (destruct (text_eqb nm x) eqn:E; [apply text_eqb_spec in E; subst nm; rewrite (dget_dset_same text_eqb text_eqb_spec) in IH; eauto|
      rewrite (dget_dset_other text_eqb text_eqb_spec) in IH; [exact IH|intros ->; rewrite text_eqb_refl in E; discriminate E]]).
Qed.
Lemma urls_read P url ss u : Forall2 string_body url ss -> read_value P MFString (map et_str url) = Ok u -> u = PSeq KList (map PStr ss).
Proof.
  intros F. unfold read_value. cbn [handler]. rewrite map_map.
  assert (E : map (fun b => PStr (read_string (et_str b))) url = map PStr ss).
  { induction F as [|b s bs ss Hb F IH]; [reflexivity|]. cbn [map]. rewrite IH. unfold et_str. rewrite (read_pieces _ b s Hb []). reflexivity. }
  rewrite E. unfold coerce, mfstring_coerce. cbn [py_iter bind].
  assert (M : mapM (sfstring_coerce P) (map PStr ss) = Ok (map PStr ss)).
  { clear. induction ss as [|s ss IH]; [reflexivity|]. cbn [map mapM]. cbn [sfstring_coerce bind]. rewrite IH. reflexivity. }
  rewrite M. cbn [bind]. intros H. injection H as <-. reflexivity.
Qed.
Lemma field_own mem x ex k : dget text_eqb mem x = Some (MField ex k) ->
  In (mkfd x k) (flat_map (fun x => match snd x with MField _ k => [mkfd (fst x) k] | MEvent _ _ => [] end) mem).
Proof.
  induction mem as [|[y m] mem IH]; [discriminate|]. cbn [dget flat_map fst snd]. destruct (text_eqb y x) eqn:E; intros H; apply in_or_app.
  - injection H as ->. apply text_eqb_spec in E. subst. left. left. reflexivity.
  - right. exact (IH H).
Qed.

(** C86.  An EXTERNPROTO in a file: the scene has a prototype of that name, which no
    built-in node has; its instances have the declared fields and events, with the
    classes and types written (for every name the last declaration), the
    fields with the default of their type; and it has the URLs written. *)
Theorem C86_extern_protos_are_read_as_written : forall P base d tab S pre gi ds url post, ok_doc d -> tidy_doc d ->
  sk_doc d = pre ++ SRExtern gi ds url :: post -> loads P base (show_doc d) (Ok (tab, S)) ->
  exists p fs, dget text_eqb tab gi = Some p /\ proto base gi = None /\ proto (types base tab) gi = Some fs /\
    (forall x, match last_xdecl ds x with
               | Some (SXField ex ty _) => exists k, dget text_eqb (p_mem p) x = Some (MField ex k) /\ kind_of ty = Some k /\ In (mkfd x k) fs
               | Some (SXEvent out ty _) => dget text_eqb (p_mem p) x = Some (MEvent out ty)
               | None => dget text_eqb (p_mem p) x = None
               end) /\
    (forall x ex ty t, last_xdecl ds x = Some (SXField ex ty x) -> fty_of ty = Some t -> In (mkfd x (KVal t (zero_value t))) fs) /\
    (forall ss, Forall2 string_body url ss -> p_url p = Some (PSeq KList (map PStr ss))).
Proof.
  intros P base d tab S pre gi ds url post Ok Ti E L. destruct (C66_reading_is_faithful _ _ _ _ _ Ok Ti L) as (st & R & D).
  rewrite E in R. apply roots_app in R as ([tb s1] & R0 & R1). inversion R1 as [|? ? ? ? s2 ? ? R2 R3]; subst. clear R1.
  inversion R2 as [| | |? ? ? ? ? ? ? mem u Pn Xd Rv]; subst. rewrite app_nil_r in Pn.
  apply roots_tab in R3 as (t & Et). cbn [fst] in Et. destruct (proto_dget _ _ _ Pn) as [Dn Bn].
  assert (Dg : dget text_eqb tab gi = Some (PExt mem u)).
  { rewrite Et, <- app_assoc, (dget_app_none tb _ gi Dn). cbn [app dget fst snd]. rewrite text_eqb_refl. reflexivity. }
  exists (PExt mem u), (pfields (PExt mem u)). split; [exact Dg|]. split; [exact Bn|]. split; [exact (types_first _ _ _ _ Dg)|]. split; [|split].
  - intros x. pose proof (xdecls_give _ _ _ Xd x) as Q. cbn [p_mem]. destruct (last_xdecl ds x) as [[ex ty y|out ty y]|]; [|exact Q|exact Q].
    destruct Q as (k & Q1 & Q2). exists k. split; [exact Q1|]. split; [exact Q2|]. exact (field_own _ _ _ _ Q1).
  - intros x ex ty t0 Hx Ft. pose proof (xdecls_give _ _ _ Xd x) as Q. rewrite Hx in Q. destruct Q as (k & Q1 & Q2).
    assert (k = KVal t0 (zero_value t0)) as ->; [|exact (field_own _ _ _ _ Q1)].
    unfold kind_of in Q2. destruct (text_eqb ty (lit "SFNode")) eqn:N1; [apply text_eqb_spec in N1; subst ty; destruct (fty_not_node _ _ Ft) as [N _]; contradiction N; reflexivity|].
    destruct (text_eqb ty (lit "MFNode")) eqn:N2; [apply text_eqb_spec in N2; subst ty; destruct (fty_not_node _ _ Ft) as [_ N]; contradiction N; reflexivity|].
    rewrite Ft in Q2. injection Q2 as <-. destruct t0; reflexivity.
  - intros ss F. cbn [p_url]. f_equal. exact (urls_read _ _ _ _ F Rv).
Qed.
Print Assumptions C86_extern_protos_are_read_as_written.

(** *** a concrete document
    EXTERNPROTO Gear [ field SFFloat size eventIn SFTime go ] [ "a.wrl" ]
    Group { } DEF A Script { field SFFloat speed 2 eventOut SFBool done url "x.js" speed 5 field SFInt32 count 7 } *)
Definition wheels : doc := Doc (lit "#VRML V2.0 utf8") [10%N]
  (RCons (RExtern (lit " ") (lit "Gear") (lit " ") (lit " ")
     [XField false (lit " ") (lit "SFFloat") (lit " ") (lit "size") (lit " ");
      XEvent false (lit " ") (lit "SFTime") (lit " ") (lit "go") (lit " ")]
     (lit " ") (UList (lit " ") [(lit "a.wrl", lit " ")])) (lit " ")
  (RCons (Doc_Spec.RNode (Nd None (lit "Group") (lit " ") (lit " ") ANil)) (lit " ")
  (RCons (Doc_Spec.RNode (Sc (Some (lit " ", lit "A", lit " ")) (lit " ") (lit " ")
     (EField false (lit " ") (lit "SFFloat") (lit " ") (lit "speed") (lit " ") (FPl (num "2"))
     (EEvent true (lit " ") (lit "SFBool") (lit " ") (lit "done") (lit " ")
     (EAttr (lit "url") (lit " ") (FPl (SCons (IStr (lit "x.js")) (lit " ") SNil))
     (EAttr (lit "speed") (lit " ") (FPl (num "5"))
     (EField false (lit " ") (lit "SFInt32") (lit " ") (lit "count") (lit " ") (FPl (num "7")) ENil))))))) (lit " ") RNil))).
Example wheels_ok : ok_doc wheels /\ tidy_doc wheels.
Proof.
  split; [|reflexivity]. cbn [ok_doc wheels]. split; [dnin|]. split; [dsep|]. split; [|eauto].
  cbn -[ok_type is_name safe_name decl_like]. repeat split; try discriminate; try reflexivity; try dsep;
      try (left; eexists; split; reflexivity).
  all: try (apply (num_plain [] (lit "2")); reflexivity).
  all: try (apply (num_plain [] (lit "5")); reflexivity).
  all: try (apply (num_plain [] (lit "7")); reflexivity).
  - repeat constructor; dsep.
  - constructor; [|constructor]. split; [|dsep]. eexists. repeat (apply sb_char; [discriminate|discriminate|]). constructor.
  - eexists. repeat (apply sb_char; [discriminate|discriminate|]). constructor.
Qed.
(** both theorems apply: the Script is the second child; [speed] is 5, [count] is 7, [url] is
    "x.js"; Gear has the field and the event *)
Example wheels_read : exists tab S0 n nd p fs, loads P_ex std_protos (show_doc wheels) (Ok (tab, S0)) /\
  (exists k, s_kids S0 = [k; RNode n]) /\ s_node S0 n = Some nd /\ node_def S0 n = lit "A" /\
  dget text_eqb (n_mem nd) (lit "done") = Some (SMEvent true (lit "SFBool")) /\
  (exists k dn, dget text_eqb (n_mem nd) (lit "speed") = Some (SMField false k dn) /\
     script_fget P_ex nd (mkfd (lit "speed") k) = Ok (VPv (PFloat (S754_finite false 5629499534213120 (-50))))) /\
  (exists k dn, dget text_eqb (n_mem nd) (lit "count") = Some (SMField false k dn) /\
     script_fget P_ex nd (mkfd (lit "count") k) = Ok (VPv (PInt 7))) /\
  script_fget P_ex nd (mkfd (lit "url") (KVal MFString (PSeq KList []))) = Ok (VPv (PSeq KList [PStr (lit "x.js")])) /\
  script_fget P_ex nd (mkfd (lit "mustEvaluate") (KVal SFBool (PInt 0))) = Ok (VPv (PInt 0)) /\
  dget text_eqb tab (lit "Gear") = Some p /\ proto (types std_protos tab) (lit "Gear") = Some fs /\
  dget text_eqb (p_mem p) (lit "go") = Some (MEvent false (lit "SFTime")) /\
  In (mkfd (lit "size") (KVal SFFloat (PFloat fzero))) fs /\
  p_url p = Some (PSeq KList [PStr (lit "a.wrl")]).
Proof.
  destruct (file_of (show_doc wheels)) as [[tab S0]|] eqn:E; [|exfalso; apply (f_equal (fun r => match r with Ok _ => true | _ => false end)) in E; vm_compute in E; discriminate E].
  pose proof (file_of_loads _ _ E) as L. destruct wheels_ok as [Ok Ti].
  assert (Es : exists a b l, sk_doc wheels = [a; b] ++ SRItem (SScript (Some (lit "A")) l) :: [] /\ List.length (filter is_child [a; b]) = 1 /\
    last_decl l (lit "done") = Some (SSEvent true (lit "SFBool") (lit "done") None) /\
    last_decl l (lit "speed") = Some (SSField false (lit "SFFloat") (lit "speed") (SVal [SNum (lit "2")])) /\
    last_attr l (lit "speed") = Some (SVal [SNum (lit "5")]) /\
    last_decl l (lit "count") = Some (SSField false (lit "SFInt32") (lit "count") (SVal [SNum (lit "7")])) /\ last_attr l (lit "count") = None /\
    last_decl l (lit "url") = None /\ last_attr l (lit "url") = Some (SVal [SStr (lit "x.js")]) /\
    last_decl l (lit "mustEvaluate") = None /\ last_attr l (lit "mustEvaluate") = None) by (eexists _, _, _; repeat split).
  destruct Es as (a & b & l & Es & Ln & E1 & E2 & E3 & E4 & E5 & E6 & E7 & E8 & E9).
  destruct (C85_scripts_are_read_as_written _ _ _ _ _ _ _ _ _ Ok Ti Es L) as (n & nd & ks & ks' & K & Lk & N1 & _ & N2 & M & V & B & _).
  destruct (C86_extern_protos_are_read_as_written P_ex std_protos wheels tab S0 [] _ _ _ _ Ok Ti eq_refl L) as (p & fs & D1 & _ & D2 & X & _ & U).
  exists tab, S0, n, nd, p, fs. split; [exact L|].
  assert (Kn : List.length (s_kids S0) = 2).
  { assert (W : match file_of (show_doc wheels) with Base.Ok (_, S0) => List.length (s_kids S0) | _ => 0 end = 2) by (vm_compute; reflexivity). rewrite E in W. exact W. }
  rewrite Ln in Lk. destruct ks as [|k [|]]; try discriminate Lk. rewrite K in Kn. destruct ks'; [|discriminate Kn].
  split; [exists k; exact K|]. split; [exact N1|]. split; [exact N2|].
  split; [pose proof (M (lit "done")) as Q; rewrite E1 in Q; exact Q|].
  split; [pose proof (M (lit "speed")) as Q; rewrite E2 in Q; destruct Q as (k1 & dn & Q & _); exists k1, dn; split; [exact Q|]; rewrite (V _ _ _ SFFloat _ _ _ E2 eq_refl Q), E3; vm_compute; reflexivity|].
  split; [pose proof (M (lit "count")) as Q; rewrite E4 in Q; destruct Q as (k1 & dn & Q & _); exists k1, dn; split; [exact Q|]; rewrite (V _ _ _ SFInt32 _ _ _ E4 eq_refl Q), E5; vm_compute; reflexivity|].
  split; [rewrite (B _ MFString (PSeq KList []) (or_introl eq_refl) eq_refl E6); cbn [f_name]; rewrite E7; vm_compute; reflexivity|].
  split; [rewrite (B _ SFBool (PInt 0) (or_intror (or_intror (or_introl eq_refl))) eq_refl E8); cbn [f_name]; rewrite E9; vm_compute; reflexivity|].
  split; [exact D1|]. split; [exact D2|]. split; [exact (X (lit "go"))|].
  split; [destruct (X (lit "size")) as (k1 & _ & Q & In1); vm_compute in Q; injection Q as <-; exact In1|].
  apply (U [lit "a.wrl"]). constructor; [|constructor]. repeat (apply sb_char; [discriminate|discriminate|]). constructor.
Qed.
