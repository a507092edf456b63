(** What the lineariser writes: a laid-out document that walks through the
    scene. *)
From Coq Require Import Reals Permutation SpecFloat.
From Flocq Require Import Core.Core IEEE754.BinarySingleNaN.
From Verif Require Import Base Text PyDict PyDict_Proofs Float Coerce_Model Coerce_Spec Grammar_Model Lex_Spec Lex_Proofs
  Doc_Spec Doc_Proofs SceneGraph_Model VrmlStr_Model VrmlStr_Spec VrmlStr_Proofs VrmlStr_Values Scene_Model Linearise_Model Scene_Spec
  Linearise_Proofs Drop_Proofs Layout_Proofs.
Local Open Scope nat_scope.
Local Open Scope list_scope.
Notation RNode := Scene_Model.RNode.

Section Walk.
Variable P : prims.
Variable protos : list (text * list fdecl).
Variable S : scene.
(** under which name of the PROTO a field is mapped *)
Variable ism : nat -> text -> option text.

(** the document written for a reference, given the nodes [D] written before;
    and the nodes written afterwards *)
Inductive walk_ref : list nat -> nref -> list nat -> sitem -> Prop :=
| wk_null D : walk_ref D RNull D SNull
| wk_use D n nd : In n D -> s_node S n = Some nd -> node_def S n <> [] -> walk_ref D (RNode n) D (SUse (node_def S n))
| wk_node D n nd fs D' l : ~ In n D -> s_node S n = Some nd -> proto protos (n_gi nd) = Some fs ->
    walk_attrs n (n :: D) (sort fs) D' l ->
    walk_ref D (RNode n) D' (SNode (def_opt (node_def S n)) (n_gi nd) l)
with walk_refs : list nat -> list nref -> list nat -> list sitem -> Prop :=
| wr_nil D : walk_refs D [] D []
| wr_cons D r D1 i l D' is : walk_ref D r D1 i -> walk_refs D1 l D' is -> walk_refs D (r :: l) D' (i :: is)
with walk_attrs : nat -> list nat -> list fdecl -> list nat -> list (text * sval) -> Prop :=
| wa_nil n D : walk_attrs n D [] D []
| wa_is n D f v pn fs D' l : fget P S n f = Ok v -> ref_ids v = [] -> ism n (f_name f) = Some pn -> is_name pn = true ->
    walk_attrs n D fs D' l -> walk_attrs n D (f :: fs) D' ((f_name f, SIs pn) :: l)
| wa_drop n D f v fs D' l : fget P S n f = Ok v -> ism n (f_name f) = None -> dropped f v = Ok true -> walk_attrs n D fs D' l ->
    walk_attrs n D (f :: fs) D' l
| wa_keep n D f v D1 is fs D' l : fget P S n f = Ok v -> ism n (f_name f) = None -> dropped f v = Ok false -> walk_val D f v D1 is -> walk_attrs n D1 fs D' l ->
    walk_attrs n D (f :: fs) D' ((f_name f, SVal is) :: l)
with walk_val : list nat -> fdecl -> val -> list nat -> list sitem -> Prop :=
| wv_pv D f t d v its : f_kind f = KVal t d -> forallb plain its = true ->
    (forall l, map erase l = map et_item its -> read_value P t l = Ok v) -> walk_val D f (VPv v) D its
| wv_ref D f r D' i : f_kind f = KNode -> walk_ref D r D' i -> walk_val D f (VRef r) D' [i]
| wv_refs D f o l D' is : f_kind f = KNodes o -> walk_refs D l D' is -> walk_val D f (VRefs l) D' is.
Scheme walk_ref_m := Induction for walk_ref Sort Prop
  with walk_refs_m := Induction for walk_refs Sort Prop
  with walk_attrs_m := Induction for walk_attrs Sort Prop
  with walk_val_m := Induction for walk_val Sort Prop.
Combined Scheme walk_mut from walk_ref_m, walk_refs_m, walk_attrs_m, walk_val_m.
End Walk.

Lemma insert_perm f l : Permutation (insert f l) (f :: l).
Proof.
  induction l as [|g l IH]; cbn; [constructor; constructor|]. destruct (field_lt g f); [|constructor; apply Permutation_refl].
  rewrite IH. apply perm_swap.
Qed.
Lemma sort_perm l : Permutation (sort l) l.
Proof. induction l as [|f l IH]; cbn; [constructor|]. rewrite insert_perm. constructor. exact IH. Qed.

Lemma times_sep n w : sep_text w -> sep_text (times n w).
Proof. intros H. unfold times. induction n as [|n IH]; cbn; [constructor|]. apply sep_app; auto. Qed.

Section Writes.
Variable P : prims.
Variable fstr : tcode -> fl -> text.
Variable protos : list (text * list fdecl).
Variable st : settings.
Variable S : scene.
Variable ism : nat -> text -> option text.
Hypothesis FS : faithful fstr.
Hypothesis ST : ok_settings st.
Hypothesis WP : wf_protos P protos.
Hypothesis IDS : forall n nd, s_node S n = Some nd -> n < s_next S.
Hypothesis NODES : forall n nd, s_node S n = Some nd -> exists fs, proto protos (n_gi nd) = Some fs /\
    forall f, In f fs -> exists v, fget P S n f = Ok v /\ ok_value S f v.
Hypothesis NAMES : forall n nd, s_node S n = Some nd -> node_def S n <> [] -> is_name (node_def S n) = true.
Hypothesis MAPS : forall n f v pn, fget P S n f = Ok v -> ism n (f_name f) = Some pn -> is_name pn = true /\ ref_ids v = [].
Notation lin := (lin P fstr protos st S ism).
Notation linear := (linear P fstr protos st S ism).
Notation node_body := (node_body P fstr st S ism).
Notation attr := (attr P fstr st S ism).
Notation sffield := (sffield fstr st).
Notation mfnode := (mfnode st).
Notation cnt := (count_occ Nat.eq_dec).

Lemma st_lv s : ok_lv (lv_at st s).
Proof.
  destruct ST as ((F & A & B) & _). unfold lv_at, ok_lv, cur. cbn.
  inversion F as [|? ? F1 F']; inversion F' as [|? ? F2 F'']; inversion F'' as [|? ? F3 F3']; inversion F3' as [|? ? F4 _]; subst.
  split; [|auto]. repeat constructor; auto. apply times_sep. exact F4.
Qed.
Lemma cur_sep s : sep_text (cur st s).
Proof. destruct (st_lv s) as (F & _). inversion F as [|? ? _ F']; inversion F' as [|? ? _ F'']; inversion F''; auto. Qed.
Lemma ind_sep : sep_text (indent (l_lv st)).
Proof. destruct ST as ((F & _) & _). inversion F as [|? ? _ F']; inversion F' as [|? ? _ F'']; inversion F'' as [|? ? _ F3]; inversion F3; auto. Qed.
Lemma fes_eq : exists w, l_fes st = 10%N :: w /\ sep_text w.
Proof. destruct ST as (_ & _ & H). exact H. Qed.
Lemma lead_eq s : exists w, lead st s = 10%N :: w /\ sep_text w.
Proof.
  destruct fes_eq as (w & E & H). exists (w ++ cur st s ++ indent (l_lv st)). unfold lead. rewrite E. split; [reflexivity|].
  apply sep_app; [exact H|]. apply sep_app; [apply cur_sep|apply ind_sep].
Qed.
Lemma lead_level s s' : l_level s' = l_level s -> lead st s' = lead st s.
Proof. intros E. unfold lead, cur. rewrite E. reflexivity. Qed.

(** *** which references remain *)
Definition memb (n : nat) (D : list nat) : bool := if in_dec Nat.eq_dec n D then true else false.
Lemma memb_in n D : memb n D = true <-> In n D.
Proof. unfold memb. destruct (in_dec Nat.eq_dec n D); split; auto; discriminate. Qed.
Definition pend (D : list nat) : list nat :=
  flat_map (node_refs P protos S) (filter (fun n => negb (memb n D)) (seq 0 (s_next S))).
Definition one (n m : nat) : nat := if Nat.eq_dec n m then 1 else 0.
Lemma pend_enter n D m : n < s_next S -> ~ In n D ->
  cnt (pend D) m = cnt (node_refs P protos S n) m + cnt (pend (n :: D)) m.
Proof.
  intros L N. unfold pend.
  assert (Q : forall l, NoDup l -> cnt (flat_map (node_refs P protos S) (filter (fun n => negb (memb n D)) l)) m =
    (if memb n l then cnt (node_refs P protos S n) m else 0) +
    cnt (flat_map (node_refs P protos S) (filter (fun x => negb (memb x (n :: D))) l)) m).
  { induction l as [|x l IH]; intros ND; [reflexivity|]. inversion ND as [|? ? Nx ND']; subst. specialize (IH ND').
    cbn [filter]. destruct (Nat.eq_dec x n) as [->|Dx].
    - assert (memb n (n :: l) = true) as -> by (apply memb_in; left; reflexivity).
      assert (memb n (n :: D) = true) as -> by (apply memb_in; left; reflexivity).
      assert (memb n D = false) as ->.
      { destruct (memb n D) eqn:E; [|reflexivity]. apply memb_in in E. contradiction. }
      cbn [negb flat_map]. rewrite count_occ_app, IH.
      assert (memb n l = false) as ->.
      { destruct (memb n l) eqn:E; [|reflexivity]. apply memb_in in E. contradiction. }
      lia.
    - assert (memb n (x :: l) = memb n l) as ->.
      { destruct (memb n l) eqn:E.
        - apply memb_in. right. apply memb_in. exact E.
        - destruct (memb n (x :: l)) eqn:E2; [|reflexivity]. apply memb_in in E2 as [->|E2]; [congruence|].
          apply memb_in in E2. congruence. }
      assert (memb x (n :: D) = memb x D) as ->.
      { destruct (memb x D) eqn:E.
        - apply memb_in. right. apply memb_in. exact E.
        - destruct (memb x (n :: D)) eqn:E2; [|reflexivity]. apply memb_in in E2 as [->|E2]; [congruence|].
          apply memb_in in E2. congruence. }
      destruct (memb x D); cbn [negb flat_map]; [exact IH|]. rewrite !count_occ_app, IH. lia. }
  rewrite (Q (seq 0 (s_next S)) (seq_NoDup _ _)).
  assert (memb n (seq 0 (s_next S)) = true) as -> by (apply memb_in, in_seq; lia). reflexivity.
Qed.
(** every reference to a node without name is the first *)
Definition inv (D R : list nat) : Prop :=
  forall m, node_def S m = [] -> (if memb m D then 1 else 0) + cnt R m + cnt (pend D) m <= 1.
Definition ids (r : nref) : list nat := match r with RNull => [] | RNode n => [n] end.
Lemma ids_list l : ref_ids (VRefs l) = flat_map ids l.
Proof. reflexivity. Qed.
Definition frefs (n : nat) (f : fdecl) : list nat := match fget P S n f with Ok v => ref_ids v | Exc _ => [] end.
Lemma inv_cnt D R R' : (forall m, cnt R' m <= cnt R m) -> inv D R -> inv D R'.
Proof. intros H I m N. specialize (I m N). specialize (H m). lia. Qed.
Lemma flat_perm n l l' m : Permutation l l' -> cnt (flat_map (frefs n) l) m = cnt (flat_map (frefs n) l') m.
Proof.
  intros H. induction H; cbn; rewrite ?count_occ_app; auto; try lia.
Qed.
Lemma inv_enter n nd fs D R : s_node S n = Some nd -> proto protos (n_gi nd) = Some fs -> ~ In n D ->
  inv D (n :: R) -> inv (n :: D) (flat_map (frefs n) (sort fs) ++ R).
Proof.
  intros N Pr NI I m U. specialize (I m U). rewrite (pend_enter n D m (IDS _ _ N) NI) in I.
  assert (E : cnt (node_refs P protos S n) m = cnt (flat_map (frefs n) (sort fs)) m).
  { unfold node_refs. rewrite N, Pr. symmetry. exact (flat_perm n _ _ m (sort_perm fs)). }
  rewrite count_occ_app, <- E. cbn [count_occ] in I.
  assert (Q : (if memb m (n :: D) then 1 else 0) + cnt R m <= (if memb m D then 1 else 0) + (if Nat.eq_dec n m then Datatypes.S (cnt R m) else cnt R m)).
  { destruct (memb m (n :: D)) eqn:E1; [|destruct (Nat.eq_dec n m); lia]. apply memb_in in E1 as [->|E1].
    - destruct (Nat.eq_dec m m); [|congruence]. lia.
    - apply memb_in in E1. rewrite E1. destruct (Nat.eq_dec n m); lia. }
  lia.
Qed.

(** *** writing *)
Definition tracks (s : lst) (D : list nat) : Prop := forall n, In n D <-> seen s n.
Definition vref (r : nref) : Prop := r = RNull \/ is_node S r.
(** the result of a writing step: text [t] appended, level kept *)
Definition step_ok (s s' : lst) (t : text) (D' : list nat) : Prop :=
  l_buf s' = l_buf s ++ t /\ l_level s' = l_level s /\ tracks s' D'.
Definition writes_ref (rec : nref -> lst -> lres) : Prop :=
  forall r s D R, tracks s D -> vref r -> inv D (ids r ++ R) -> rec r s <> LFuel ->
  exists s' t D' i, rec r s = LOk s' /\ step_ok s s' t D' /\ walk_ref P protos S ism D r D' i /\ item_text t i /\ inv D' R /\
    (r <> RNull -> i <> SNull /\ match i with SNode _ _ _ | SUse _ => True | _ => False end).

Lemma writes_list rec l : writes_ref rec -> forall s D R ld, lead st s = 10%N :: ld -> tracks s D ->
  Forall (is_node S) l -> inv D (flat_map ids l ++ R) -> each (fun el s => rec el (emit (lead st s) s)) l s <> LFuel ->
  exists s' ts D' is, each (fun el s => rec el (emit (lead st s) s)) l s = LOk s' /\
    step_ok s s' (List.concat (map (fun t => (10%N :: ld) ++ t) ts)) D' /\ walk_refs P protos S ism D l D' is /\
    Forall2 item_text ts is /\ inv D' R /\ ~ In SNull is.
Proof.
  intros W. induction l as [|r l IH]; intros s D R ld L Tr V I N; cbn [each] in *.
  - exists s, [], D, []. repeat split; auto; try apply Tr. + cbn. rewrite app_nil_r. reflexivity. + constructor. 
  - inversion V as [|? ? Vr Vl]; subst. pose proof (lbind_fuel _ _ N) as N1.
    cbn [flat_map] in I. rewrite <- app_assoc in I.
    destruct (W r (emit (lead st s) s) D (flat_map ids l ++ R)) as (s1 & t & D1 & i & E & (B1 & L1 & T1) & Wk & It & I1 & Nn); auto.
    { right. exact Vr. }
    rewrite E in *. cbn [lbind] in *. cbn [emit l_buf l_level] in B1, L1.
    destruct (IH s1 D1 R ld) as (s2 & ts & D2 & is & E2 & (B2 & L2 & T2) & Wk2 & F & I2 & N2); auto.
    { rewrite (lead_level s s1 L1). exact L. }
    assert (r <> RNull) as Hr by (intros ->; exact Vr).
    exists s2, (t :: ts), D2, (i :: is). split; [exact E2|]. split; [|split; [econstructor; eauto|split; [constructor; auto|split; [exact I2|]]]].
    + split; [|split; [congruence|exact T2]]. rewrite B2, B1, L. cbn [map List.concat]. rewrite <- !app_assoc. reflexivity.
    + intros [H|H]; [apply (proj1 (Nn Hr)); congruence|auto].
Qed.
Lemma writes_mfnode rec l : writes_ref rec -> forall s D R, tracks s D -> Forall (is_node S) l ->
  inv D (flat_map ids l ++ R) -> mfnode rec l s <> LFuel ->
  exists s' t D' is, mfnode rec l s = LOk s' /\ step_ok s s' t D' /\ walk_refs P protos S ism D l D' is /\ fld_text t is /\ inv D' R.
Proof.
  intros W s D R Tr V I N. destruct l as [|x l].
  - eexists _, _, D, []. split; [reflexivity|]. split; [split; [reflexivity|split; [reflexivity|exact Tr]]|].
    split; [constructor|]. split; [|exact I]. apply empty_text. apply ST.
  - unfold mfnode, Linearise_Model.mfnode in *. cbv zeta in *. set (l' := x :: l) in *.
    set (s1 := emit (lit "[ ") (more s)) in *. destruct (lead_eq s1) as (ld & Ld & Sl).
    destruct (writes_list rec l' W s1 D R ld Ld Tr V I (lbind_fuel _ _ N)) as (s2 & ts & D2 & is & E & (B & L & T2) & Wk & F & I2 & Nn).
    rewrite E in *. cbn [lbind] in *. destruct fes_eq as (fw & Fe & Sf).
    eexists _, _, D2, is. split; [reflexivity|]. split; [|split; [exact Wk|split; [|exact I2]]].
    + split; [|split; [|exact T2]].
      * cbn [less emit l_buf]. rewrite B. unfold s1. cbn [emit more l_buf]. rewrite <- !app_assoc. reflexivity.
      * cbn [less emit l_level]. rewrite L. reflexivity.
    + rewrite Fe. assert (Q := list_text ld (fw ++ cur st s2) ts is Sl (sep_app _ _ Sf (cur_sep s2)) F Nn).
      replace ((10%N :: fw) ++ cur st s2 ++ lit "]") with ((10%N :: fw ++ cur st s2) ++ lit "]"); [exact Q|].
      cbn [app]. rewrite <- app_assoc. reflexivity.
Qed.

(** a field value that is not left out *)
Lemma field_text_of t l : field_of t l -> fld_text t l.
Proof.
  intros H. exists [], t. split; [reflexivity|]. split; [constructor|]. intros w k Hw.
  apply H; [apply sep_nl_; exact Hw|reflexivity].
Qed.
Lemma stored_list t l : stored t (PSeq KList l) -> t = MFString.
Proof.
  intros H. destruct t; try reflexivity; exfalso; unfold stored in H;
  unfold is_bool, is_int, is_float, is_string, is_flat_array, is_rows, is_array in H;
  repeat match type of H with ex _ => destruct H as [? H] | _ /\ _ => destruct H as [H _] | _ \/ _ => destruct H as [H|H] end; discriminate.
Qed.
Lemma nil_strings_read l : map erase l = map et_item [] -> read_value P MFString l = Ok (PSeq KList []).
Proof. intros E. destruct l; [reflexivity|discriminate]. Qed.
Lemma writes_field rec n f v : writes_ref rec -> In f (match s_node S n with Some nd => match proto protos (n_gi nd) with Some fs => fs | None => [] end | None => [] end) ->
  fget P S n f = Ok v -> ok_decl P f -> ok_value S f v -> dropped f v = Ok false ->
  forall s D R, tracks s D -> inv D (ref_ids v ++ R) -> sffield rec f v s <> LFuel ->
  exists s' t D' is, sffield rec f v s = LOk s' /\ step_ok s s' t D' /\ walk_val P protos S ism D f v D' is /\ fld_text t is /\ inv D' R.
Proof.
  intros W _ G Dc V Dr s D R Tr I N. unfold ok_value in V. unfold sffield, Linearise_Model.sffield in *.
  destruct (f_kind f) as [t d| |o] eqn:K, v as [v|r|l]; try contradiction.
  - destruct V as (St & Fi & Ms). destruct Dc as (_ & Dc). rewrite K in Dc. destruct Dc as (Rd & Od & _).
    assert (Gen : (match vrmlstr fstr (lv_at st s) t v with Some tx => LOk (emit tx s) | None => LExc end) <> LFuel ->
      exists s' tx D' is, (match vrmlstr fstr (lv_at st s) t v with Some tx => LOk (emit tx s) | None => LExc end) = LOk s' /\
        step_ok s s' tx D' /\ walk_val P protos S ism D f (VPv v) D' is /\ fld_text tx is /\ inv D' R).
    { intros _. destruct (value_survives P fstr FS (lv_at st s) (st_lv s) t v St Fi) as (tx & its & E & (Fo & Pl) & Rv).
      rewrite E. exists (emit tx s), tx, D, its. split; [reflexivity|]. split; [split; [reflexivity|split; [reflexivity|exact Tr]]|].
      split; [eapply wv_pv; eauto|]. split; [apply field_text_of; exact Fo|exact I]. }
    destruct v as [| | | | | |k l|]; try (exact (Gen N)).
    destruct k; try (exact (Gen N)). destruct l as [|x l].
    + destruct (writes_mfnode rec [] W s D R Tr (Forall_nil _) I N) as (s' & tx & D' & is & E & So & Wk & Ft & I').
      inversion Wk; subst. exists s', tx, D', []. split; [exact E|]. split; [exact So|]. split; [|split; [exact Ft|exact I']].
      rewrite (stored_list _ _ St) in K. eapply wv_pv; [exact K|reflexivity|apply nil_strings_read].
    + exfalso. pose proof (stored_list _ _ St) as Et. destruct (Ms Et) as [E|E]; [discriminate|]. subst t d. unfold dropped in Dr. rewrite K in Dr.
      destruct Od as [ls El]. rewrite El in Dr. cbn [safe_compare skind_eqb] in Dr. rewrite strs_refl in Dr. discriminate.
  - destruct (W r s D R) as (s' & t & D' & i & E & So & Wk & It & I' & _); auto.
    exists s', t, D', [i]. split; [exact E|]. split; [exact So|]. split; [eapply wv_ref; eauto|]. split; [apply single_text; exact It|exact I'].
  - rewrite ids_list in I. destruct (writes_mfnode rec l W s D R Tr V I N) as (s' & t & D' & is & E & So & Wk & Ft & I').
    exists s', t, D', is. split; [exact E|]. split; [exact So|]. split; [eapply wv_refs; eauto|]. auto.
Qed.

Lemma dropped_total f v : ok_decl P f -> ok_value S f v -> exists b, dropped f v = Ok b.
Proof.
  intros (_ & D) V. unfold ok_value in V. unfold dropped. destruct (f_kind f) as [t d| |o], v as [v|r|l]; try contradiction.
  - destruct D as (_ & Od & _), V as (St & _). destruct (compare_ok t d v Od St) as [b E]. destruct d; eauto.
  - eauto.
  - destruct o, l; eauto.
Qed.
Lemma dropped_no_ids f v : dropped f v = Ok true -> ref_ids v = [].
Proof.
  unfold dropped. destruct (f_kind f) as [t d| |o], v as [v|r|l]; try discriminate; try reflexivity.
  - destruct d; discriminate.
  - destruct d; discriminate.
  - destruct o; discriminate.
  - destruct o, l; try discriminate. reflexivity.
Qed.
Lemma writes_attrs rec n nd fs0 : writes_ref rec -> s_node S n = Some nd -> proto protos (n_gi nd) = Some fs0 ->
  forall fs, incl fs fs0 -> forall s D R ld, lead st s = 10%N :: ld -> tracks s D -> inv D (flat_map (frefs n) fs ++ R) ->
  each (attr rec n) fs s <> LFuel ->
  exists s' ats D' sks, each (attr rec n) fs s = LOk s' /\
    step_ok s s' (List.concat (map (fun a => (10%N :: ld) ++ fst a ++ snd a) ats)) D' /\
    walk_attrs P protos S ism n D fs D' sks /\ Forall2 attr_ok ats sks /\ inv D' R.
Proof.
  intros W Nd Pr. destruct (WP _ _ Pr) as (_ & _ & _ & Dc). rewrite Forall_forall in Dc.
  destruct (NODES _ _ Nd) as (fs1 & Pr1 & Vals). assert (fs1 = fs0) as -> by congruence.
  induction fs as [|f fs IH]; intros Sub s D R ld L Tr I N; cbn [each] in *.
  - exists s, [], D, []. split; [reflexivity|]. split; [split; [cbn; rewrite app_nil_r; reflexivity|split; [reflexivity|exact Tr]]|].
    split; [constructor|]. split; [constructor|exact I].
  - assert (In f fs0) as If by (apply Sub; left; reflexivity).
    assert (incl fs fs0) as Sub' by (intros x Hx; apply Sub; right; exact Hx).
    destruct (Vals f If) as (v & G & V). pose proof (Dc f If) as Df. destruct (dropped_total f v Df V) as [b Db].
    pose proof (lbind_fuel _ _ N) as N1. unfold attr, Linearise_Model.attr in N1, N |- *. rewrite G in *.
    cbn [flat_map] in I. unfold frefs at 1 in I. rewrite G in I.
    destruct (ism n (f_name f)) as [pn|] eqn:Im.
    { cbn [lbind] in *. destruct (MAPS n f v pn G Im) as (Hpn & Nr). rewrite Nr in I.
      set (s1 := emit (lead st s ++ f_name f ++ lit " IS " ++ pn ++ [9%N]) s) in *.
      destruct (IH Sub' s1 D R ld) as (s' & ats & D' & sks & E' & (B2 & L2 & T2) & Wk' & F & I'); auto.
      exists s', ((f_name f, lit " IS " ++ pn ++ [9%N]) :: ats), D', ((f_name f, SIs pn) :: sks). split; [exact E'|].
      split; [|split; [eapply wa_is; eauto|split; [|exact I']]].
      - split; [|split; [exact L2|exact T2]]. rewrite B2. unfold s1. cbn [emit l_buf map List.concat fst snd].
        rewrite L, <- !app_assoc. reflexivity.
      - constructor; [|exact F]. split; [reflexivity|]. split; [apply Df|]. split; [exact Hpn|reflexivity]. }
    rewrite Db in *. destruct b.
    + cbn [lbind] in *. rewrite (dropped_no_ids _ _ Db) in I.
      destruct (IH Sub' s D R ld L Tr I N) as (s' & ats & D' & sks & E & So & Wk & F & I').
      exists s', ats, D', sks. split; [exact E|]. split; [exact So|]. split; [eapply wa_drop; eauto|]. auto.
    + rewrite <- app_assoc in I. set (s1 := emit (lead st s ++ f_name f ++ [9%N]) s) in *.
      destruct (writes_field rec n f v W) with (s := s1) (D := D) (R := flat_map (frefs n) fs ++ R)
        as (s2 & t & D1 & is & E & (B1 & L1 & T1) & Wk & Ft & I1); auto.
      { rewrite Nd, Pr. exact If. }
      rewrite E in *. cbn [lbind] in *.
      destruct (IH Sub' s2 D1 R ld) as (s' & ats & D' & sks & E' & (B2 & L2 & T2) & Wk' & F & I'); auto.
      { rewrite (lead_level s s2); [exact L|exact L1]. }
      exists s', ((f_name f, 9%N :: t) :: ats), D', ((f_name f, SVal is) :: sks). split; [exact E'|].
      split; [|split; [eapply wa_keep; eauto|split; [|exact I']]].
      * split; [|split; [rewrite L2, L1; reflexivity|exact T2]]. rewrite B2, B1. unfold s1. cbn [emit l_buf map List.concat fst snd].
        rewrite L, <- !app_assoc. reflexivity.
      * constructor; [|exact F]. split; [reflexivity|]. split; [apply Df|]. exists t. auto.
Qed.

Lemma closed_text n nd gi i p s ats sks ld : s_node S n = Some nd -> n_gi nd = gi -> safe_name gi = true ->
  sep_text ld -> Forall2 attr_ok ats sks ->
  let body := List.concat (map (fun a => (10%N :: ld) ++ fst a ++ snd a) ats) in
  (tell s =? p) = match ats with [] => true | _ => false end ->
  exists t, l_buf (closed st S n i p gi s) = l_buf s ++ t /\ l_level (closed st S n i p gi s) = Nat.pred (l_level s) /\
    item_text (def_text S n ++ (gi ++ lit " {") ++ body ++ t) (SNode (def_opt (node_def S n)) gi sks).
Proof.
  intros Nd Gi Sg Sl F body Em. unfold closed. rewrite Em.
  assert (Dn : node_def S n = [] \/ is_name (node_def S n) = true).
  { destruct (node_def S n) eqn:E; [auto|right]. rewrite <- E. eapply NAMES; [exact Nd|]. congruence. }
  assert (Dt : def_text S n = def_part (node_def S n)) by (unfold def_text, def_part; destruct (node_def S n); reflexivity). rewrite Dt.
  destruct ats as [|a0 ats].
  - inversion F; subst sks. eexists. split; [reflexivity|]. split; [reflexivity|].
    pose proof (node_text (node_def S n) gi (l_courtesy st) ANil [] Dn Sg (proj1 (proj2 ST)) Logic.I (or_introl eq_refl)) as Q.
    cbn [sk_attrs show_attrs] in Q. rewrite app_nil_r in Q. unfold body. cbn [map List.concat app]. rewrite <- app_assoc. exact Q.
  - set (ats' := a0 :: ats) in *. clearbody ats'. destruct fes_eq as (fw & Fe & Sf).
    destruct (attrs_text (lit "}") ld (fw ++ cur st s) ats' sks Sl (sep_app _ _ Sf (cur_sep s)) F) as (w & al & E & Hw & Ok & Sk).
    assert (Q : forall tail, end_text tail -> item_text (def_part (node_def S n) ++ (gi ++ lit " {") ++ body ++
      (l_fes st ++ cur st s ++ lit "}") ++ tail) (SNode (def_opt (node_def S n)) gi sks)).
    { intros tail Ht. pose proof (node_text (node_def S n) gi (10%N :: w) al tail Dn Sg (sep_nl_ _ Hw) Ok Ht) as Q.
      rewrite Sk in Q. rewrite Fe. fold body in E.
      replace ((gi ++ lit " {") ++ body ++ ((10%N :: fw) ++ cur st s ++ lit "}") ++ tail)
        with (gi ++ lit " {" ++ (10%N :: w) ++ show_attrs al ++ lit "}" ++ tail); [exact Q|].
      rewrite <- !app_assoc. f_equal. f_equal. rewrite (app_assoc (10%N :: w)), <- E, <- !app_assoc. cbn [app].
      rewrite <- !app_assoc. reflexivity. }
    assert (Q0 := Q [] (or_introl eq_refl)). rewrite app_nil_r in Q0.
    destruct (l_end st) as [c|]; [destruct (c * 60 <? tell s - i)|].
    + eexists. split; [reflexivity|]. split; [reflexivity|].
      apply Q. right. eexists. split; [|reflexivity].
      destruct Dn as [->|Dn]; [apply is_name_nl, safe_is_name; exact Sg|].
      destruct (node_def S n) eqn:Z; [apply is_name_nl, safe_is_name; exact Sg|apply is_name_nl; exact Dn].
    + eexists. split; [reflexivity|]. split; [reflexivity|]. exact Q0.
    + eexists. split; [reflexivity|]. split; [reflexivity|]. exact Q0.
Qed.
Lemma closed_seen n i p gi s m : seen (closed st S n i p gi s) m <-> m = n \/ seen s m.
Proof.
  unfold seen. destruct (closed_done st S n i p gi s) as [x ->]. destruct (Nat.eq_dec m n) as [->|D].
  - rewrite (dget_dset_same Nat.eqb Nat.eqb_eq). split; [auto|discriminate].
  - rewrite (dget_dset_other Nat.eqb Nat.eqb_eq) by congruence. intuition.
Qed.
Lemma walk_incl :
  (forall D r D' i, walk_ref P protos S ism D r D' i -> incl D D') /\
  (forall D l D' is, walk_refs P protos S ism D l D' is -> incl D D') /\
  (forall n D fs D' l, walk_attrs P protos S ism n D fs D' l -> incl D D') /\
  (forall D f v D' is, walk_val P protos S ism D f v D' is -> incl D D').
Proof.
  apply walk_mut; intros; try apply incl_refl; try assumption; try (eapply incl_tran; eassumption).
  intros x Hx. apply H. right. exact Hx.
Qed.
Lemma lin_writes k : writes_ref (lin k).
Proof.
  induction k as [|k IH]; intros r s D R Tr V I N; [cbn in N; congruence|].
  change (lin (Datatypes.S k) r s) with (linear (lin k) r s) in *. unfold linear, Linearise_Model.linear in *.
  destruct r as [|n].
  - exists (emit (lit "NULL") s), (lit "NULL"), D, SNull. split; [reflexivity|].
    split; [split; [reflexivity|split; [reflexivity|exact Tr]]|]. split; [constructor|]. split; [apply null_text|]. split; [exact I|congruence].
  - destruct V as [V|[nd Nd]]; [discriminate|]. rewrite Nd in *. destruct (NODES _ _ Nd) as (fs & Pr & Vals).
    destruct (WP _ _ Pr) as (Sg & Ns & _).
    assert (K : forall p, In p keywords -> text_eqb (n_gi nd) p = false).
    { intros p Hp. destruct (text_eqb (n_gi nd) p) eqn:E; [|reflexivity]. apply text_eqb_spec in E.
      unfold safe_name in Sg. apply andb_true_iff in Sg as [Sg _]. apply andb_true_iff in Sg as [_ Sg].
      rewrite forallb_forall in Sg. specialize (Sg p Hp). rewrite E in Sg.
      assert (starts_with p p = true) as H by (apply starts_with_spec; exists []; rewrite app_nil_r; reflexivity).
      rewrite H in Sg. discriminate. }
    assert (text_eqb (n_gi nd) (lit "sceneGraph") = false) as K3.
    { destruct (text_eqb (n_gi nd) (lit "sceneGraph")) eqn:E; [|reflexivity]. apply text_eqb_spec in E. contradiction. }
    unfold script_gi in *. rewrite (K (lit "Script")) in * by (cbn; auto 20). rewrite (K (lit "NULL")) in * by (cbn; auto 20). rewrite K3 in *. cbn [orb] in *.
    rewrite Pr in *. rewrite node_body_eq in *. unfold can_use in *.
    destruct (dget Nat.eqb (l_done s) n) as [x|] eqn:Dn.
    + (* seen before *)
      assert (In n D) as Hn by (apply Tr; unfold seen; congruence).
      assert (node_def S n <> []) as Nm.
      { intros U. specialize (I n U). apply memb_in in Hn. rewrite Hn in I. cbn [ids app count_occ] in I.
        destruct (Nat.eq_dec n n); [lia|congruence]. }
      assert (Q : LOk (emit (lit "USE " ++ node_def S n) s) = match node_def S n with [] => LExc | d => LOk (emit (lit "USE " ++ d) s) end)
        by (destruct (node_def S n); [congruence|reflexivity]).
      exists (emit (lit "USE " ++ node_def S n) s), (lit "USE " ++ node_def S n), D, (SUse (node_def S n)).
      split. { destruct (node_def S n); [congruence|reflexivity]. }
      split; [split; [reflexivity|split; [reflexivity|exact Tr]]|]. split; [eapply wk_use; eauto|].
      split; [apply use_text; eapply NAMES; eauto|]. split; [|intros _; split; [discriminate|exact Logic.I]].
      eapply inv_cnt; [|exact I]. intros m. cbn [ids app count_occ]. destruct (Nat.eq_dec n m); lia.
    + cbv zeta in *. assert (~ In n D) as Hn by (intros H; apply Tr in H; unfold seen in H; congruence).
      set (s2 := emit (def_text S n ++ n_gi nd ++ lit " {") (mark n (tell s, None) s)) in *.
      assert (Tr2 : tracks (more s2) (n :: D)).
      { intros m. unfold s2. change (In m (n :: D) <-> seen (mark n (tell s, None) s) m). rewrite seen_mark, <- (Tr m). cbn. intuition. }
      destruct (lead_eq (more s2)) as (ld & Ld & Sl).
      destruct (writes_attrs (lin k) n nd fs IH Nd Pr (sort fs)) with (s := more s2) (D := n :: D) (R := R) (ld := ld)
        as (s3 & ats & D' & sks & E & (B & L & T3) & Wk & F & I'); auto.
      { intros f Hf. eapply Permutation_in; [apply sort_perm|exact Hf]. }
      { eapply inv_enter; eauto. }
      { eapply lbind_fuel. exact N. }
      rewrite E in *. cbn [lbind] in *.
      assert (Em : (tell s3 =? tell s2) = match ats with [] => true | _ => false end).
      { unfold tell. rewrite B, app_length. change (List.length (l_buf (more s2))) with (List.length (l_buf s2)).
        destruct ats as [|a ats]; [apply Nat.eqb_eq; cbn; lia|]. apply Nat.eqb_neq. cbn [map List.concat]. rewrite !app_length. cbn. lia. }
      destruct (closed_text n nd (n_gi nd) (tell s) (tell s2) s3 ats sks ld Nd eq_refl Sg Sl F Em) as (t & Bt & Lt & It).
      eexists _, _, D', (SNode (def_opt (node_def S n)) (n_gi nd) sks). split; [reflexivity|].
      split; [split; [|split]|split; [eapply wk_node; eauto|split; [exact It|split; [exact I'|intros _; split; [discriminate|exact Logic.I]]]]].
      * rewrite Bt, B. unfold s2. cbn [more emit mark l_buf]. rewrite <- !app_assoc. reflexivity.
      * rewrite Lt, L. reflexivity.
      * intros m. rewrite closed_seen, <- (T3 m). split; [auto|]. intros [->|H]; [|exact H].
        apply (proj1 (proj2 (proj2 walk_incl)) _ _ _ _ _ Wk). left. reflexivity.
Qed.
End Writes.
