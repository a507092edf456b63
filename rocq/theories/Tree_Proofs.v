(** Reading: every entry of the document becomes a node at its place.  For P_Tree. *)
From Coq Require Import Reals SpecFloat.
From Flocq Require Import Core.Core IEEE754.BinarySingleNaN.
From Verif Require Import Base Text PyDict PyDict_Proofs Float Coerce_Model Coerce_Spec Grammar_Model Grammar_Proofs Lex_Spec Lex_Proofs
  Doc_Spec Doc_Proofs SceneGraph_Model VrmlStr_Model VrmlStr_Values Scene_Model Scene_Spec Build_Model Reading_Spec Reading_Proofs Reading_Facts
  Script_Spec ProtoFile P_Script Tree_Spec.
From Verif Require Script_Proofs.
Import Script_Proofs (typed_item, typed_attr, typed_sel, typed_root).
Local Open Scope nat_scope.
Local Open Scope list_scope.

Section Frame.
Variable P : prims.
Variable base : list (text * list fdecl).
Variable inp : bool.
Variable e T : list (text * pdef).
Hypothesis HT : forall gi p, dget text_eqb e gi = Some p -> dget text_eqb T gi = Some p.
(** the field of a node of the type is its own *)
Definition own (gi x : text) : Prop := gi = script_gi \/ ~ shared T gi x.
Lemma own_passed gi f : text_eqb gi script_gi = false -> own gi (f_name f) -> passed_on e gi f = false.
Proof.
  intros G [->|H]; [rewrite text_eqb_refl in G; discriminate|]. destruct (passed_on e gi f) eqn:E; [|reflexivity]. exfalso. apply H. unfold passed_on in E.
  destruct (dget text_eqb e gi) as [p|] eqn:D; [|discriminate]. apply HT in D. exists p.
  destruct (f_kind f); destruct (dget text_eqb (s_is (p_body p)) (f_name f)) as [xs|] eqn:X; try discriminate; exists xs; auto.
Qed.
Definition same (m : nat) (st st' : rstate) : Prop :=
  (forall x, member_of st' m x = member_of st m x) /\
  (forall gi d x, nth_error (r_nodes st) m = Some (gi, d) -> own gi x -> value_set st' m x = value_set st m x).
Definition well (st : rstate) : Prop := Forall (fun p => exists gi, nth_error (r_nodes st) (snd p) = Some (gi, fst p)) (r_names st).
Definition going (X : nat -> Prop) (st st' : rstate) : Prop :=
  later st st' /\ (forall m, m < r_next st -> ~ X m -> same m st st') /\ (well st -> well st').
Definition none (m : nat) : Prop := False.
Lemma same_refl m st : same m st st. Proof. split; reflexivity. Qed.
Lemma same_trans m a b c : later a b -> same m a b -> same m b c -> same m a c.
Proof.
  intros L [A B] [C D]. split; [intros x; rewrite C; auto|]. intros gi d x N O. rewrite (D gi d x); [exact (B gi d x N O)|exact (later_nth _ _ _ _ L N)|exact O].
Qed.
Lemma later_next st st' : later st st' -> r_next st <= r_next st'.
Proof. intros [l E]. unfold r_next. rewrite E, app_length. lia. Qed.
Lemma later_same st st' : r_nodes st' = r_nodes st -> later st st'.
Proof. intros E. exists []. rewrite app_nil_r. exact E. Qed.
Lemma going_refl X st : going X st st.
Proof. split; [apply later_refl|]. split; [|auto]. intros. apply same_refl. Qed.
Lemma going_trans X a b c : going X a b -> going X b c -> going X a c.
Proof.
  intros (L1 & S1 & W1) (L2 & S2 & W2). split; [exact (later_trans _ _ _ L1 L2)|]. split; [|auto]. intros m H N.
  pose proof (later_next _ _ L1). apply (same_trans m a b c L1); [apply S1|apply S2]; auto; lia.
Qed.
Lemma going_more (X Y : nat -> Prop) a b : (forall m, X m -> Y m) -> going X a b -> going Y a b.
Proof. intros I (L & G & W). split; [exact L|]. split; [|exact W]. intros m H N. apply G; auto. Qed.
Lemma going_same X st st' : r_nodes st' = r_nodes st -> r_names st' = r_names st -> r_sets st' = r_sets st -> r_mems st' = r_mems st -> going X st st'.
Proof.
  intros E1 E2 E3 E4. split; [apply later_same; exact E1|]. split.
  - intros m _ _. split; intros; unfold member_of, value_set; [rewrite E4|rewrite E3]; reflexivity.
  - unfold well. rewrite E1, E2. auto.
Qed.
Lemma going_maps X n ms st : going X st (with_maps n ms st).
Proof.
  revert st. unfold with_maps. induction ms as [|m ms IH]; intros st; cbn [fold_left]; [apply going_refl|].
  exact (going_trans _ _ _ _ (going_same X st (with_is (fst m) n (snd m) st) eq_refl eq_refl eq_refl eq_refl) (IH _)).
Qed.
Lemma entered d gi st : nth_error (r_nodes (enter_node d gi st)) (r_next st) = Some (gi, name_of d).
Proof. cbn [enter_node r_nodes]. unfold r_next. rewrite nth_error_app2, Nat.sub_diag by lia. reflexivity. Qed.
Lemma enter_next d gi st : r_next (enter_node d gi st) = Datatypes.S (r_next st).
Proof. unfold r_next. cbn [enter_node r_nodes]. rewrite app_length. cbn. lia. Qed.
Lemma going_enter X d gi st : going X st (enter_node d gi st).
Proof.
  assert (L : later st (enter_node d gi st)) by (eexists; reflexivity). split; [exact L|]. split; [intros; split; reflexivity|].
  intros W. assert (W' : Forall (fun p => exists g, nth_error (r_nodes (enter_node d gi st)) (snd p) = Some (g, fst p)) (r_names st)).
  { eapply Forall_impl; [|exact W]. intros p (g & H). exists g. exact (later_nth _ _ _ _ L H). }
  unfold well. destruct d as [nm|]; [|exact W']. constructor; [|exact W']. exists gi. cbn [fst snd]. exact (entered (Some nm) gi st).
Qed.
Lemma going_member n nm m st : going (eq n) st (with_member n nm m st).
Proof.
  split; [apply later_same; reflexivity|]. split; [|auto]. intros k _ N. split; [intros x|reflexivity].
  rewrite member_of_with. destruct (n =? k) eqn:E; [|reflexivity]. apply Nat.eqb_eq in E. contradiction.
Qed.
Lemma going_one n nm v st : going (eq n) st (with_sets [(n, nm, v)] st).
Proof.
  split; [apply later_same; reflexivity|]. split; [|auto]. intros k _ N. split; [reflexivity|]. intros gi d x _ _. rewrite value_set_old. cbn [find fst snd].
  destruct (n =? k) eqn:E; [|reflexivity]. apply Nat.eqb_eq in E. contradiction.
Qed.
Lemma going_set n gi f v st : text_eqb gi script_gi = false -> going (eq n) st (set_value e n gi f v st).
Proof.
  intros G. unfold set_value. destruct (passed_on e gi f) eqn:Po; [|apply going_one].
  split; [apply later_same; reflexivity|]. split; [|auto]. intros k _ _. split; [reflexivity|]. intros gk d x Nk O. rewrite value_set_old, find_no; [reflexivity|].
  intros y Hy. apply in_map_iff in Hy as (m & <- & Hm). apply filter_In in Hm as [_ Hm]. cbn [fst snd].
  destruct (m =? k) eqn:E; [|reflexivity]. apply Nat.eqb_eq in E. subst m. rewrite Nk in Hm. apply text_eqb_spec in Hm. subst gk.
  destruct (text_eqb (f_name f) x) eqn:Ex; [|reflexivity]. apply text_eqb_spec in Ex. subst x. rewrite (own_passed gi f G O) in Po. discriminate.
Qed.
Lemma going_new d gi st st' : going (eq (r_next st)) (enter_node d gi st) st' -> going none st st'.
Proof.
  intros (L2 & G2 & W2). destruct (going_enter none d gi st) as (L1 & G1 & W1). split; [exact (later_trans _ _ _ L1 L2)|]. split; [|auto].
  intros m H N. apply (same_trans m _ (enter_node d gi st)); [exact L1|apply G1; assumption|]. apply G2; [rewrite enter_next; lia|lia].
Qed.
Theorem all_going :
  (forall st i st' r, item_reads P base inp e st i st' r -> typed_item i = true -> going none st st') /\
  (forall st l st' rs, items_read P base inp e st l st' rs -> forallb typed_item l = true -> going none st st') /\
  (forall n gi fs st l st', attrs_read P base inp e n gi fs st l st' -> text_eqb gi script_gi = false -> forallb typed_attr l = true -> going (eq n) st st') /\
  (forall st f its st' v, value_reads P base inp e st f its st' v -> forallb typed_item its = true -> going none st st') /\
  (forall st ex ty its st' m, member_reads P base inp e st ex ty its st' m -> forallb typed_item its = true -> going none st st') /\
  (forall n st ms l st' ms', sdecls_read P base inp e n st ms l st' ms' -> forallb typed_sel l = true -> going (eq n) st st') /\
  (forall n st l st', sattrs_read P base inp e n st l st' -> forallb typed_sel l = true -> going (eq n) st st').
Proof.
  assert (Nn : forall n m, none m -> n = m) by (intros ? ? []).
  apply item_reads_all; try (intros; apply going_refl).
  - intros st d gi fs l st' _ _ _ IH H. cbn [typed_item] in H. fold typed_attr in H. apply andb_true_iff in H as [G H]. apply negb_true_iff in G.
    exact (going_new d gi st st' (IH G H)).
  - intros st d l st1 ms st' _ IH1 _ _ IH2 H. cbn [typed_item] in H. fold typed_sel in H.
    exact (going_new d script_gi st st' (going_trans _ _ _ _ (IH1 H) (going_trans _ _ _ _ (going_maps _ _ _ _) (IH2 H)))).
  - intros st i st1 r l st' rs _ IH1 _ IH2 H. cbn [forallb] in H. apply andb_true_iff in H as [H1 H2]. exact (going_trans _ _ _ _ (IH1 H1) (IH2 H2)).
  - intros n gi fs st f its st1 v l st' _ _ IH1 _ IH2 G H. cbn [forallb] in H. apply andb_true_iff in H as [H1 H2].
    exact (going_trans _ _ _ _ (going_more _ _ _ _ (Nn n) (IH1 H1)) (going_trans _ _ _ _ (going_set n gi f v st1 G) (IH2 G H2))).
  - intros n gi fs st nm pn l st' _ _ IH G H. cbn [forallb] in H. apply andb_true_iff in H as [H1 H2].
    exact (going_trans _ _ _ _ (going_same _ st (with_is pn n nm st) eq_refl eq_refl eq_refl eq_refl) (IH G H2)).
  - intros st f i its st' r _ _ IH H. cbn [forallb] in H. apply andb_true_iff in H as [H1 H2]. auto.
  - auto.
  - intros st ex i its st' r _ IH H. cbn [forallb] in H. apply andb_true_iff in H as [H1 H2]. auto.
  - auto.
  - intros n st ms ex ty nm its st1 m l st' ms' _ _ IH1 _ IH2 H. cbn [forallb] in H. apply andb_true_iff in H as [H1 H2].
    exact (going_trans _ _ _ _ (going_more _ _ _ _ (Nn n) (IH1 H1)) (going_trans _ _ _ _ (going_member _ _ _ _) (IH2 H2))).
  - intros n st ms ex ty nm k pn l st' ms' _ _ _ IH H. cbn [forallb] in H. apply andb_true_iff in H as [H1 H2].
    exact (going_trans _ _ _ _ (going_member _ _ _ _) (IH H2)).
  - intros n st ms out ty nm pn l st' ms' _ _ _ IH H. cbn [forallb] in H. apply andb_true_iff in H as [H1 H2].
    exact (going_trans _ _ _ _ (going_member _ _ _ _) (IH H2)).
  - intros n st ms nm v l st' ms' _ IH H. cbn [forallb] in H. apply andb_true_iff in H as [H1 H2]. auto.
  - intros n st x l st' _ _ IH H. cbn [forallb] in H. apply andb_true_iff in H as [H1 H2]. auto.
  - intros n st f its st1 v l st' _ _ IH1 _ IH2 H. cbn [forallb] in H. apply andb_true_iff in H as [H1 H2].
    exact (going_trans _ _ _ _ (going_more _ _ _ _ (Nn n) (IH1 H1)) (going_trans _ _ _ _ (going_one _ _ _ _) (IH2 H2))).
  - intros n st nm pn l st' _ _ _ IH H. cbn [forallb] in H. apply andb_true_iff in H as [H1 H2].
    exact (going_trans _ _ _ _ (going_same _ st (with_is pn n nm st) eq_refl eq_refl eq_refl eq_refl) (IH H2)).
Qed.

(** *** the place of every entry, in the end *)
Variable fin : rstate.
Variable S : scene.
Hypothesis D : describes fin S.
Hypothesis HF : forall gi fs, proto (types base e) gi = Some fs -> proto (types base T) gi = Some fs.
(** the nodes from [lo] on stay as they are *)
Definition keeps (lo : nat) (st : rstate) : Prop := later st fin /\ forall m, lo <= m -> m < r_next st -> same m st fin.
Lemma keeps_before X lo a b : going X a b -> (forall m, X m -> m < lo) -> keeps lo b -> keeps lo a.
Proof.
  intros (L & G & _) HX (Lf & K). split; [exact (later_trans _ _ _ L Lf)|]. intros m H1 H2. apply (same_trans m a b fin L).
  - apply G; [exact H2|]. intros H. apply HX in H. lia.
  - apply K; [exact H1|]. pose proof (later_next _ _ L). lia.
Qed.
Lemma keeps_up lo lo' st : lo <= lo' -> keeps lo st -> keeps lo' st.
Proof. intros L (A & B). split; [exact A|]. intros m H1 H2. apply B; lia. Qed.
Notation placed := (placed P base T inp S).
Notation given := (given P base T inp S).
Notation declared_as := (declared_as P base T inp S).
Notation placed_all := (placed_all P base T inp S).
(** what the declarations and the attributes of a Script give *)
Definition decl_placed (st' st : rstate) (n : nat) (l : list ssel) (x : text) : Prop :=
  match last_decl l x with
  | None => member_of st' n x = member_of st n x
  | Some (SSField ex ty _ v) => exists k dn, member_of st' n x = Some (SMField ex k dn) /\ class_name k = ty /\
      match v with SVal its => declared_as k dn its | SIs _ => True end
  | Some (SSEvent out ty _ _) => member_of st' n x = Some (SMEvent out ty)
  | Some (SSAttr _ _) => False
  end.
Lemma member_with n nm m st x : member_of (with_member n nm m st) n x = if text_eqb nm x then Some m else member_of st n x.
Proof. rewrite member_of_with, Nat.eqb_refl. reflexivity. Qed.
Lemma value_one n nm v st x : value_set (with_sets [(n, nm, v)] st) n x = if text_eqb nm x then Some v else value_set st n x.
Proof. rewrite value_set_old. cbn [find fst snd]. rewrite Nat.eqb_refl. cbn [andb]. destruct (text_eqb nm x); reflexivity. Qed.
Theorem all_placed :
  (forall st i st' r, item_reads P base inp e st i st' r -> typed_item i = true -> fresh st -> well st -> keeps (r_next st) st' -> placed i r) /\
  (forall st l st' rs, items_read P base inp e st l st' rs -> forallb typed_item l = true -> fresh st -> well st -> keeps (r_next st) st' -> placed_all l rs) /\
  (forall n gi fs st l st', attrs_read P base inp e n gi fs st l st' -> text_eqb gi script_gi = false -> forallb typed_attr l = true ->
     fresh st -> well st -> n < r_next st -> (exists d, nth_error (r_nodes st) n = Some (gi, d)) -> keeps (r_next st) st' ->
     (forall x, own gi x -> match last_value l x with
                            | None => value_set st' n x = value_set st n x
                            | Some its => exists f v, In f fs /\ f_name f = x /\ value_set st' n x = Some v /\ given (f_kind f) its v
                            end) /\
     (forall x its, In (x, SVal its) l -> In x (map f_name fs)) /\ (inp = false -> forall x v, In (x, v) l -> is_is v = false)) /\
  (forall st f its st' v, value_reads P base inp e st f its st' v -> forallb typed_item its = true -> fresh st -> well st -> keeps (r_next st) st' ->
     given (f_kind f) its v) /\
  (forall st ex ty its st' m, member_reads P base inp e st ex ty its st' m -> forallb typed_item its = true -> fresh st -> well st -> keeps (r_next st) st' ->
     exists k dn, m = SMField ex k dn /\ class_name k = ty /\ declared_as k dn its) /\
  (forall n st ms l st' ms', sdecls_read P base inp e n st ms l st' ms' -> forallb typed_sel l = true -> fresh st -> well st -> n < r_next st -> keeps (r_next st) st' ->
     forall x, decl_placed st' st n l x) /\
  (forall n st l st', sattrs_read P base inp e n st l st' -> forallb typed_sel l = true -> fresh st -> well st -> n < r_next st ->
     (exists d, nth_error (r_nodes st) n = Some (script_gi, d)) -> keeps (r_next st) st' ->
     forall x, match last_value (script_attributes l) x with
               | None => value_set st' n x = value_set st n x
               | Some its => exists f v, f_name f = x /\ script_field st n f /\ value_set st' n x = Some v /\ given (f_kind f) its v
               end).
Proof.
  pose proof all_going as (Gi & Gl & Ga & Gv & Gm & Gd & Gs). pose proof (all_tended P base inp e) as (Ti & Tl & Ta & Tv & Tm & Td & Ts).
  assert (Nn : forall (lo m : nat), none m -> m < lo) by (intros ? ? []).
  assert (Nv : forall n gi f v st, r_next (set_value e n gi f v st) = r_next st) by (intros; unfold set_value; destruct (passed_on e gi f); reflexivity).
  apply item_reads_all.
  - intros. constructor.
  - intros st nm n Hn _ _ W (Lf & _). unfold named_node in Hn. apply dget_in in Hn. unfold well in W. rewrite Forall_forall in W. destruct (W _ Hn) as (gi & E). cbn [fst snd] in E.
    destruct (ds_node _ _ D _ _ _ (later_nth _ _ _ _ Lf E)) as (nd & N1 & _ & N3 & _). exact (pl_use _ _ _ _ _ nm n nd N1 N3).
  - intros st d gi fs l st' Hp _ Ar IH H F W K. cbn [typed_item] in H. fold typed_attr in H. apply andb_true_iff in H as [G H]. apply negb_true_iff in G.
    pose proof (Ga _ _ _ _ _ _ Ar G H) as Go. destruct (tended_enter d gi st F) as [F1 L1]. pose proof (enter_next d gi st) as En.
    pose proof (proj2 (proj2 (going_enter none d gi st)) W) as W1. pose proof (entered d gi st) as Ee.
    pose proof (later_nth _ _ _ _ (proj1 Go) Ee) as Es. pose proof (later_nth _ _ _ _ (proj1 K) Es) as Ef.
    destruct (ds_node _ _ D _ _ _ Ef) as (nd & N1 & N2 & N3 & N4 & N5).
    destruct IH as (A1 & A2 & A3); auto; [lia|eauto|apply (keeps_up (r_next st)); [lia|exact K]|].
    pose proof (later_next _ _ (proj1 Go)) as Ln.
    assert (V : forall x, own gi x -> dget text_eqb (n_vals nd) x = value_set st' (r_next st) x).
    { intros x O. rewrite N4. refine (proj2 (proj2 K (r_next st) _ _) _ _ x Es O); lia. }
    assert (V0 : forall x, value_set (enter_node d gi st) (r_next st) x = None) by (intros x; exact (value_set_next st x (proj1 F))).
    apply (pl_node _ _ _ _ _ d gi l (r_next st) nd fs); auto.
    + intros x Ns E. specialize (A1 x (or_intror Ns)). rewrite E in A1. rewrite (V x (or_intror Ns)), A1. apply V0.
    + intros x its Ns E. specialize (A1 x (or_intror Ns)). rewrite E in A1. rewrite (V x (or_intror Ns)). exact A1.
  - intros st d l st1 ms st' Dc IH1 Ms Da IH2 H F W K. cbn [typed_item] in H. fold typed_sel in H.
    pose proof (Gd _ _ _ _ _ _ Dc H) as G1. pose proof (going_maps (eq (r_next st)) (r_next st) ms st1) as G2. pose proof (Gs _ _ _ _ Da H) as G3.
    destruct (tended_enter d script_gi st F) as [F1 L1]. pose proof (enter_next d script_gi st) as En.
    pose proof (proj2 (proj2 (going_enter none d script_gi st)) W) as W1. pose proof (entered d script_gi st) as Ee.
    pose proof (later_nth _ _ _ _ (proj1 G1) Ee) as E1. pose proof (later_nth _ _ _ _ (proj1 G2) E1) as E2. pose proof (later_nth _ _ _ _ (proj1 G3) E2) as Es. pose proof (later_nth _ _ _ _ (proj1 K) Es) as Ef.
    destruct (ds_node _ _ D _ _ _ Ef) as (nd & N1 & N2 & N3 & N4 & N5).
    pose proof (later_next _ _ (proj1 G1)) as Ln1. pose proof (later_next _ _ (proj1 G2)) as Ln2. pose proof (later_next _ _ (proj1 G3)) as Ln3.
    assert (Lt : r_next st < r_next (enter_node d script_gi st)) by lia.
    destruct (Td _ _ _ _ _ _ Dc Lt F1) as [F2 _]. destruct (tended_maps (r_next st) ms st1 F2) as [F3 _].
    assert (Lo : forall m, r_next st = m -> m < r_next (enter_node d script_gi st)) by (intros; lia).
    pose proof (keeps_up _ (r_next (enter_node d script_gi st)) _ L1 K) as K3.
    pose proof (keeps_before _ _ _ _ G3 Lo K3) as K2. pose proof (keeps_before _ _ _ _ G2 Lo K2) as K1.
    assert (Dd : forall x, decl_placed st1 (enter_node d script_gi st) (r_next st) l x) by (apply IH1; auto).
    assert (Lt3 : r_next st < r_next (with_maps (r_next st) ms st1)) by lia.
    assert (Le3 : r_next st <= r_next (with_maps (r_next st) ms st1)) by lia.
    assert (Aa := IH2 H F3 (proj2 (proj2 G2) (proj2 (proj2 G1) W1)) Lt3 (ex_intro _ _ E2) (keeps_up _ _ _ Le3 K)).
    assert (Sc0 : Script_Proofs.is_script (enter_node d script_gi st) (r_next st)) by (eexists; exact Ee).
    assert (Sc1 : Script_Proofs.is_script (with_maps (r_next st) ms st1) (r_next st)) by (eexists; exact E2).
    destruct (Script_Proofs.decls_give _ _ _ _ _ _ _ _ _ _ Dc H Sc0) as (V1 & _ & _ & Is1). destruct (Script_Proofs.attrs_give _ _ _ _ _ _ _ _ Da H Sc1) as (M2 & _ & Is2).
    assert (Sk : same (r_next st) st' fin) by (apply (proj2 K); lia).
    assert (Mm : forall x, member_of (with_maps (r_next st) ms st1) (r_next st) x = member_of st1 (r_next st) x).
    { intros x. clear. revert st1. unfold with_maps. induction ms as [|m ms IH]; intros st1; [reflexivity|]. cbn [fold_left]. rewrite IH. reflexivity. }
    assert (Vm : forall x, value_set (with_maps (r_next st) ms st1) (r_next st) x = value_set st1 (r_next st) x).
    { intros x. clear. revert st1. unfold with_maps. induction ms as [|m ms IH]; intros st1; [reflexivity|]. cbn [fold_left]. rewrite IH. reflexivity. }
    assert (MM : forall x, dget text_eqb (n_mem nd) x = member_of st1 (r_next st) x) by (intros x; rewrite N5, (proj1 Sk), M2; apply Mm).
    assert (VV : forall x, dget text_eqb (n_vals nd) x = value_set st' (r_next st) x) by (intros x; rewrite N4; exact (proj2 Sk _ _ x Es (or_introl eq_refl))).
    assert (V0 : forall x, value_set (with_maps (r_next st) ms st1) (r_next st) x = None) by (intros x; rewrite Vm, V1; exact (value_set_next st x (proj1 F))).
    assert (M0 : forall x, member_of (enter_node d script_gi st) (r_next st) x = None) by (intros x; exact (member_of_next st x (proj2 F))).
    apply (pl_script _ _ _ _ _ d l (r_next st) nd); auto.
    + intros x E. rewrite MM. specialize (Dd x). unfold decl_placed in Dd. rewrite E in Dd. rewrite Dd. apply M0.
    + intros x out ty nm pn E. rewrite MM. specialize (Dd x). unfold decl_placed in Dd. rewrite E in Dd. exact Dd.
    + intros x ex ty nm v E. rewrite MM. specialize (Dd x). unfold decl_placed in Dd. rewrite E in Dd. destruct Dd as (k & dn & -> & Ck & _). exists k, dn. auto.
    + intros x ex ty nm its k dn E. rewrite MM. specialize (Dd x). unfold decl_placed in Dd. rewrite E in Dd. destruct Dd as (k' & dn' & -> & _ & Dk). intros Q. injection Q as <- <-. exact Dk.
    + intros x E. rewrite VV. specialize (Aa x). rewrite E in Aa. rewrite Aa. apply V0.
    + intros x its E. rewrite VV. specialize (Aa x). rewrite E in Aa. destruct Aa as (f & v & Fn & Sf & Ev & Gv'). exists (f_kind f), v. split; [|auto].
      unfold script_field in Sf. rewrite Fn, Mm, <- MM in Sf. destruct (dget text_eqb (n_mem nd) x) as [[ex k dn|]|].
      * left. exists ex, dn. rewrite Sf. reflexivity.
      * contradiction.
      * right. split; [reflexivity|]. change standard_fields with script_base. destruct f as [nm k]. cbn [f_name f_kind] in *. subst nm. exact Sf.
    + intros Ei s Hs. destruct Ms as [->|Q]; [|congruence]. destruct (has_is s) eqn:Q; [|reflexivity]. specialize (Is1 s Hs Q).
      destruct s as [ex ty x v|out ty x pn|x v]; try (contradiction Is1; reflexivity). destruct v as [its|pn]; [discriminate Q|]. specialize (Is2 _ _ Hs). cbn in Is2. congruence.
  - intros. constructor.
  - intros st i st1 r l st' rs Hi IH1 Hl IH2 H F W K. cbn [forallb] in H. apply andb_true_iff in H as [H1 H2].
    pose proof (Gi _ _ _ _ Hi H1) as G1. pose proof (Gl _ _ _ _ Hl H2) as G2. destruct (Ti _ _ _ _ Hi F) as [F1 L1].
    constructor.
    + apply IH1; auto. exact (keeps_before _ _ _ _ G2 (Nn _) K).
    + apply IH2; auto; [apply G1; exact W|]. exact (keeps_up _ _ _ L1 K).
  - intros n gi fs st G _ F W L Hd K. cbn [last_value]. split; [reflexivity|]. split; [intros x its []|intros _ x v []].
  - intros n gi fs st f its st1 v l st' Hf Hv IH1 Ha IH2 G H F W L (d & Hd) K. cbn [forallb] in H. apply andb_true_iff in H as [H1 H2].
    pose proof (Gv _ _ _ _ _ Hv H1) as G1. pose proof (going_set n gi f v st1 G) as G2. pose proof (Ga _ _ _ _ _ _ Ha G H2) as G3.
    destruct (Tv _ _ _ _ _ Hv F) as [F1 L1]. pose proof (Nat.lt_le_trans _ _ _ L L1) as L'. destruct (tended_value e n gi f v st1 L' F1) as [F2 _].
    pose proof (later_nth _ _ _ _ (proj1 G1) Hd) as Hd1. pose proof (later_nth _ _ _ _ (proj1 G2) Hd1) as Hd2.
    assert (Lo : forall m, n = m -> m < r_next st) by (intros; lia).
    pose proof (keeps_before _ _ _ _ G2 Lo (keeps_before _ _ _ _ G3 Lo K)) as K1.
    destruct IH2 as (A1 & A2 & A3); auto; [apply (proj2 (proj2 G2)); apply G1; exact W|rewrite Nv; exact L'|eauto|rewrite Nv; exact (keeps_up _ _ _ L1 K)|].
    split; [|split].
    + intros x O. specialize (A1 x O). cbn [last_value]. destruct (last_value l x) as [its'|]; [exact A1|].
      destruct (text_eqb (f_name f) x) eqn:Ex.
      * apply text_eqb_spec in Ex. exists f, v. split; [exact Hf|]. split; [exact Ex|]. split; [|apply IH1; auto].
        subst x. rewrite A1. unfold set_value. rewrite (own_passed gi f G O). rewrite value_one, text_eqb_refl. reflexivity.
      * assert (Q : value_set (set_value e n gi f v st1) n x = value_set st1 n x).
        { unfold set_value. destruct (passed_on e gi f); [|rewrite value_one, Ex; reflexivity]. rewrite value_set_old, find_no; [reflexivity|].
          intros y Hy. apply in_map_iff in Hy as (m & <- & _). cbn [fst snd]. rewrite Ex. apply andb_false_r. }
        rewrite A1, Q. exact (proj2 (proj1 (proj2 G1) n L (fun q => q)) gi d x Hd O).
    + intros x its' [Q|Hx]; [injection Q as <- <-; apply in_map; exact Hf|exact (A2 _ _ Hx)].
    + intros Ei x w [Q|Hx]; [injection Q as <- <-; reflexivity|exact (A3 Ei _ _ Hx)].
  - intros n gi fs st nm pn l st' Hi Ha IH G H F W L Hd K. cbn [forallb] in H. apply andb_true_iff in H as [H1 H2].
    destruct IH as (A1 & A2 & A3); auto. split; [|split].
    + intros x O. specialize (A1 x O). cbn [last_value]. destruct (last_value l x) as [its'|]; exact A1.
    + intros x its' [Q|Hx]; [discriminate Q|exact (A2 _ _ Hx)].
    + intros Ei. congruence.
  - intros st f t d its v Ek Pl Rv _ _ _ _. rewrite Ek. constructor; assumption.
  - intros st f i its st' r Ek Hi IH H F W K. cbn [forallb] in H. apply andb_true_iff in H as [H1 H2]. rewrite Ek. constructor. auto.
  - intros st f o its st' rs Ek Hi IH H F W K. rewrite Ek. apply gv_nodes. auto.
  - intros st f o its Ek Pl _ _ _ _. rewrite Ek. apply gv_ignored. exact Pl.
  - intros st ex ty t its v Ft Pl Hv _ _ _ _. exists (KVal t v), []. split; [reflexivity|]. split; [exact (fty_named _ _ Ft)|]. constructor; assumption.
  - intros st ex i its st' r Hi IH H F W K. cbn [forallb] in H. apply andb_true_iff in H as [H1 H2]. exists KNode, [r]. split; [reflexivity|]. split; [reflexivity|]. constructor. auto.
  - intros st ex its st' rs Hi IH H F W K. exists (KNodes false), rs. split; [reflexivity|]. split; [reflexivity|]. apply de_nodes. auto.
  - intros st ex its Pl _ _ _ _. exists (KNodes false), []. split; [reflexivity|]. split; [reflexivity|]. apply de_ignored. exact Pl.
  - intros n st ms _ _ _ _ _ x. reflexivity.
  - intros n st ms ex ty nm its st1 m l st' ms' _ Hm IH1 Hd IH2 H F W L K x. cbn [forallb] in H. apply andb_true_iff in H as [H1 H2].
    pose proof (Gm _ _ _ _ _ _ Hm H1) as G1. pose proof (going_member n nm m st1) as G2. pose proof (Gd _ _ _ _ _ _ Hd H2) as G3.
    destruct (Tm _ _ _ _ _ _ Hm F) as [F1 L1]. pose proof (Nat.lt_le_trans _ _ _ L L1) as L'. destruct (tended_member n nm m st1 L' F1) as [F2 _].
    assert (Lo : forall m, n = m -> m < r_next st) by (intros; lia).
    pose proof (keeps_before _ _ _ _ G2 Lo (keeps_before _ _ _ _ G3 Lo K)) as K1.
    assert (A := IH2 H2 F2 (proj2 (proj2 G2) (proj2 (proj2 G1) W)) L' (keeps_up _ _ _ L1 K) x).
    unfold decl_placed in *. cbn [last_decl]. destruct (last_decl l x) as [y|]; [exact A|]. cbn [declares]. rewrite member_with in A.
    destruct (text_eqb nm x); [|rewrite A; apply (proj1 (proj2 G1)); auto]. destruct IH1 as (k & dn & -> & Ck & Dk); auto. exists k, dn. auto.
  - intros n st ms ex ty nm k pn l st' ms' _ Hk Hd IH H F W L K x. cbn [forallb] in H. apply andb_true_iff in H as [H1 H2].
    destruct (tended_member n nm (SMField ex k match k with KNode => [RNull] | _ => [] end) st L F) as [F2 _].
    assert (A := IH H2 F2 (proj2 (proj2 (going_member n nm _ st)) W) L K x).
    unfold decl_placed in *. cbn [last_decl]. destruct (last_decl l x) as [y|]; [exact A|]. cbn [declares]. rewrite member_with in A.
    destruct (text_eqb nm x); [|exact A]. eexists _, _. split; [exact A|]. split; [exact (kind_named _ _ Hk)|exact Logic.I].
  - intros n st ms out ty nm pn l st' ms' _ Hk Hd IH H F W L K x. cbn [forallb] in H. apply andb_true_iff in H as [H1 H2].
    destruct (tended_member n nm (SMEvent out ty) st L F) as [F2 _].
    assert (A := IH H2 F2 (proj2 (proj2 (going_member n nm _ st)) W) L K x).
    unfold decl_placed in *. cbn [last_decl]. destruct (last_decl l x) as [y|]; [exact A|]. cbn [declares]. rewrite member_with in A.
    destruct (text_eqb nm x); exact A.
  - intros n st ms nm v l st' ms' Hd IH H F W L K x. cbn [forallb] in H. apply andb_true_iff in H as [H1 H2].
    assert (A := IH H2 F W L K x). unfold decl_placed in *. cbn [last_decl]. destruct (last_decl l x) as [y|]; exact A.
  - intros n st _ _ _ _ _ _ x. reflexivity.
  - intros n st s l st' Hs Ha IH H F W L Sc K x. cbn [forallb] in H. apply andb_true_iff in H as [H1 H2]. specialize (IH H2 F W L Sc K x).
    destruct s; try contradiction; exact IH.
  - intros n st f its st1 v l st' Sf Hv IH1 Ha IH2 H F W L (d & Hd) K x. cbn [forallb] in H. apply andb_true_iff in H as [H1 H2].
    pose proof (Gv _ _ _ _ _ Hv H1) as G1. pose proof (going_one n (f_name f) v st1) as G2. pose proof (Gs _ _ _ _ Ha H2) as G3.
    destruct (Tv _ _ _ _ _ Hv F) as [F1 L1]. pose proof (Nat.lt_le_trans _ _ _ L L1) as L'.
    assert (Fl : Forall (fun x : nat * text * val => fst (fst x) < r_next st1) [(n, f_name f, v)]) by (constructor; [exact L'|constructor]).
    destruct (tended_sets _ st1 Fl F1) as [F2 _].
    assert (Lo : forall m, n = m -> m < r_next st) by (intros; lia).
    pose proof (keeps_before _ _ _ _ G2 Lo (keeps_before _ _ _ _ G3 Lo K)) as K1.
    pose proof (later_nth _ _ _ _ (proj1 G1) Hd) as Hd1. destruct (proj1 (proj2 G1) n L (fun q => q)) as [Sm Sv].
    assert (A := IH2 H2 F2 (proj2 (proj2 G2) (proj2 (proj2 G1) W)) L' (ex_intro _ d Hd1) (keeps_up _ _ _ L1 K) x).
    cbn [script_attributes flat_map app last_value]. fold (script_attributes l). destruct (last_value (script_attributes l) x) as [its'|].
    + destruct A as (g & w & Gn & Gs' & A). exists g, w. split; [exact Gn|]. split; [|exact A]. unfold script_field in *.
      change (member_of (with_sets [(n, f_name f, v)] st1) n (f_name g)) with (member_of st1 n (f_name g)) in Gs'. rewrite Sm in Gs'. exact Gs'.
    + rewrite value_one in A. destruct (text_eqb (f_name f) x) eqn:Ex.
      * apply text_eqb_spec in Ex. exists f, v. split; [exact Ex|]. split; [exact Sf|]. split; [exact A|]. apply IH1; auto.
      * rewrite A. exact (Sv _ _ x Hd (or_introl eq_refl)).
  - intros n st nm pn l st' _ _ Ha IH H F W L Sc K x. cbn [forallb] in H. apply andb_true_iff in H as [H1 H2].
    assert (A := IH H2 F W L Sc K x).
    cbn [script_attributes flat_map app last_value]. fold (script_attributes l). destruct (last_value (script_attributes l) x) as [its'|]; exact A.
Qed.
End Frame.

(** *** the entries of a scene *)
Fixpoint typed_deep (r : sroot) : bool :=
  match r with SRItem i => typed_item i | SRProto _ _ l => forallb typed_deep l | _ => true end.
Lemma roots_deep :
  (forall r k, ok_root r k -> typed_deep (sk_root r) = true) /\
  (forall l k, ok_roots l k -> forallb typed_deep (sk_roots l) = true).
Proof.
  apply root_mut_all; cbn [ok_root ok_roots sk_root sk_roots]; try (intros; reflexivity).
  - intros n k H. apply (proj1 (proj2 Script_Proofs.doc_typed) n H).
  - intros. cbn [typed_deep]. match goal with IH : forall k, ok_roots _ k -> _ |- _ => eapply IH end. apply H0.
  - intros r IHr w l IHl k (Hr & _ & Hl). cbn [forallb]. apply andb_true_iff. split; [exact (IHr _ Hr)|exact (IHl _ Hl)].
Qed.
Lemma doc_deep d : ok_doc d -> forallb typed_deep (sk_doc d) = true.
Proof. destruct d as [h w l]. intros (_ & _ & H & _). exact (proj2 roots_deep l _ H). Qed.
Section Roots.
Variable P : prims.
Variable base : list (text * list fdecl).
(** what is known stays known *)
Definition grows (e T : list (text * pdef)) : Prop :=
  (forall gi p, dget text_eqb e gi = Some p -> dget text_eqb T gi = Some p) /\
  (forall gi fs, proto (types base e) gi = Some fs -> proto (types base T) gi = Some fs).
Lemma grows_refl e : grows e e. Proof. split; auto. Qed.
Lemma grows_trans a b c : grows a b -> grows b c -> grows a c.
Proof. intros [A B] [C E]. split; auto. Qed.
Lemma grows_add tab e gi p : proto (types base (tab ++ e)) gi = None -> grows (tab ++ e) ((tab ++ [(gi, p)]) ++ e).
Proof.
  intros H. rewrite types_get in H. destruct (dget text_eqb (tab ++ e) gi) eqn:Q; [discriminate|].
  assert (A : forall g q, dget text_eqb (tab ++ e) g = Some q -> dget text_eqb ((tab ++ [(gi, p)]) ++ e) g = Some q).
  { intros g q E. rewrite <- app_assoc. rewrite dget_app in *. destruct (dget text_eqb tab g); [exact E|]. cbn [app dget].
    destruct (text_eqb gi g) eqn:G; [|exact E]. apply text_eqb_spec in G. subst g. destruct (dget text_eqb tab gi); congruence. }
  split; [exact A|]. intros g fs. rewrite !types_get. destruct (dget text_eqb (tab ++ e) g) as [q|] eqn:E; [rewrite (A _ _ E); auto|].
  destruct (dget text_eqb ((tab ++ [(gi, p)]) ++ e) g) as [q|] eqn:E'; [|auto]. intros B.
  rewrite <- app_assoc, dget_app in E'. rewrite dget_app in E. destruct (dget text_eqb tab g); [discriminate|]. cbn [app dget] in E'.
  destruct (text_eqb gi g) eqn:G; [|congruence]. apply text_eqb_spec in G. subst g. congruence.
Qed.
Lemma root_grows inp e s r s' : root_reads P base inp e s r s' -> grows (fst s ++ e) (fst s' ++ e) /\ exists t, fst s' = fst s ++ t.
Proof.
  destruct 1; cbn [fst]; try (split; [apply grows_refl|exists []; symmetry; apply app_nil_r]); (split; [apply grows_add; assumption|eauto]).
Qed.
Lemma roots_grow l : forall inp e s s', roots_read P base inp e s l s' -> grows (fst s ++ e) (fst s' ++ e) /\ exists t, fst s' = fst s ++ t.
Proof.
  induction l as [|r l IH]; intros inp e s s' H; inversion H; subst; [split; [apply grows_refl|exists []; symmetry; apply app_nil_r]|].
  match goal with A : root_reads _ _ _ _ _ _ _ |- _ => apply root_grows in A as (G1 & t & E1) end. match goal with A : roots_read _ _ _ _ _ _ _ |- _ => apply IH in A as (G2 & t' & E2) end.
  split; [exact (grows_trans _ _ _ G1 G2)|]. exists (t ++ t'). rewrite E2, E1, app_assoc. reflexivity.
Qed.
Lemma shallow r : typed_deep r = true -> typed_root r = true.
Proof. destruct r; auto. Qed.
Section End_.
Variable inp : bool.
Variable e T : list (text * pdef).
Lemma root_going s r s' : root_reads P base inp e s r s' -> grows (fst s ++ e) T -> typed_root r = true -> going T none (snd s) (snd s').
Proof.
  destruct 1; cbn [typed_root fst snd]; intros [G1 G2] Ty; try apply going_refl.
  - apply (proj1 (all_going P base inp (tab ++ e) T G1)) in H; [|exact Ty]. apply (going_trans _ _ _ _ _ H). apply going_same; reflexivity.
  - apply going_same; reflexivity.
Qed.
Lemma roots_going l : forall s s', roots_read P base inp e s l s' -> grows (fst s' ++ e) T -> forallb typed_root l = true -> going T none (snd s) (snd s').
Proof.
  induction l as [|r l IH]; intros s s' H G Ty; inversion H; subst; [apply going_refl|]. cbn [forallb] in Ty. apply andb_true_iff in Ty as [T1 T2].
  match goal with B : roots_read _ _ _ _ _ _ _ |- _ => pose proof (proj1 (roots_grow _ _ _ _ _ B)) as G2; apply IH in B; [|exact G|exact T2] end.
  match goal with A : root_reads _ _ _ _ _ _ _ |- _ => pose proof (proj1 (root_grows _ _ _ _ _ A)) as G1; apply root_going in A; [|exact (grows_trans _ _ _ G1 (grows_trans _ _ _ G2 G))|exact T1] end.
  eapply going_trans; eassumption.
Qed.
Variable fin : rstate.
Variable S : scene.
Hypothesis D : describes fin S.
Lemma roots_placed l : forall s s', roots_read P base inp e s l s' -> grows (fst s' ++ e) T -> forallb typed_root l = true -> fresh (snd s) -> well (snd s) ->
  keeps T fin (r_next (snd s)) (snd s') -> exists ks, r_kids (snd s') = r_kids (snd s) ++ ks /\ placed_all P base T inp S (top_items l) ks.
Proof.
  induction l as [|r l IH]; intros s s' H G Ty F W K; inversion H as [|? ? ? ? s1 ? ? H1 H2]; subst; [exists []; rewrite app_nil_r; split; [reflexivity|constructor]|].
  cbn [forallb] in Ty. apply andb_true_iff in Ty as [T1 T2].
  pose proof (roots_grow _ _ _ _ _ H2) as (G2 & _). pose proof (root_grows _ _ _ _ _ H1) as (G1 & _).
  pose proof (roots_going _ _ _ H2 G T2) as Go2. pose proof (root_going _ _ _ H1 (grows_trans _ _ _ G1 (grows_trans _ _ _ G2 G)) T1) as Go1.
  assert (F1 : fresh (snd s1)) by (apply (roots_fresh P base [r] inp e s s1); [econstructor; [exact H1|constructor]|exact F]).
  destruct (IH _ _ H2 G T2 F1 (proj2 (proj2 Go1) W) (keeps_up _ _ _ _ _ (later_next _ _ (proj1 Go1)) K)) as (ks & E & Pl).
  assert (K1 : keeps T fin (r_next (snd s)) (snd s1)) by (apply (keeps_before _ _ _ _ _ _ Go2); [intros ? []|exact K]).
  destruct H1 as [ip e0 tab st i st' r0 Hi| | |]; cbn [fst snd top_items flat_map] in *; try (exists ks; split; [exact E|exact Pl]).
  fold (top_items l). exists (r0 :: ks). rewrite E. cbn [with_kid r_kids app]. rewrite (proj1 (kids_kept P base ip _) _ _ _ _ Hi), <- app_assoc. split; [reflexivity|].
  constructor; [|exact Pl]. pose proof (grows_trans _ _ _ G2 G) as [Ga Gb].
  apply (proj1 (all_placed P base ip (tab ++ e0) T Ga fin S D Gb) _ _ _ _ Hi T1 F W). apply (keeps_before T fin none _ _ (with_kid r0 st')); [apply going_same; reflexivity|intros ? []|exact K1].
Qed.
End End_.
Lemma fresh0 : fresh rs0. Proof. split; constructor. Qed.
Lemma well0 : well rs0. Proof. constructor. Qed.
Lemma bodies_mirror :
  (forall inp e s r s', root_reads P base inp e s r s' -> typed_deep r = true -> forall gi ds b, r = SRProto gi ds b ->
     exists mem inner body, fst s' = fst s ++ [(gi, PDef mem inner body)] /\ mirrors P base true (fst s ++ e) b inner body) /\
  (forall inp e s l s', roots_read P base inp e s l s' -> forallb typed_deep l = true ->
     forall gi b, In (gi, b) (top_protos l) -> exists mem inner body pre post, fst s' = pre ++ (gi, PDef mem inner body) :: post /\ mirrors P base true (pre ++ e) b inner body).
Proof.
  apply root_reads_all; try discriminate.
  - intros inp e tab st gi ds l mem inner stb body Hn Hd Hl IH Db Ty gi' ds' b' E. injection E as <- <- <-. cbn [fst typed_deep] in *.
    exists mem, inner, body. split; [reflexivity|]. constructor; [|exact (IH Ty)]. rewrite (ds_kids _ _ Db).
    assert (Ts : forallb typed_root l = true) by (apply forallb_forall; intros x Hx; apply shallow; rewrite forallb_forall in Ty; auto).
    destruct (roots_placed true (tab ++ e) (inner ++ (tab ++ e)) stb body Db l _ _ Hl (grows_refl _) Ts fresh0 well0) as (ks & E & Pl).
    + split; [apply later_refl|]. intros. apply same_refl.
    + cbn [snd rs0 r_kids app] in E. rewrite E. exact Pl.
  - intros inp e s _ gi b [].
  - intros inp e s r s1 l s' H1 IH1 H2 IH2 Ty gi b Hb. cbn [forallb] in Ty. apply andb_true_iff in Ty as [T1 T2]. cbn [top_protos flat_map] in Hb. apply in_app_iff in Hb as [Hb|Hb].
    + destruct r as [|gi' ds' b'| |]; try contradiction. destruct Hb as [Q|[]]. injection Q as <- <-. destruct (IH1 T1 _ _ _ eq_refl) as (mem & inner & body & E & M).
      destruct (roots_grow _ _ _ _ _ H2) as (_ & t & E2). exists mem, inner, body, (fst s), t. rewrite E2, E, <- app_assoc. split; [reflexivity|exact M].
    + exact (IH2 T2 _ _ Hb).
Qed.
Theorem file_mirrors l tab st S : roots_read P base false [] ([], rs0) l (tab, st) -> describes st S -> forallb typed_deep l = true ->
  mirrors P base false [] l tab S.
Proof.
  intros H Ds Ty. assert (Ts : forallb typed_root l = true) by (apply forallb_forall; intros x Hx; apply shallow; rewrite forallb_forall in Ty; auto).
  constructor; [|exact (proj2 bodies_mirror _ _ _ _ _ H Ty)]. rewrite (ds_kids _ _ Ds).
  destruct (roots_placed false [] (tab ++ []) st S Ds l _ _ H (grows_refl _) Ts fresh0 well0) as (ks & E & Pl).
  - split; [apply later_refl|]. intros. apply same_refl.
  - cbn [snd rs0 r_kids app] in E. rewrite E. exact Pl.
Qed.
End Roots.
