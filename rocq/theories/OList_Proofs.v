From Verif Require Import Base PyList PyList_Proofs OList_Model OList_Spec.
Require Import ZifyBool ZifyNat.
Open Scope Z_scope.

Section Proofs.
Context {A : Type}.
Variable eqb : A -> A -> bool.
Variable isb : A -> A -> bool.
Variable hashable : A -> bool.
Variable alive : nat -> nat -> bool.

Notation step := (step eqb isb hashable alive).
Notation run := (run eqb isb hashable alive).
Notation send_added := (send_added alive).
Notation send_removed := (send_removed alive).
Notation paired := (paired alive).
Notation segments := (segments alive).
Notation sender_at := (sender_at alive).
Notation set_slice_loop := (set_slice_loop eqb hashable alive).

Implicit Types s : state (A:=A).
Implicit Types (l vs ws : list A).

Lemma occ_count v l : occurrences eqb v l = py_count eqb v l.
Proof. induction l as [|x t IH]; simpl; [reflexivity|]. rewrite IH. reflexivity. Qed.

Ltac to_occ H :=
  repeat match type of H with context [py_count eqb ?a ?b] =>
    rewrite <- (occ_count a b) in H end.

Lemma fold_removed_items vs : forall s, items (fold_left send_removed vs s) = items s.
Proof. induction vs as [|v vs IH]; intros s; simpl; [reflexivity|]. rewrite IH. reflexivity. Qed.

Lemma loop_items cur vs : forall s prev, items (fst (set_slice_loop cur vs s prev)) = items s.
Proof.
  induction vs as [|v vs IH]; intros s prev; simpl; [reflexivity|].
  destruct (hashable v); simpl; [|reflexivity].
  destruct (py_in eqb v cur); simpl; rewrite IH; reflexivity.
Qed.

Lemma loop_ok cur vs : forall s prev,
  Forall (fun v => hashable v = true) vs ->
  exists p, snd (set_slice_loop cur vs s prev) = Ok p.
Proof.
  induction vs as [|v vs IH]; intros s prev H; simpl; [eauto|].
  inversion H; subst. rewrite H2. simpl.
  destruct (py_in eqb v cur); simpl; apply IH; assumption.
Qed.

Lemma set_slice_items s sl vs :
  Forall (fun v => hashable v = true) (items s) ->
  Forall (fun v => hashable v = true) vs ->
  match py_set_slice (items s) sl vs with
  | Ok l => items (fst (o_set_slice eqb hashable alive s sl vs)) = l /\
            snd (o_set_slice eqb hashable alive s sl vs) = Ok (RVals vs)
  | Exc e => o_set_slice eqb hashable alive s sl vs = (s, Exc e)
  end.
Proof.
  intros H1 H2. unfold o_set_slice.
  assert (G : forall e, py_get_slice (items s) sl = Exc e -> py_set_slice (items s) sl vs = Exc e).
  { unfold py_get_slice, py_set_slice.
    destruct (slice_indices (lenZ (items s)) sl) as [[[a b] k]|]; [discriminate|tauto]. }
  destruct (py_get_slice (items s) sl) as [prev|e] eqn:E.
  - assert (Hp : Forall (fun v => hashable v = true) prev).
    { unfold py_get_slice in E.
      destruct (slice_indices (lenZ (items s)) sl) as [[[a b] k]|]; [|discriminate].
      injection E as <-. apply Forall_pick. exact H1. }
    assert (forallb hashable prev = true) as ->.
    { apply forallb_forall. rewrite Forall_forall in Hp. exact Hp. }
    simpl. destruct (py_set_slice (items s) sl vs) as [l|e2]; [|reflexivity].
    destruct (loop_ok prev vs (with_items s l) prev H2) as [p Hpp].
    pose proof (loop_items prev vs (with_items s l) prev) as HI.
    destruct (set_slice_loop prev vs (with_items s l) prev) as [s' r].
    simpl in Hpp, HI. subst r. simpl. split; [|reflexivity].
    rewrite fold_removed_items. exact HI.
  - rewrite (G e eq_refl). reflexivity.
Qed.

Lemma extend_plain l (vs : list A) :
  py_set_slice l (slice2 (lenZ l) (lenZ l)) vs = Ok (l ++ vs).
Proof.
  unfold py_set_slice, slice_indices, slice2, adjust_bound. simpl.
  assert (lenZ l <? 0 = false) as -> by (unfold lenZ; lia).
  assert (lenZ l <=? lenZ l = true) as -> by lia. simpl.
  rewrite Z.max_id. unfold lenZ. rewrite Nat2Z.id, firstn_all, skipn_all, app_nil_r.
  reflexivity.
Qed.

Lemma py_pop_last (l : list A) : py_pop l (lenZ l - 1) = py_pop l (-1).
Proof.
  unfold py_pop. f_equal. unfold norm_index. replace (-1 <? 0) with true by reflexivity.
  destruct l as [|x t].
  - reflexivity.
  - assert (lenZ (x :: t) - 1 <? 0 = false) as -> by (unfold lenZ; simpl length; lia).
    replace (-1 + lenZ (x :: t)) with (lenZ (x :: t) - 1) by lia. reflexivity.
Qed.

(** One call refines the builtin list. *)
Lemma step_plain s o :
  not_int_deletion o ->
  Forall (fun v => hashable v = true) (items s) ->
  Forall (fun v => hashable v = true) (op_values o) ->
  items (fst (step s o)) = fst (plain_step eqb (items s) o) /\
  visible o (snd (step s o)) = snd (plain_step eqb (items s) o).
Proof.
  intros Hn Hs Ho. destruct o as [v|i v|i|v|sl|i|sl vs|i v|vs|n|]; simpl in *.
  - split; reflexivity.
  - split; reflexivity.
  - unfold o_pop. destruct i as [i|]; [|rewrite py_pop_last];
    (destruct (py_pop (items s) _) as [[v l]|e]; split; reflexivity).
  - unfold o_remove. destruct (py_remove eqb (items s) v); split; reflexivity.
  - unfold o_del_slice.
    destruct (py_get_slice (items s) sl) as [cur|e] eqn:E.
    + rewrite fold_removed_items.
      destruct (py_del_slice (items s) sl) as [l|e] eqn:E2; simpl; [split; reflexivity|].
      destruct (proj1 (py_get_slice_ok_iff (items s) sl) (ex_intro _ cur E)) as [l' Hl'].
      rewrite Hl' in E2. discriminate.
    + unfold py_get_slice in E. unfold py_del_slice.
      destruct (slice_indices (lenZ (items s)) sl) as [[[a b] k]|]; [discriminate|].
      injection E as <-. split; reflexivity.
  - contradiction.
  - pose proof (set_slice_items s sl vs Hs Ho) as H.
    destruct (py_set_slice (items s) sl vs) as [l|e].
    + destruct H as [H1 H2]. rewrite H2. simpl. split; [exact H1|reflexivity].
    + rewrite H. split; reflexivity.
  - unfold o_set_int. unfold py_get, py_set.
    destruct (norm_index (lenZ (items s)) i) as [n|] eqn:E; [|split; reflexivity].
    destruct (norm_index_nth _ _ _ E) as [x ->].
    destruct (isb x v); simpl; rewrite E; simpl; split; reflexivity.
  - unfold o_extend. pose proof (set_slice_items s (slice2 (lenZ (items s)) (lenZ (items s))) vs Hs Ho) as H.
    rewrite extend_plain in H. destruct H as [H1 H2]. rewrite H2. split; [exact H1|reflexivity].
  - split; reflexivity.
  - split; reflexivity.
Qed.

Lemma plain_step_Forall (P : A -> Prop) l o :
  Forall P l -> Forall P (op_values o) -> Forall P (fst (plain_step eqb l o)).
Proof.
  intros Hl Ho. destruct o as [v|i v|i|v|sl|i|sl vs|i v|vs|n|]; simpl in *.
  - apply Forall_app; split; assumption.
  - unfold py_insert. apply Forall_app. split; [apply Forall_firstn; exact Hl|].
    inversion Ho; subst. constructor; [assumption|apply Forall_skipn; exact Hl].
  - unfold py_pop. destruct (norm_index _ _) as [n|]; [|exact Hl].
    destruct (nth_error l n); [|exact Hl]. simpl. apply Forall_remove_nth; exact Hl.
  - destruct (py_remove eqb l v) as [l'|] eqn:E; [|exact Hl]. simpl.
    eapply Forall_py_remove; eassumption.
  - unfold py_del_slice. destruct (slice_indices _ _) as [[[a b] k]|]; [|exact Hl]. simpl.
    apply Forall_drop; exact Hl.
  - unfold py_del. destruct (norm_index _ _) as [n|]; [|exact Hl]. simpl. apply Forall_remove_nth; exact Hl.
  - destruct (py_set_slice l sl vs) as [l'|] eqn:E; [|exact Hl]. simpl.
    eapply Forall_set_slice; eassumption.
  - unfold py_set. destruct (norm_index _ _) as [n|]; [|exact Hl]. simpl.
    inversion Ho; subst. apply Forall_update; assumption.
  - apply Forall_app; split; assumption.
  - exact Hl.
  - constructor.
Qed.

Lemma run_plain os : forall s,
  Forall not_int_deletion os ->
  Forall (fun v => hashable v = true) (items s) ->
  Forall (fun o => Forall (fun v => hashable v = true) (op_values o)) os ->
  items (fst (run s os)) = fst (plain_run eqb (items s) os) /\
  map (fun p => visible (fst p) (snd p)) (combine os (snd (run s os))) =
    snd (plain_run eqb (items s) os).
Proof.
  induction os as [|o os IH]; intros s Hn Hs Ho; [split; reflexivity|].
  inversion Hn; subst. inversion Ho; subst.
  destruct (step_plain s o) as [E1 E2]; try assumption.
  pose proof (plain_step_Forall (fun v => hashable v = true) (items s) o Hs) as HF.
  specialize (HF ltac:(assumption)).
  simpl. destruct (step s o) as [s1 r] eqn:Es. simpl in E1, E2.
  rewrite <- E1 in HF.
  destruct (IH s1) as [I1 I2]; try assumption.
  destruct (plain_step eqb (items s) o) as [l1 r1]. simpl in E1, E2. subst l1 r1.
  destruct (run s1 os) as [s2 rs]. destruct (plain_run eqb (items s1) os) as [l2 rs2].
  simpl in *. subst. split; reflexivity.
Qed.

(** ** Event accounting *)
Section Accounting.
Hypothesis eqb_sym : forall x y, eqb x y = eqb y x.
Hypothesis eqb_trans : forall x y z, eqb x y = true -> eqb y z = true -> eqb x z = true.
Lemma news_app v a b : news eqb v (a ++ b) = (news eqb v a + news eqb v b)%nat.
Proof. induction a as [|m a IH]; simpl; [reflexivity|]. destruct m; rewrite IH; lia. Qed.
Lemma dels_app v a b : dels eqb v (a ++ b) = (dels eqb v a + dels eqb v b)%nat.
Proof. induction a as [|m a IH]; simpl; [reflexivity|]. destruct m; rewrite IH; lia. Qed.

Notation N v s := (news eqb v (log s)).
Notation D v s := (dels eqb v (log s)).
Notation cnt v l := (occurrences eqb v l).
Definition b2n (b : bool) : nat := if b then 1%nat else 0%nat.

Lemma added_counts v s w :
  N v (send_added s w) = (N v s + b2n (eqb w v))%nat /\ D v (send_added s w) = D v s.
Proof. simpl. rewrite news_app, dels_app. simpl. unfold b2n. destruct (eqb w v); lia. Qed.

Lemma removed_counts v s w :
  D v (send_removed s w) = (D v s + b2n (eqb w v))%nat /\ N v (send_removed s w) = N v s.
Proof. simpl. rewrite news_app, dels_app. simpl. unfold b2n. destruct (eqb w v); lia. Qed.

Lemma fold_removed_counts v ws : forall s,
  D v (fold_left send_removed ws s) = (D v s + cnt v ws)%nat /\
  N v (fold_left send_removed ws s) = N v s.
Proof.
  induction ws as [|w ws IH]; intros s; cbn [fold_left]; [simpl; lia|].
  destruct (IH (send_removed s w)) as [I1 I2]. destruct (removed_counts v s w) as [R1 R2].
  rewrite I1, I2, R1, R2. simpl. unfold b2n. destruct (eqb w v); lia.
Qed.

(** exact counts of the slice-assignment loop *)
Lemma loop_counts v cur vs : forall s prev p,
  snd (set_slice_loop cur vs s prev) = Ok p ->
  D v (fst (set_slice_loop cur vs s prev)) = D v s /\
  N v (fst (set_slice_loop cur vs s prev)) =
     (N v s + (if py_in eqb v cur then 0 else cnt v vs))%nat /\
  cnt v p = (if py_in eqb v cur then cnt v prev - cnt v vs else cnt v prev)%nat.
Proof.
  induction vs as [|w vs IH]; intros s prev p H; cbn [OList_Model.set_slice_loop] in *.
  - simpl in *. injection H as <-. destruct (py_in eqb v cur); lia.
  - destruct (hashable w); cbn [negb] in *; [|discriminate].
    destruct (py_in eqb w cur) eqn:Ew; cbn [negb] in *.
    + destruct (IH _ _ _ H) as (I1 & I2 & I3).
      split; [exact I1|]. rewrite I2, I3. clear I1 I2 I3 IH H. simpl.
      destruct (eqb w v) eqn:E.
      * assert (py_in eqb v cur = true) as ->.
        { rewrite <- Ew. clear -E eqb_sym eqb_trans. induction cur as [|y t IH]; simpl; [reflexivity|].
          rewrite IH. f_equal. rewrite !(eqb_sym y). symmetry. apply eqb_rewrite; assumption. }
        split; [lia|].
        destruct (py_remove eqb prev w) as [p'|] eqn:Er.
        -- pose proof (count_py_remove eqb eqb_sym eqb_trans v prev w p' Er) as HC.
           rewrite E in HC. to_occ HC. lia.
        -- apply py_remove_none in Er. to_occ Er.
           assert (cnt v prev = cnt w prev) as ->; [|lia].
           clear -E eqb_sym eqb_trans. induction prev as [|y t IH]; simpl; [reflexivity|].
           rewrite IH. rewrite !(eqb_sym y). rewrite (eqb_rewrite eqb eqb_sym eqb_trans w v y E).
           reflexivity.
      * split; [destruct (py_in eqb v cur); lia|].
        assert (cnt v (match py_remove eqb prev w with Some p0 => p0 | None => prev end) = cnt v prev) as ->.
        { destruct (py_remove eqb prev w) as [p'|] eqn:Er; [|reflexivity].
          pose proof (count_py_remove eqb eqb_sym eqb_trans v prev w p' Er) as HC.
          rewrite E in HC. to_occ HC. lia. }
        destruct (py_in eqb v cur); lia.
    + destruct (IH _ _ _ H) as (I1 & I2 & I3).
      destruct (added_counts v s w) as [A1 A2].
      rewrite I1, I2, I3, A1, A2. clear I1 I2 I3 A1 A2 IH H. simpl. unfold b2n.
      destruct (eqb w v) eqn:E; [|destruct (py_in eqb v cur); lia].
      assert (py_in eqb v cur = false) as ->.
      { rewrite <- Ew. clear -E eqb_sym eqb_trans. induction cur as [|y t IH]; simpl; [reflexivity|].
        rewrite IH. f_equal. rewrite !(eqb_sym y). symmetry. apply eqb_rewrite; assumption. }
      lia.
Qed.

Lemma set_slice_counts v s sl vs prev r :
  py_get_slice (items s) sl = Ok prev ->
  snd (o_set_slice eqb hashable alive s sl vs) = Ok r ->
  let s' := fst (o_set_slice eqb hashable alive s sl vs) in
  N v s' = (N v s + (if Nat.eqb (cnt v prev) 0 then cnt v vs else 0))%nat /\
  D v s' = (D v s + (cnt v prev - cnt v vs))%nat /\
  (cnt v (items s') + cnt v prev = cnt v (items s) + cnt v vs)%nat.
Proof.
  intros Hg Hr. unfold o_set_slice in *. rewrite Hg in *.
  destruct (forallb hashable prev); cbn [negb] in *; [|discriminate].
  destruct (py_set_slice (items s) sl vs) as [l|e] eqn:Es; [|discriminate].
  pose proof (loop_items prev vs (with_items s l) prev) as LI.
  pose proof (loop_counts v prev vs (with_items s l) prev) as LC.
  destruct (set_slice_loop prev vs (with_items s l) prev) as [s1 [p|e]]; [|discriminate].
  simpl fst in *. simpl snd in *. specialize (LC p eq_refl). destruct LC as (C1 & C2 & C3).
  destruct (fold_removed_counts v p s1) as [F1 F2].
  cbv zeta. rewrite F1, F2, C1, C2, C3, fold_removed_items, LI. simpl.
  pose proof (count_set_slice eqb v (items s) sl vs l prev Es Hg) as HC.
  to_occ HC.
  pose proof (py_in_count eqb v prev) as HI. to_occ HI.
  destruct (py_in eqb v prev) eqn:Ei.
  - assert (0 < cnt v prev)%nat by (apply HI; reflexivity).
    destruct (Nat.eqb_spec (cnt v prev) 0); lia.
  - assert (cnt v prev = 0)%nat.
    { destruct (cnt v prev) as [|k]; [reflexivity|].
      assert (0 < S k)%nat as Hk by lia. apply HI in Hk. discriminate. }
    rewrite H. simpl. lia.
Qed.

Lemma occ_firstn_skipn v n (l : list A) : (cnt v (firstn n l) + cnt v (skipn n l))%nat = cnt v l.
Proof. rewrite !occ_count. apply count_split. Qed.
Lemma occ_app v (a b : list A) : cnt v (a ++ b) = (cnt v a + cnt v b)%nat.
Proof. rewrite !occ_count. apply count_app. Qed.

Hypothesis isb_spec : forall x y, isb x y = true <-> x = y.

(** One-step accounting for the balanced operations. *)
Lemma step_balance v s o :
  no_multiplying eqb (items s) o ->
  Forall (fun v => hashable v = true) (items s) ->
  Forall (fun v => hashable v = true) (op_values o) ->
  let s' := fst (step s o) in
  (N v s' + cnt v (items s) + D v s = D v s' + cnt v (items s') + N v s)%nat.
Proof.
  intros Hn Hs Ho. cbv zeta.
  destruct o as [w|i w|i|w|sl|i|sl vs|i w|vs|n|]; cbn [OList_Model.step] in *.
  - unfold o_append. cbn [fst]. destruct (added_counts v (with_items s (py_append (items s) w)) w) as [A1 A2].
    rewrite A1, A2. simpl. unfold py_append. rewrite occ_app. simpl. unfold b2n. destruct (eqb w v); lia.
  - unfold o_insert. cbn [fst]. destruct (added_counts v (with_items s (py_insert (items s) i w)) w) as [A1 A2].
    rewrite A1, A2. simpl. unfold py_insert. rewrite occ_app. simpl.
    rewrite <- (occ_firstn_skipn v (Z.to_nat (if i <? 0 then Z.max 0 (i + lenZ (items s)) else Z.min i (lenZ (items s)))) (items s)).
    unfold b2n. destruct (eqb w v); lia.
  - unfold o_pop. set (j := match i with Some i0 => i0 | None => lenZ (items s) - 1 end).
    unfold py_pop. destruct (norm_index (lenZ (items s)) j) as [n|]; [|simpl; lia].
    destruct (nth_error (items s) n) as [w|] eqn:E; [|simpl; lia].
    cbn [fst]. destruct (removed_counts v (with_items s (remove_nth n (items s))) w) as [A1 A2].
    rewrite A1, A2. simpl.
    pose proof (count_remove_nth eqb v n w (items s) E) as HC. to_occ HC.
    unfold b2n. destruct (eqb w v); lia.
  - unfold o_remove. destruct (py_remove eqb (items s) w) as [l|] eqn:E; [|simpl; lia].
    cbn [fst]. destruct (removed_counts v (with_items s l) w) as [A1 A2]. rewrite A1, A2. simpl.
    pose proof (count_py_remove eqb eqb_sym eqb_trans v _ _ _ E) as HC. to_occ HC.
    unfold b2n. destruct (eqb w v); lia.
  - unfold o_del_slice. destruct (py_get_slice (items s) sl) as [cur|e] eqn:E; [|simpl; lia].
    rewrite fold_removed_items.
    destruct (py_del_slice (items s) sl) as [l|e] eqn:E2.
    + simpl. destruct (fold_removed_counts v cur s) as [F1 F2]. rewrite F1, F2.
      pose proof (count_del_slice eqb v _ _ _ _ E2 E) as HC. to_occ HC. lia.
    + destruct (proj1 (py_get_slice_ok_iff (items s) sl) (ex_intro _ cur E)) as [l' Hl'].
      rewrite Hl' in E2. discriminate.
  - contradiction.
  - simpl in Hn. pose proof (set_slice_items s sl vs Hs Ho) as HI.
    destruct (py_get_slice (items s) sl) as [prev|e] eqn:Eg.
    + destruct (py_set_slice (items s) sl vs) as [l|e] eqn:Es.
      * destruct HI as [HI1 HI2].
        destruct (set_slice_counts v s sl vs prev _ Eg HI2) as (C1 & C2 & C3).
        rewrite C1, C2. specialize (Hn prev eq_refl v).
        destruct (Nat.eqb_spec (cnt v prev) 0); lia.
      * rewrite HI. simpl. lia.
    + unfold o_set_slice. rewrite Eg. simpl. lia.
  - unfold o_set_int. unfold py_get, py_set.
    destruct (norm_index (lenZ (items s)) i) as [n|] eqn:E; [|simpl; lia].
    destruct (norm_index_nth _ _ _ E) as [x Hx]. rewrite Hx.
    pose proof (count_update_nth eqb v n w x _ Hx) as HC. to_occ HC.
    destruct (isb x w) eqn:Ei.
    + apply isb_spec in Ei. subst x. cbn [negb]. rewrite E. simpl. lia.
    + cbn [negb]. replace (items (send_removed s x)) with (items s) by reflexivity. rewrite E.
      cbn [fst]. set (s1 := with_items (send_removed s x) (update_nth n w (items s))).
      destruct (added_counts v s1 w) as [A1 A2]. rewrite A1, A2.
      replace (items (send_added s1 w)) with (update_nth n w (items s)) by reflexivity.
      replace (log s1) with (log (send_removed s x)) by reflexivity.
      destruct (removed_counts v s x) as [B1 B2]. rewrite B1, B2. unfold b2n.
      destruct (eqb w v), (eqb x v); lia.
  - unfold o_extend. set (sl := slice2 (lenZ (items s)) (lenZ (items s))).
    pose proof (set_slice_items s sl vs Hs Ho) as HI. unfold sl in HI at 1. rewrite extend_plain in HI.
    destruct HI as [HI1 HI2].
    assert (Eg : py_get_slice (items s) sl = Ok []).
    { unfold sl, py_get_slice, slice_indices, slice2, adjust_bound. simpl.
      assert (lenZ (items s) <? 0 = false) as -> by (unfold lenZ; lia).
      assert (lenZ (items s) <=? lenZ (items s) = true) as -> by lia.
      unfold slice_positions, slice_count. simpl.
      assert (lenZ (items s) <? lenZ (items s) = false) as -> by lia. reflexivity. }
    destruct (set_slice_counts v s sl vs [] _ Eg HI2) as (C1 & C2 & C3).
    rewrite C1, C2. simpl in *. lia.
  - simpl. lia.
  - contradiction.
Qed.

Lemma no_multiplying_not_int l o : no_multiplying eqb l o -> not_int_deletion o.
Proof. destruct o; simpl; auto. Qed.

Lemma run_balance v os : forall s,
  hist_ok eqb (items s) os ->
  Forall (fun v => hashable v = true) (items s) ->
  Forall (fun o => Forall (fun v => hashable v = true) (op_values o)) os ->
  let s' := fst (run s os) in
  (N v s' + cnt v (items s) + D v s = D v s' + cnt v (items s') + N v s)%nat.
Proof.
  induction os as [|o os IH]; intros s Hh Hs Ho; [simpl; lia|].
  destruct Hh as [H1 H2]. inversion Ho; subst.
  pose proof (step_balance v s o H1 Hs ltac:(assumption)) as HB. cbv zeta in HB.
  destruct (step_plain s o (no_multiplying_not_int _ _ H1) Hs ltac:(assumption)) as [E1 _].
  pose proof (plain_step_Forall (fun v => hashable v = true) (items s) o Hs ltac:(assumption)) as HF.
  rewrite <- E1 in HF, H2.
  simpl. destruct (step s o) as [s1 r] eqn:Es. simpl in *.
  specialize (IH s1 H2 HF ltac:(assumption)). cbv zeta in IH.
  destruct (run s1 os) as [s2 rs]. simpl in *. lia.
Qed.

End Accounting.

(** ** Message pairing *)
Lemma paired_app n t (a b : list (message (A:=A))) :
  paired n t a -> paired n (length a + t) b -> paired n t (a ++ b).
Proof.
  intros H. revert b; induction H as [t|t v ms H IH|t v ms H IH]; intros b Hb; simpl in *.
  - exact Hb.
  - constructor. apply IH. replace (length ms + S (S t))%nat with (S (S (length ms + t))) by lia. exact Hb.
  - constructor. apply IH. replace (length ms + S (S t))%nat with (S (S (length ms + t))) by lia. exact Hb.
Qed.

(** A transition that keeps the sender and appends paired messages. *)
Definition sends (s s' : state (A:=A)) : Prop :=
  sender s' = sender s /\
  exists ms, log s' = log s ++ ms /\ paired (sender s) (length (log s)) ms.

Lemma sends_refl_items s l : sends s (with_items s l).
Proof. split; [reflexivity|]. exists []. rewrite app_nil_r. split; [reflexivity|constructor]. Qed.
Lemma sends_refl s : sends s s.
Proof. split; [reflexivity|]. exists []. rewrite app_nil_r. split; [reflexivity|constructor]. Qed.

Lemma sends_trans s1 s2 s3 : sends s1 s2 -> sends s2 s3 -> sends s1 s3.
Proof.
  intros [A1 (m1 & B1 & C1)] [A2 (m2 & B2 & C2)]. split; [congruence|].
  exists (m1 ++ m2). split; [rewrite B2, B1, app_assoc; reflexivity|].
  apply paired_app; [exact C1|]. rewrite A1, B1, app_length in C2.
  rewrite Nat.add_comm. exact C2.
Qed.

Lemma sends_added s v : sends s (send_added s v).
Proof.
  split; [reflexivity|]. eexists. split; [reflexivity|].
  unfold cur_sender. change (match sender s with None => PList | Some n => if alive n (length (log s)) then PNode n else PList end)
    with (sender_at (sender s) (length (log s))). constructor. constructor.
Qed.
Lemma sends_removed s v : sends s (send_removed s v).
Proof.
  split; [reflexivity|]. eexists. split; [reflexivity|].
  unfold cur_sender. change (match sender s with None => PList | Some n => if alive n (length (log s)) then PNode n else PList end)
    with (sender_at (sender s) (length (log s))). constructor. constructor.
Qed.

Lemma sends_fold vs : forall s, sends s (fold_left send_removed vs s).
Proof.
  induction vs as [|v vs IH]; intros s; [apply sends_refl|].
  cbn [fold_left]. eapply sends_trans; [apply sends_removed|apply IH].
Qed.

Lemma sends_loop cur vs : forall s prev, sends s (fst (set_slice_loop cur vs s prev)).
Proof.
  induction vs as [|v vs IH]; intros s prev; cbn [OList_Model.set_slice_loop]; [apply sends_refl|].
  destruct (negb (hashable v)); [apply sends_refl|].
  destruct (negb (py_in eqb v cur)); [|apply IH].
  eapply sends_trans; [apply sends_added|apply IH].
Qed.

Lemma sends_set_slice s sl vs : sends s (fst (o_set_slice eqb hashable alive s sl vs)).
Proof.
  unfold o_set_slice. destruct (py_get_slice (items s) sl) as [prev|e]; [|apply sends_refl].
  destruct (negb (forallb hashable prev)); [apply sends_refl|].
  destruct (py_set_slice (items s) sl vs) as [l|e]; [|apply sends_refl].
  pose proof (sends_loop prev vs (with_items s l) prev) as HL.
  destruct (set_slice_loop prev vs (with_items s l) prev) as [s1 [p|e]]; simpl fst in *.
  - eapply sends_trans; [apply sends_refl_items|]. eapply sends_trans; [exact HL|apply sends_fold].
  - eapply sends_trans; [apply sends_refl_items|exact HL].
Qed.

Lemma step_sends s o :
  match is_set_sender o with
  | Some n => sender (fst (step s o)) = n /\ log (fst (step s o)) = log s
  | None => sends s (fst (step s o))
  end.
Proof.
  destruct o as [w|i w|i|w|sl|i|sl vs|i w|vs|n|]; cbn [is_set_sender OList_Model.step].
  - eapply sends_trans; [apply sends_refl_items|apply sends_added].
  - eapply sends_trans; [apply sends_refl_items|apply sends_added].
  - unfold o_pop. destruct (py_pop _ _) as [[v l]|e]; [|apply sends_refl].
    eapply sends_trans; [apply sends_refl_items|apply sends_removed].
  - unfold o_remove. destruct (py_remove eqb (items s) w); [|apply sends_refl].
    eapply sends_trans; [apply sends_refl_items|apply sends_removed].
  - unfold o_del_slice. destruct (py_get_slice (items s) sl) as [cur|e]; [|apply sends_refl].
    destruct (py_del_slice _ sl); simpl fst; [|apply sends_fold].
    eapply sends_trans; [apply sends_fold|apply sends_refl_items].
  - unfold o_del_int. destruct (py_get (items s) i); [apply sends_removed|apply sends_refl].
  - apply sends_set_slice.
  - unfold o_set_int. destruct (py_get (items s) i) as [x|]; [|apply sends_refl].
    destruct (negb (isb x w)).
    + destruct (py_set _ i w); simpl fst; [|apply sends_removed].
      eapply sends_trans; [apply sends_removed|].
      eapply sends_trans; [apply sends_refl_items|apply sends_added].
    + destruct (py_set _ i w); simpl fst; [apply sends_refl_items|apply sends_refl].
  - apply sends_set_slice.
  - simpl. split; reflexivity.
  - apply sends_refl_items.
Qed.

Lemma run_segments os : forall s,
  exists ms, log (fst (run s os)) = log s ++ ms /\ segments (sender s) (length (log s)) os ms.
Proof.
  induction os as [|o os IH]; intros s.
  - exists []. rewrite app_nil_r. split; reflexivity.
  - pose proof (step_sends s o) as H. cbn [OList_Model.run OList_Spec.segments].
    destruct (step s o) as [s1 r]. simpl fst in H.
    destruct (IH s1) as (ms & E & S). destruct (run s1 os) as [s2 rs]. simpl fst in *.
    destruct (is_set_sender o) as [n|].
    + destruct H as [H1 H2]. exists ms. rewrite E, H2. rewrite H1, H2 in S. split; [reflexivity|exact S].
    + destruct H as [H1 (m1 & H2 & H3)]. exists (m1 ++ ms). rewrite E, H2, app_assoc.
      split; [reflexivity|]. exists m1, ms. split; [reflexivity|]. split; [exact H3|].
      rewrite H1, H2, app_length in S. rewrite Nat.add_comm. exact S.
Qed.

(** ** Integer deletion, += *)
Lemma del_int_keeps s i v :
  py_get (items s) i = Ok v ->
  items (fst (step s (DelInt i))) = items s /\
  log (fst (step s (DelInt i))) =
    log s ++ [DelChild (cur_sender alive s) v; DelParent v (cur_sender alive s)] /\
  snd (step s (DelInt i)) = Ok (RVal v).
Proof. intros H. simpl. unfold o_del_int. rewrite H. repeat split; reflexivity. Qed.

Lemma iadd_plain s vs :
  Forall (fun v => hashable v = true) (items s) ->
  Forall (fun v => hashable v = true) vs ->
  iadd_name eqb hashable alive s vs = BPlain vs.
Proof.
  intros H1 H2. unfold iadd_name, o_extend.
  pose proof (set_slice_items s (slice2 (lenZ (items s)) (lenZ (items s))) vs H1 H2) as H.
  rewrite extend_plain in H. destruct H as [_ H].
  destruct (o_set_slice eqb hashable alive s _ vs) as [s' r]. simpl in H. subst r. reflexivity.
Qed.
End Proofs.
