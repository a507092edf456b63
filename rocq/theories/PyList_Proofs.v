(** Facts about the list semantics of PyList.v. *)
From Verif Require Import Base PyList.
Require Import ZifyBool ZifyNat.
Open Scope Z_scope.
Ltac Zify.zify_post_hook ::= Z.div_mod_to_equations.

Lemma adjust_bound_range len step x :
  0 <= len ->
  (step < 0 -> -1 <= adjust_bound len step x <= len - 1) /\
  (0 <= step -> 0 <= adjust_bound len step x <= len).
Proof.
  intros H. unfold adjust_bound.
  destruct (x <? 0) eqn:E1; destruct (x + len <? 0) eqn:E2;
    destruct (step <? 0) eqn:E3; destruct (len <=? x) eqn:E4; lia.
Qed.

Lemma slice_indices_range len s a b k :
  0 <= len -> slice_indices len s = Some (a, b, k) ->
  k <> 0 /\
  (k < 0 -> -1 <= a <= len - 1 /\ -1 <= b <= len - 1) /\
  (0 < k -> 0 <= a <= len /\ 0 <= b <= len).
Proof.
  intros Hl. unfold slice_indices.
  set (st := match sl_step s with Some k0 => k0 | None => 1 end).
  destruct (st =? 0) eqn:E; [discriminate|].
  intros H. injection H as <- <- <-.
  split; [lia|].
  assert (R : forall x, (st < 0 -> -1 <= adjust_bound len st x <= len - 1) /\
                        (0 <= st -> 0 <= adjust_bound len st x <= len))
    by (intros x; apply adjust_bound_range; exact Hl).
  split; intros Hs;
  destruct (st <? 0) eqn:E2; try lia;
  destruct (sl_start s) as [x|]; destruct (sl_stop s) as [y|];
  try pose proof (R x); try pose proof (R y); lia.
Qed.

Lemma slice_pos_bound a b k len j :
  0 <= len -> k <> 0 ->
  (k < 0 -> -1 <= a <= len - 1 /\ -1 <= b <= len - 1) ->
  (0 < k -> 0 <= a <= len /\ 0 <= b <= len) ->
  (j < slice_count a b k)%nat -> 0 <= a + Z.of_nat j * k < len.
Proof.
  intros Hl Hk Hn Hp. unfold slice_count.
  destruct (k <? 0) eqn:E.
  - destruct (b <? a) eqn:E2; [|lia]. intros Hj.
    assert (k < 0) as Hk' by lia. destruct (Hn Hk') as [Ha Hb].
    assert (Z.of_nat j <= (a - b - 1) / (- k)) as Hj' by lia.
    assert (Z.of_nat j * (- k) <= a - b - 1).
    { pose proof (Z.mul_div_le (a - b - 1) (- k) ltac:(lia)). nia. }
    nia.
  - destruct (a <? b) eqn:E2; [|lia]. intros Hj.
    assert (0 < k) as Hk' by lia. destruct (Hp Hk') as [Ha Hb].
    assert (Z.of_nat j <= (b - a - 1) / k) as Hj' by lia.
    assert (Z.of_nat j * k <= b - a - 1).
    { pose proof (Z.mul_div_le (b - a - 1) k ltac:(lia)). nia. }
    nia.
Qed.

Lemma NoDup_map_inj_in {X Y} (f : X -> Y) (l : list X) :
  (forall x y, In x l -> In y l -> f x = f y -> x = y) ->
  NoDup l -> NoDup (map f l).
Proof.
  intros Hf Hl. induction Hl as [|x l Hx Hl IH]; simpl; constructor.
  - rewrite in_map_iff. intros (y & Hy & Hin).
    apply Hx. rewrite <- (Hf y x); [exact Hin| right; exact Hin | left; reflexivity | exact Hy].
  - apply IH. intros; apply Hf; [right|right|]; assumption.
Qed.

Lemma slice_positions_ok len s a b k :
  0 <= len -> slice_indices len s = Some (a, b, k) ->
  NoDup (slice_positions a b k) /\
  (forall p, In p (slice_positions a b k) -> (p < Z.to_nat len)%nat).
Proof.
  intros Hl H. destruct (slice_indices_range _ _ _ _ _ Hl H) as (Hk & Hn & Hp).
  assert (B : forall j, In j (seq 0 (slice_count a b k)) -> 0 <= a + Z.of_nat j * k < len).
  { intros j Hj. apply in_seq in Hj. apply (slice_pos_bound a b k len j); auto; lia. }
  unfold slice_positions. split.
  - apply NoDup_map_inj_in; [|apply seq_NoDup].
    intros x y Hx Hy E. apply B in Hx. apply B in Hy. nia.
  - intros p Hin. apply in_map_iff in Hin. destruct Hin as (j & <- & Hj).
    apply B in Hj. lia.
Qed.

Lemma slice_positions_1 a b :
  0 <= a -> 0 <= b -> slice_positions a b 1 = seq (Z.to_nat a) (Z.to_nat b - Z.to_nat a).
Proof.
  intros Ha Hb. unfold slice_positions.
  assert (C : slice_count a b 1 = (Z.to_nat b - Z.to_nat a)%nat).
  { unfold slice_count. replace (1 <? 0) with false by reflexivity.
    destruct (a <? b) eqn:E; rewrite ?Z.div_1_r; lia. }
  rewrite C. generalize (Z.to_nat b - Z.to_nat a)%nat as n. intros n.
  replace (seq (Z.to_nat a) n) with (map (fun k => (Z.to_nat a + k)%nat) (seq 0 n)).
  - apply map_ext. intros k. lia.
  - assert (G : forall n s0, map (fun k => (Z.to_nat a + k)%nat) (seq s0 n) = seq (Z.to_nat a + s0) n).
    { clear. induction n as [|n IH]; intros s0; simpl; [reflexivity|].
      rewrite IH. f_equal. f_equal. lia. }
    rewrite G. f_equal. lia.
Qed.

Section Facts.
Context {A : Type}.
Implicit Types (l : list A) (x : A).

(** pick with an offset *)
Definition pick_from (n : nat) l (ps : list nat) : list A :=
  flat_map (fun p => if Nat.ltb p n then [] else
                     match nth_error l (p - n) with Some x => [x] | None => [] end) ps.

Lemma pick_from_0 l ps : pick_from 0 l ps = pick l ps.
Proof.
  unfold pick_from, pick. apply flat_map_ext. intros p. simpl.
  rewrite Nat.sub_0_r. reflexivity.
Qed.

Lemma pick_nil ps : pick (@nil A) ps = [].
Proof. induction ps as [|p ps IH]; simpl; [reflexivity|]. destruct p; simpl; exact IH. Qed.

Lemma pick_app l ps qs : pick l (ps ++ qs) = pick l ps ++ pick l qs.
Proof. unfold pick. apply flat_map_app. Qed.

Lemma pick_seq l a n : pick l (seq a n) = firstn n (skipn a l).
Proof.
  revert a; induction n as [|n IH]; intros a; simpl; [reflexivity|].
  rewrite IH. clear IH. revert l; induction a as [|a IH]; intros l.
  - destruct l as [|x t]; simpl; [destruct n; reflexivity|reflexivity].
  - destruct l as [|x t]; simpl; [destruct n; reflexivity|].
    apply IH.
Qed.

Variable eqb : A -> A -> bool.
Notation cnt v l := (py_count eqb v l).

Lemma count_app v l1 l2 : cnt v (l1 ++ l2) = (cnt v l1 + cnt v l2)%nat.
Proof. induction l1 as [|y t IH]; simpl; [reflexivity|]. rewrite IH. lia. Qed.

Lemma count_split v l n : (cnt v (firstn n l) + cnt v (skipn n l))%nat = cnt v l.
Proof. rewrite <- count_app, firstn_skipn. reflexivity. Qed.

Lemma existsb_In n ps : existsb (Nat.eqb n) ps = true <-> In n ps.
Proof.
  rewrite existsb_exists. split.
  - intros (x & Hx & E). apply Nat.eqb_eq in E. subst. exact Hx.
  - intros H. exists n. split; [exact H|apply Nat.eqb_refl].
Qed.

Lemma pick_from_cons v n x t ps :
  NoDup ps ->
  cnt v (pick_from n (x :: t) ps) =
  ((if existsb (Nat.eqb n) ps then (if eqb x v then 1 else 0) else 0)
   + cnt v (pick_from (S n) t ps))%nat.
Proof.
  intros H. induction H as [|p ps Hp Hd IH]; [reflexivity|].
  unfold pick_from in *. cbn [flat_map existsb]. rewrite !count_app, IH. clear IH.
  destruct (Nat.eqb_spec n p) as [E|E].
  - subst p. rewrite Nat.ltb_irrefl, Nat.sub_diag.
    replace (Nat.ltb n (S n)) with true by (symmetry; apply Nat.ltb_lt; lia).
    simpl.
    destruct (existsb (Nat.eqb n) ps) eqn:E2.
    + apply existsb_In in E2. contradiction.
    + destruct (eqb x v); simpl; lia.
  - simpl orb. destruct (Nat.ltb_spec p n) as [L|L].
    + replace (Nat.ltb p (S n)) with true by (symmetry; apply Nat.ltb_lt; lia). simpl. lia.
    + replace (Nat.ltb p (S n)) with false by (symmetry; apply Nat.ltb_ge; lia).
      replace (p - n)%nat with (S (p - S n)) by lia. simpl nth_error. lia.
Qed.

Lemma count_drop_pick v ps l n :
  NoDup ps ->
  (cnt v (drop_positions n ps l) + cnt v (pick_from n l ps))%nat = cnt v l.
Proof.
  intros Hd. revert n; induction l as [|x t IH]; intros n.
  - simpl. induction ps as [|p ps IHp]; [reflexivity|].
    inversion Hd; subst. unfold pick_from in *. cbn [flat_map].
    rewrite count_app. rewrite IHp by assumption.
    destruct (Nat.ltb p n); [reflexivity|]. destruct (p - n)%nat; reflexivity.
  - rewrite pick_from_cons by assumption. simpl drop_positions. specialize (IH (S n)).
    simpl py_count at 3. destruct (existsb (Nat.eqb n) ps); simpl; lia.
Qed.

Lemma count_del_slice v l s l' cur :
  py_del_slice l s = Ok l' -> py_get_slice l s = Ok cur ->
  (cnt v l' + cnt v cur)%nat = cnt v l.
Proof.
  unfold py_del_slice, py_get_slice.
  destruct (slice_indices (lenZ l) s) as [[[a b] k]|] eqn:E; [|discriminate].
  intros H1 H2. injection H1 as <-. injection H2 as <-.
  apply slice_positions_ok in E; [|unfold lenZ; lia]. destruct E as [E _].
  rewrite <- pick_from_0. apply count_drop_pick. exact E.
Qed.

Lemma update_nth_length n x l : length (update_nth n x l) = length l.
Proof.
  unfold update_nth. rewrite app_length.
  rewrite <- (firstn_skipn n l) at 3. rewrite app_length.
  destruct (skipn n l); simpl; lia.
Qed.

Lemma update_nth_S n x y t : update_nth (S n) x (y :: t) = y :: update_nth n x t.
Proof. reflexivity. Qed.

Lemma nth_error_update_other n m x l :
  n <> m -> nth_error (update_nth n x l) m = nth_error l m.
Proof.
  revert m l; induction n as [|n IH]; intros m l H.
  - unfold update_nth. simpl. destruct l as [|y t]; [reflexivity|].
    destruct m as [|m]; [congruence|reflexivity].
  - destruct l as [|y t]; [reflexivity|]. rewrite update_nth_S.
    destruct m as [|m]; [reflexivity|]. simpl. apply IH. congruence.
Qed.

Lemma nth_error_update_same n x l :
  (n < length l)%nat -> nth_error (update_nth n x l) n = Some x.
Proof.
  revert l; induction n as [|n IH]; intros l H; destruct l as [|y t]; simpl in H; try lia.
  - reflexivity.
  - rewrite update_nth_S. simpl. apply IH. lia.
Qed.

Lemma count_update_nth v n x y l :
  nth_error l n = Some y ->
  (cnt v (update_nth n x l) + (if eqb y v then 1 else 0))%nat =
  (cnt v l + (if eqb x v then 1 else 0))%nat.
Proof.
  revert l; induction n as [|n IH]; intros l H; destruct l as [|z t]; try discriminate.
  - injection H as ->. unfold update_nth. simpl. lia.
  - rewrite update_nth_S. simpl. simpl in H. apply IH in H. lia.
Qed.

Lemma count_remove_nth v n y l :
  nth_error l n = Some y ->
  (cnt v (remove_nth n l) + (if eqb y v then 1 else 0))%nat = cnt v l.
Proof.
  revert l; induction n as [|n IH]; intros l H; destruct l as [|z t]; try discriminate.
  - injection H as ->. unfold remove_nth. simpl. lia.
  - simpl in H. apply IH in H. unfold remove_nth in *. simpl in *. lia.
Qed.

Lemma pick_update_notin p x l ps :
  ~ In p ps -> pick (update_nth p x l) ps = pick l ps.
Proof.
  intros H. induction ps as [|q ps IH]; [reflexivity|].
  unfold pick in *. cbn [flat_map]. rewrite IH by (intros Hc; apply H; right; exact Hc).
  rewrite nth_error_update_other; [reflexivity|]. intros ->. apply H. left. reflexivity.
Qed.

Lemma count_assign v ps vs l :
  NoDup ps -> (forall p, In p ps -> (p < length l)%nat) -> length vs = length ps ->
  (cnt v (assign_positions ps vs l) + cnt v (pick l ps))%nat = (cnt v l + cnt v vs)%nat.
Proof.
  intros Hd. revert vs l; induction Hd as [|p ps Hp Hd IH]; intros vs l Hr Hlen.
  - destruct vs; [|discriminate]. simpl. lia.
  - destruct vs as [|w vs]; [discriminate|]. cbn [assign_positions].
    assert (Hlt : (p < length l)%nat) by (apply Hr; left; reflexivity).
    destruct (nth_error l p) as [y|] eqn:Ey; [|apply nth_error_None in Ey; lia].
    pose proof (IH vs (update_nth p w l)) as IH'.
    rewrite pick_update_notin in IH' by assumption.
    pose proof (count_update_nth v p w y l Ey) as HU.
    unfold pick at 1. cbn [flat_map]. rewrite Ey. fold (pick l ps).
    rewrite count_app. simpl py_count.
    assert (G : forall p0, In p0 ps -> (p0 < length (update_nth p w l))%nat).
    { intros p0 H0. rewrite update_nth_length. apply Hr. right. exact H0. }
    specialize (IH' G). simpl in Hlen. specialize (IH' ltac:(lia)). lia.
Qed.

Lemma count_set_slice v l s vs l' prev :
  py_set_slice l s vs = Ok l' -> py_get_slice l s = Ok prev ->
  (cnt v l' + cnt v prev)%nat = (cnt v l + cnt v vs)%nat.
Proof.
  unfold py_set_slice, py_get_slice.
  destruct (slice_indices (lenZ l) s) as [[[a b] k]|] eqn:E; [|discriminate].
  intros H1 H2. injection H2 as <-.
  pose proof (slice_indices_range (lenZ l) s a b k ltac:(unfold lenZ; lia) E) as (Hk & Hn & Hp).
  apply slice_positions_ok in E; [|unfold lenZ; lia]. destruct E as [E1 E2].
  destruct (k =? 1) eqn:Ek.
  - injection H1 as <-. assert (k = 1) as -> by lia. destruct (Hp ltac:(lia)) as [Ha Hb].
    rewrite slice_positions_1 by lia. rewrite pick_seq.
    rewrite !count_app.
    set (na := Z.to_nat a). set (nb := Z.to_nat b).
    replace (Z.to_nat (Z.max a b)) with (na + (nb - na))%nat by lia.
    pose proof (count_split v l na) as S1.
    pose proof (count_split v (skipn na l) (nb - na)) as S2.
    assert (S3 : skipn (nb - na) (skipn na l) = skipn (na + (nb - na)) l).
    { clear. generalize (nb - na)%nat as m. generalize na as n. intros n; revert l.
      induction n as [|n IH]; intros l m; simpl; [reflexivity|].
      destruct l as [|x t]; [destruct m; reflexivity|]. apply IH. }
    rewrite S3 in S2. lia.
  - destruct (Nat.eqb (length vs) (slice_count a b k)) eqn:Ec; [|discriminate].
    injection H1 as <-. apply Nat.eqb_eq in Ec.
    apply count_assign; [exact E1| |].
    + intros p Hp'. apply E2 in Hp'. unfold lenZ in Hp'. lia.
    + unfold slice_positions. rewrite map_length, seq_length. exact Ec.
Qed.

Lemma norm_index_range len i n :
  norm_index len i = Some n -> (Z.of_nat n < len)%Z.
Proof.
  unfold norm_index. set (j := if i <? 0 then i + len else i).
  destruct ((j <? 0) || (len <=? j)) eqn:E; [discriminate|].
  intros H. injection H as <-. lia.
Qed.

Lemma norm_index_nth l i n :
  norm_index (lenZ l) i = Some n -> exists x, nth_error l n = Some x.
Proof.
  intros H. apply norm_index_range in H. unfold lenZ in H.
  destruct (nth_error l n) as [x|] eqn:E; [eauto|]. apply nth_error_None in E. lia.
Qed.

Lemma py_get_slice_ok_iff l s :
  (exists cur, py_get_slice l s = Ok cur) <-> (exists l', py_del_slice l s = Ok l').
Proof.
  unfold py_get_slice, py_del_slice. destruct (slice_indices (lenZ l) s) as [[[a b] k]|].
  - split; intros _; eexists; reflexivity.
  - split; intros [? H]; discriminate.
Qed.

(** Membership / Forall preservation *)
Lemma Forall_firstn (P : A -> Prop) n l : Forall P l -> Forall P (firstn n l).
Proof. intros H. rewrite <- (firstn_skipn n l) in H. apply Forall_app in H. tauto. Qed.
Lemma Forall_skipn (P : A -> Prop) n l : Forall P l -> Forall P (skipn n l).
Proof. intros H. rewrite <- (firstn_skipn n l) in H. apply Forall_app in H. tauto. Qed.

Lemma Forall_pick (P : A -> Prop) l ps : Forall P l -> Forall P (pick l ps).
Proof.
  intros H. unfold pick. apply Forall_forall. intros x Hx.
  apply in_flat_map in Hx. destruct Hx as (p & _ & Hx).
  destruct (nth_error l p) as [y|] eqn:E; simpl in Hx; [|contradiction].
  destruct Hx as [->|[]]. apply nth_error_In in E. rewrite Forall_forall in H. auto.
Qed.

Lemma Forall_drop (P : A -> Prop) ps l n : Forall P l -> Forall P (drop_positions n ps l).
Proof.
  intros H. revert n; induction H as [|x t Hx Ht IH]; intros n; simpl; [constructor|].
  destruct (existsb (Nat.eqb n) ps); [apply IH|constructor; [exact Hx|apply IH]].
Qed.

Lemma Forall_update (P : A -> Prop) n x l : P x -> Forall P l -> Forall P (update_nth n x l).
Proof.
  intros Hx H. unfold update_nth. apply Forall_app. split.
  - apply Forall_firstn; exact H.
  - pose proof (Forall_skipn P n l H) as H2. destruct (skipn n l); [constructor|].
    inversion H2; subst. constructor; assumption.
Qed.

Lemma Forall_assign (P : A -> Prop) ps vs l :
  Forall P vs -> Forall P l -> Forall P (assign_positions ps vs l).
Proof.
  revert vs l; induction ps as [|p ps IH]; intros vs l Hv Hl; simpl; [exact Hl|].
  destruct Hv as [|v vs Hv Hvs]; [exact Hl|]. apply IH; [exact Hvs|].
  apply Forall_update; assumption.
Qed.

Lemma Forall_remove_nth (P : A -> Prop) n l : Forall P l -> Forall P (remove_nth n l).
Proof.
  intros H. unfold remove_nth. apply Forall_app. split.
  - apply Forall_firstn; exact H.
  - apply Forall_skipn; exact H.
Qed.

Lemma Forall_py_remove (P : A -> Prop) l x l' :
  py_remove eqb l x = Some l' -> Forall P l -> Forall P l'.
Proof.
  revert l'; induction l as [|y t IH]; intros l' E H; simpl in E; [discriminate|].
  inversion H; subst. destruct (eqb y x); [injection E as <-; assumption|].
  destruct (py_remove eqb t x) as [t'|] eqn:E2; [|discriminate]. injection E as <-.
  constructor; [assumption|]. apply IH; [reflexivity|assumption].
Qed.

Lemma Forall_set_slice (P : A -> Prop) l s vs l' :
  py_set_slice l s vs = Ok l' -> Forall P l -> Forall P vs -> Forall P l'.
Proof.
  unfold py_set_slice. destruct (slice_indices (lenZ l) s) as [[[a b] k]|]; [|discriminate].
  destruct (k =? 1).
  - intros H Hl Hv. injection H as <-. rewrite !Forall_app.
    split; [apply Forall_firstn; exact Hl|split; [exact Hv|apply Forall_skipn; exact Hl]].
  - destruct (Nat.eqb (length vs) (slice_count a b k)); [|discriminate].
    intros H Hl Hv. injection H as <-. apply Forall_assign; assumption.
Qed.

Lemma py_in_count v l : py_in eqb v l = true <-> (0 < cnt v l)%nat.
Proof.
  induction l as [|y t IH]; simpl; [split; [discriminate|lia]|].
  destruct (eqb y v) eqn:E; simpl; [split; [lia|reflexivity]|].
  rewrite IH. lia.
Qed.

Lemma py_remove_none v l : py_remove eqb l v = None <-> cnt v l = 0%nat.
Proof.
  induction l as [|y t IH]; simpl; [split; reflexivity|].
  destruct (eqb y v) eqn:E; simpl; [split; [discriminate|lia]|].
  destruct (py_remove eqb t v) as [t'|]; [|split; [intros _; rewrite (proj1 IH eq_refl); reflexivity|reflexivity]].
  split; [discriminate|]. intros H. apply IH in H. discriminate.
Qed.
Hypothesis eqb_sym : forall x y, eqb x y = eqb y x.
Hypothesis eqb_trans : forall x y z, eqb x y = true -> eqb y z = true -> eqb x z = true.

Lemma eqb_rewrite x y z : eqb x y = true -> eqb x z = eqb y z.
Proof.
  intros H. destruct (eqb y z) eqn:E.
  - eapply eqb_trans; eassumption.
  - destruct (eqb x z) eqn:E2; [|reflexivity]. rewrite eqb_sym in H.
    rewrite (eqb_trans _ _ _ H E2) in E. discriminate.
Qed.

Lemma count_py_remove v l x l' :
  py_remove eqb l x = Some l' ->
  (cnt v l' + (if eqb x v then 1 else 0))%nat = cnt v l.
Proof.
  revert l'; induction l as [|y t IH]; intros l' H; simpl in H; [discriminate|].
  destruct (eqb y x) eqn:E.
  - injection H as <-. simpl. rewrite (eqb_rewrite y x v E). lia.
  - destruct (py_remove eqb t x) as [t'|] eqn:E2; [|discriminate]. injection H as <-.
    simpl. specialize (IH t' eq_refl). lia.
Qed.

End Facts.
