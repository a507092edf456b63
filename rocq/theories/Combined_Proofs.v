(** Proofs for C103: errors of combined matrices. *)
From Coq Require Import Reals ZArith List Bool Permutation Lia Lra Psatz.
From Flocq Require Import Core.Core IEEE754.BinarySingleNaN.
From Verif Require Import Rounded_Model Turn_Model Turn32_Model Combined_Model Combined_Spec.
From Verif Require Rounded_Proofs Turn_Proofs Turn32_Proofs TurnWide_Proofs.
Import ListNotations.
Local Open Scope list_scope.
Local Open Scope R_scope.

Notation w := (bpow radix2 (-24)).
Notation eta := (bpow radix2 (-150)).
Lemma w_pos : 0 < w. Proof. apply bpow_gt_0. Qed.
Lemma w_small : w <= / 16000000. Proof. exact Turn32_Proofs.u_small. Qed.

(** ** sums of four products, in any arithmetic that rounds well enough *)
Section Dot.
Variable F : Type.
Variable fin : F -> Prop.
Variable v_ : F -> R.
Variable rnd : R -> R.
Variables (zero : F) (mul add : F -> F -> F) (fma : F -> F -> F -> F).
Hypothesis zero_ok : fin zero /\ v_ zero = 0.
Hypothesis rnd_err : forall x, Rabs (rnd x - x) <= w * Rabs x + eta.
Hypothesis rnd_id : forall x, rnd (v_ x) = v_ x.
Hypothesis mul_ok : forall a b, fin a -> fin b -> Rabs (v_ a * v_ b) <= bpow radix2 110 -> fin (mul a b) /\ v_ (mul a b) = rnd (v_ a * v_ b).
Hypothesis add_ok : forall a b, fin a -> fin b -> Rabs (v_ a + v_ b) <= bpow radix2 110 -> fin (add a b) /\ v_ (add a b) = rnd (v_ a + v_ b).
Hypothesis fma_ok : forall a b c, fin a -> fin b -> fin c -> Rabs (v_ a * v_ b + v_ c) <= bpow radix2 110 -> fin (fma a b c) /\ v_ (fma a b c) = rnd (v_ a * v_ b + v_ c).
Variables a b : nat -> F.
Hypothesis FA : forall k, (k < 4)%nat -> fin (a k).
Hypothesis FB : forall k, (k < 4)%nat -> fin (b k).
Inductive gp : list nat -> F -> Prop :=
| gp_none : gp [] zero
| gp_mul k : gp [k] (mul (a k) (b k))
| gp_add l1 l2 u v : gp l1 u -> gp l2 v -> gp (l1 ++ l2) (add u v)
| gp_fma k l u : gp l u -> gp (k :: l) (fma (a k) (b k) u).
Notation p k := (v_ (a k) * v_ (b k)).
Fixpoint sum (f : nat -> R) (l : list nat) : R := match l with [] => 0 | k :: l => f k + sum f l end.
Variable S : R.
Hypothesis ST : sum (fun k => Rabs (p k)) [0; 1; 2; 3]%nat <= S.
Hypothesis S1 : bpow radix2 (-100) <= S <= bpow radix2 105.

Lemma sum_app f l1 l2 : sum f (l1 ++ l2) = sum f l1 + sum f l2.
Proof. induction l1 as [|x l1 IH]; cbn [app sum]; [ring|]. rewrite IH. ring. Qed.
Lemma sum_perm f l l' : Permutation l l' -> sum f l = sum f l'.
Proof. induction 1; cbn [sum]; try reflexivity; try congruence; try lra. Qed.
Lemma sum_abs l : Rabs (sum (fun k => p k) l) <= sum (fun k => Rabs (p k)) l.
Proof. induction l as [|x l IH]; cbn [sum]; [rewrite Rabs_R0; lra|]. eapply Rle_trans; [apply Rabs_triang|]. lra. Qed.
Lemma sum_pos l : 0 <= sum (fun k => Rabs (p k)) l.
Proof. induction l as [|x l IH]; cbn [sum]; [lra|]. pose proof (Rabs_pos (p x)). lra. Qed.
Lemma sum_le l : NoDup l -> incl l [0; 1; 2; 3]%nat -> sum (fun k => Rabs (p k)) l <= S.
Proof.
  intros N L. eapply Rle_trans; [|exact ST]. revert L. generalize [0; 1; 2; 3]%nat as m. induction l as [|x l IH]; intros m L; [apply sum_pos|]. cbn [sum].
  inversion N as [|? ? N1 N2]; subst. destruct (in_split x m (L x (or_introl eq_refl))) as (m1 & m2 & ->).
  rewrite (sum_perm _ (m1 ++ x :: m2) (x :: m1 ++ m2)) by (symmetry; apply Permutation_middle). cbn [sum]. apply Rplus_le_compat_l. apply IH; [exact N2|].
  intros k Hk. specialize (L k (or_intror Hk)). apply in_app_or in L as [L|[->|L]]; apply in_or_app; auto. contradiction.
Qed.
Lemma S_pos : 0 < S. Proof. pose proof (bpow_gt_0 radix2 (-100)). lra. Qed.
Definition c : R := 12 / 10 * w * S.
Lemma c_pos : 0 < c. Proof. unfold c. pose proof w_pos. pose proof S_pos. nra. Qed.
Lemma c_small : c <= S / 1000000. Proof. unfold c. pose proof w_pos. pose proof w_small. pose proof S_pos. nra. Qed.
Lemma step x : Rabs x <= 11 / 10 * S -> Rabs x <= bpow radix2 110 /\ Rabs (rnd x - x) <= c.
Proof.
  intros H. pose proof w_pos. pose proof S_pos. split.
  - assert (bpow radix2 105 * 2 <= bpow radix2 110) by (change 2 with (bpow radix2 1); rewrite <- bpow_plus; apply bpow_le; lia). lra.
  - eapply Rle_trans; [apply rnd_err|]. unfold c.
    assert (E : eta * 1024 <= w * bpow radix2 (-100)) by (change 1024 with (bpow radix2 10); rewrite <- !bpow_plus; apply bpow_le; lia).
    assert (w * bpow radix2 (-100) <= w * S) by (apply Rmult_le_compat_l; lra). assert (w * Rabs x <= w * (11 / 10 * S)) by (apply Rmult_le_compat_l; lra).
    pose proof (bpow_gt_0 radix2 (-150)). lra.
Qed.
Definition ops (l : list nat) : R := 2 * INR (length l) - 1.
Lemma ops_le l : NoDup l -> incl l [0; 1; 2; 3]%nat -> ops l <= 7.
Proof. intros N L. unfold ops. assert (INR (length l) <= INR 4) by (apply le_INR; exact (NoDup_incl_length N L)). cbn [INR] in H. lra. Qed.
Lemma below l x e : NoDup l -> incl l [0; 1; 2; 3]%nat -> Rabs (x - sum (fun k => p k) l) <= e -> e <= 8 * c -> Rabs x <= 11 / 10 * S.
Proof.
  intros N L H He. pose proof (sum_abs l). pose proof (sum_le l N L). pose proof c_small. pose proof S_pos.
  replace x with (sum (fun k => p k) l + (x - sum (fun k => p k) l)) by ring. eapply Rle_trans; [apply Rabs_triang|]. lra.
Qed.
Lemma split_abs x y z : Rabs (x - z) <= Rabs (x - y) + Rabs (y - z).
Proof. replace (x - z) with ((x - y) + (y - z)) by ring. apply Rabs_triang. Qed.

Lemma gp_ok l v : gp l v -> NoDup l -> incl l [0; 1; 2; 3]%nat ->
  fin v /\ (l = [] -> v_ v = 0) /\ (l <> [] -> Rabs (v_ v - sum (fun k => p k) l) <= ops l * c).
Proof.
  pose proof c_pos as CP.
  assert (B4 : forall k, In k [0; 1; 2; 3]%nat -> (k < 4)%nat) by (intros k [<-|[<-|[<-|[<-|[]]]]]; lia).
  induction 1 as [|k|l1 l2 x y _ IH1 _ IH2|k l x _ IH]; intros N L.
  - destruct zero_ok. repeat split; auto. congruence.
  - assert (K : (k < 4)%nat) by (apply B4, L; left; reflexivity).
    assert (H : Rabs (p k) <= 11 / 10 * S).
    { apply (below [k] _ 0 N L); [cbn [sum]; rewrite Rplus_0_r; unfold Rminus; rewrite Rplus_opp_r, Rabs_R0; lra|lra]. }
    destruct (step _ H) as (H1 & H2). destruct (mul_ok _ _ (FA k K) (FB k K) H1) as (G & E).
    split; [exact G|]. split; [discriminate|]. intros _. rewrite E. cbn [sum]. rewrite Rplus_0_r. unfold ops. cbn [length INR]. lra.
  - assert (N' : NoDup l1 /\ NoDup l2).
    { clear - N. induction l1 as [|x l1 IH]; [split; [constructor|exact N]|]. cbn in N. inversion N as [|? ? N0 N1]; subst. destruct (IH N1) as (A1 & A2).
      split; [constructor; [intros H; apply N0, in_or_app; left; exact H|exact A1]|exact A2]. }
    destruct N' as (N1 & N2).
    assert (L1 : incl l1 [0; 1; 2; 3]%nat) by (intros k Hk; apply L, in_or_app; auto).
    assert (L2 : incl l2 [0; 1; 2; 3]%nat) by (intros k Hk; apply L, in_or_app; auto).
    destruct (IH1 N1 L1) as (F1 & Z1 & E1). destruct (IH2 N2 L2) as (F2 & Z2 & E2). clear IH1 IH2.
    destruct l1 as [|k1 l1'].
    { specialize (Z1 eq_refl). destruct l2 as [|k2 l2'].
      - specialize (Z2 eq_refl). destruct (add_ok x y F1 F2) as (G & E); [rewrite Z1, Z2, Rplus_0_r, Rabs_R0; apply bpow_ge_0|].
        cbn [app]. rewrite E, Z1, Rplus_0_l, rnd_id. auto.
      - pose proof (ops_le _ N2 L2) as O2. specialize (E2 ltac:(discriminate)). assert (B : Rabs (v_ x + v_ y) <= 11 / 10 * S).
        { rewrite Z1, Rplus_0_l. apply (below (k2 :: l2') _ (ops (k2 :: l2') * c) N2 L2 E2). nra. }
        destruct (step _ B) as (B1 & _). destruct (add_ok x y F1 F2 B1) as (G & E). cbn [app]. rewrite E, Z1, Rplus_0_l, rnd_id.
        split; [exact G|]. split; [discriminate|auto]. }
    specialize (E1 ltac:(discriminate)). destruct l2 as [|k2 l2'].
    { specialize (Z2 eq_refl). pose proof (ops_le _ N1 L1) as O1. assert (B : Rabs (v_ x + v_ y) <= 11 / 10 * S).
      { rewrite Z2, Rplus_0_r. apply (below (k1 :: l1') _ (ops (k1 :: l1') * c) N1 L1 E1). nra. }
      destruct (step _ B) as (B1 & _). destruct (add_ok x y F1 F2 B1) as (G & E). rewrite app_nil_r, E, Z2, Rplus_0_r, rnd_id.
      split; [exact G|]. split; [discriminate|auto]. }
    specialize (E2 ltac:(discriminate)). set (m1 := k1 :: l1') in *. set (m2 := k2 :: l2') in *.
    assert (OP : ops (m1 ++ m2) = ops m1 + ops m2 + 1) by (unfold ops; rewrite app_length, plus_INR; ring).
    pose proof (ops_le _ N L) as OL.
    assert (D : Rabs (v_ x + v_ y - sum (fun k => p k) (m1 ++ m2)) <= ops m1 * c + ops m2 * c).
    { rewrite sum_app. replace (v_ x + v_ y - (sum (fun k => p k) m1 + sum (fun k => p k) m2)) with ((v_ x - sum (fun k => p k) m1) + (v_ y - sum (fun k => p k) m2)) by ring.
      eapply Rle_trans; [apply Rabs_triang|]. lra. }
    assert (B : Rabs (v_ x + v_ y) <= 11 / 10 * S) by (apply (below _ _ _ N L D); rewrite OP in OL; nra).
    destruct (step _ B) as (B1 & B2). destruct (add_ok x y F1 F2 B1) as (G & E).
    split; [exact G|]. split; [discriminate|]. intros _. rewrite E.
    eapply Rle_trans; [apply (split_abs _ (v_ x + v_ y))|]. rewrite OP. lra.
  - inversion N as [|? ? N0 N1]; subst. assert (L1 : incl l [0; 1; 2; 3]%nat) by (intros j Hj; apply L; right; auto).
    assert (K : (k < 4)%nat) by (apply B4, L; left; reflexivity).
    destruct (IH N1 L1) as (F1 & Z1 & E1). clear IH. pose proof (ops_le _ N L) as OL.
    assert (OP : ops (k :: l) = ops l + 2) by (unfold ops; cbn [length]; rewrite S_INR; ring).
    assert (D : Rabs (p k + v_ x - sum (fun k => p k) (k :: l)) <= Rmax 0 (ops l * c)).
    { cbn [sum]. replace (p k + v_ x - (p k + sum (fun k => p k) l)) with (v_ x - sum (fun k => p k) l) by ring.
      destruct l as [|k1 l']; [rewrite (Z1 eq_refl); cbn [sum]; rewrite Rminus_0_r, Rabs_R0; apply Rmax_l|].
      eapply Rle_trans; [apply E1; discriminate|apply Rmax_r]. }
    assert (M : Rmax 0 (ops l * c) <= (ops l + 1) * c).
    { apply Rmax_lub; [|lra]. assert (0 <= INR (length l)) by apply pos_INR. unfold ops. nra. }
    assert (B : Rabs (p k + v_ x) <= 11 / 10 * S) by (apply (below _ _ _ N L D); rewrite OP in OL; nra).
    destruct (step _ B) as (B1 & B2). destruct (fma_ok _ _ _ (FA k K) (FB k K) F1 B1) as (G & E).
    split; [exact G|]. split; [discriminate|]. intros _. rewrite E.
    eapply Rle_trans; [apply (split_abs _ (p k + v_ x))|]. rewrite OP. lra.
Qed.
Lemma dot_ok l v : Permutation l [0; 1; 2; 3]%nat -> gp l v ->
  fin v /\ Rabs (v_ v - sum4 (fun k => p k)) <= 9 * w * S.
Proof.
  intros P H. assert (N : NoDup l) by (apply (Permutation_NoDup (Permutation_sym P)); repeat constructor; cbn; intuition discriminate).
  assert (L : incl l [0; 1; 2; 3]%nat) by (intros k; apply Permutation_in; exact P).
  destruct (gp_ok l v H N L) as (G & _ & E). split; [exact G|].
  assert (l <> []) by (intros ->; apply Permutation_nil in P; discriminate). specialize (E H0). rewrite (sum_perm _ _ _ P) in E. cbn [sum] in E.
  unfold sum4. replace (p 0%nat + p 1%nat + p 2%nat + p 3%nat) with (p 0%nat + (p 1%nat + (p 2%nat + (p 3%nat + 0)))) by ring.
  eapply Rle_trans; [exact E|]. pose proof (ops_le _ N L). pose proof c_pos. apply Rle_trans with (7 * c); [nra|]. unfold c. pose proof w_pos. pose proof S_pos. nra.
Qed.
End Dot.

(** ** the two arithmetics *)
Lemma fmt64_id (x : b64) : Rounded_Proofs.rnd64 (B2R x) = B2R x.
Proof. apply round_generic; [apply valid_rnd_N|]. apply generic_format_B2R. Qed.
Lemma err64' x : Rabs (Rounded_Proofs.rnd64 x - x) <= w * Rabs x + eta.
Proof.
  eapply Rle_trans; [apply Turn_Proofs.err64|]. unfold Turn_Proofs.u, Turn_Proofs.eta. apply Rplus_le_compat; [|apply bpow_le; lia].
  apply Rmult_le_compat_r; [apply Rabs_pos|apply bpow_le; lia].
Qed.
Lemma b110 x : Rabs x <= bpow radix2 110 -> Rabs x <= bpow radix2 1010.
Proof. intros H. eapply Rle_trans; [exact H|]. apply bpow_le. lia. Qed.

Notation low := (bpow radix2 (-100)).
Lemma dot32 (a b : nat -> b32) S v : (forall k, (k < 4)%nat -> is_finite (a k) = true) -> (forall k, (k < 4)%nat -> is_finite (b k) = true) ->
  sum4 (fun k => Rabs (B2R (a k) * B2R (b k))) <= S -> low <= S <= bpow radix2 105 -> dot4 a b v ->
  is_finite v = true /\ Rabs (B2R v - sum4 (fun k => B2R (a k) * B2R (b k))) <= 9 * w * S.
Proof.
  intros FA FB HS S1 (l & P & H).
  apply (dot_ok b32 (fun x => is_finite x = true) (fun x => B2R x) Rounded_Proofs.rnd32 zero32 mul32 add32 fma32) with (l := l); auto.
  - exact Turn32_Proofs.err32.
  - intros x. apply Rounded_Proofs.rnd32_id, Rounded_Proofs.fmt_B2R.
  - exact Turn32_Proofs.mul32_r.
  - exact Turn32_Proofs.add32_r.
  - exact Turn32_Proofs.fma32_r.
  - unfold sum4 in HS. cbn [sum]. lra.
  - clear P. induction H; constructor; auto.
Qed.
Lemma dot64 (a b : nat -> b64) S l v : (forall k, (k < 4)%nat -> is_finite (a k) = true) -> (forall k, (k < 4)%nat -> is_finite (b k) = true) ->
  sum4 (fun k => Rabs (B2R (a k) * B2R (b k))) <= S -> low <= S <= bpow radix2 105 -> Permutation l [0; 1; 2; 3]%nat -> partial64 a b l v ->
  is_finite v = true /\ Rabs (B2R v - sum4 (fun k => B2R (a k) * B2R (b k))) <= 9 * w * S.
Proof.
  intros FA FB HS S1 P H.
  apply (dot_ok b64 (fun x => is_finite x = true) (fun x => B2R x) Rounded_Proofs.rnd64 zero64 mul64 add64 fma64) with (l := l); auto.
  - exact err64'.
  - exact fmt64_id.
  - intros x y X Y L. apply Turn_Proofs.mul64_r; auto. now apply b110.
  - intros x y X Y L. apply Turn_Proofs.add64_r; auto. now apply b110.
  - intros x y z X Y Z L. apply Turn_Proofs.fma64_r; auto. now apply b110.
  - unfold sum4 in HS. cbn [sum]. lra.
  - clear P. induction H; constructor; auto.
Qed.
Lemma as64_ok x i j : finite x -> (i < 4)%nat -> (j < 4)%nat -> is_finite (as64 x i j) = true /\ B2R (as64 x i j) = val x i j.
Proof.
  intros H I J. specialize (H i j I J). destruct x as [m|m]; cbn [as64 val]; [|auto]. unfold widened. now apply TurnWide_Proofs.widen_ok.
Qed.
Lemma sum4_ext f g : (forall k, (k < 4)%nat -> f k = g k) -> sum4 f = sum4 g.
Proof. intros H. unfold sum4. rewrite !H by lia. reflexivity. Qed.
Lemma sum4_le f g : (forall k, (k < 4)%nat -> f k <= g k) -> sum4 f <= sum4 g.
Proof. intros H. unfold sum4. pose proof (H 0%nat ltac:(lia)). pose proof (H 1%nat ltac:(lia)). pose proof (H 2%nat ltac:(lia)). pose proof (H 3%nat ltac:(lia)). lra. Qed.
Lemma sum4_abs f : Rabs (sum4 f) <= sum4 (fun k => Rabs (f k)).
Proof. unfold sum4. pose proof (Rabs_triang (f 0%nat + f 1%nat + f 2%nat) (f 3%nat)). pose proof (Rabs_triang (f 0%nat + f 1%nat) (f 2%nat)). pose proof (Rabs_triang (f 0%nat) (f 1%nat)). lra. Qed.

Definition mass (x y : rmat) i j : R := sum4 (fun k => Rabs (x i k * y k j)).
Lemma moves_err (p : nat -> b64) x j v : (forall k, (k < 4)%nat -> is_finite (p k) = true) -> finite x -> (j < 4)%nat -> moves p x j v ->
  sum4 (fun k => Rabs (B2R (p k) * val x k j)) <= bpow radix2 104 ->
  is_finite v = true /\ Rabs (B2R v - sum4 (fun k => B2R (p k) * val x k j)) <= 9 * w * (sum4 (fun k => Rabs (B2R (p k) * val x k j)) + low).
Proof.
  intros FP FX J (l & P & H) M.
  assert (E : forall k, (k < 4)%nat -> B2R (as64 x k j) = val x k j) by (intros k K; apply (as64_ok x k j FX K J)).
  pose proof (dot64 p (fun k => as64 x k j) (sum4 (fun k => Rabs (B2R (p k) * val x k j)) + low) l v FP) as D. cbv beta in D.
  rewrite (sum4_ext (fun k => Rabs (B2R (p k) * B2R (as64 x k j))) (fun k => Rabs (B2R (p k) * val x k j))) in D by (intros k K; now rewrite E).
  rewrite (sum4_ext (fun k => B2R (p k) * B2R (as64 x k j)) (fun k => B2R (p k) * val x k j)) in D by (intros k K; now rewrite E).
  apply D; auto.
  - intros k K. apply (as64_ok x k j FX K J).
  - pose proof (bpow_gt_0 radix2 (-100)). lra.
  - split.
    + assert (0 <= sum4 (fun k => Rabs (B2R (p k) * val x k j))) by (unfold sum4; repeat apply Rplus_le_le_0_compat; apply Rabs_pos). lra.
    + assert (bpow radix2 105 = bpow radix2 104 * 2) by (change 105%Z with (104 + 1)%Z; rewrite bpow_plus; reflexivity).
      assert (low <= bpow radix2 104) by (apply bpow_le; lia). lra.
Qed.
Lemma dots_err x y z : finite x -> finite y -> dots x y z -> (forall i j, (i < 4)%nat -> (j < 4)%nat -> mass (val x) (val y) i j <= bpow radix2 104) ->
  finite z /\ forall i j, (i < 4)%nat -> (j < 4)%nat -> Rabs (val z i j - times (val x) (val y) i j) <= 9 * w * (mass (val x) (val y) i j + low).
Proof.
  intros FX FY D M.
  assert (G : forall i j, (i < 4)%nat -> (j < 4)%nat -> match z with F32 m => is_finite (m i j) | F64 m => is_finite (m i j) end = true /\ Rabs (val z i j - times (val x) (val y) i j) <= 9 * w * (mass (val x) (val y) i j + low)).
  { intros i j I J. specialize (M i j I J). destruct D as [a b c H|x y c _ H].
    - apply (dot32 (a i) (fun k => b k j) (mass (val (F32 a)) (val (F32 b)) i j + low) (c i j)).
      + intros k K. exact (FX i k I K).
      + intros k K. exact (FY k j K J).
      + change (sum4 (fun k => Rabs (B2R (a i k) * B2R (b k j)))) with (mass (val (F32 a)) (val (F32 b)) i j). pose proof (bpow_gt_0 radix2 (-100)). lra.
      + split.
        * assert (0 <= mass (val (F32 a)) (val (F32 b)) i j) by (unfold mass, sum4; repeat apply Rplus_le_le_0_compat; apply Rabs_pos). lra.
        * assert (bpow radix2 105 = bpow radix2 104 * 2) by (change 105%Z with (104 + 1)%Z; rewrite bpow_plus; reflexivity).
          assert (low <= bpow radix2 104) by (apply bpow_le; lia). lra.
      + exact (H i j I J).
    - assert (E : forall k, (k < 4)%nat -> B2R (as64 x i k) = val x i k) by (intros k K; apply (as64_ok x i k FX I K)).
      pose proof (moves_err (as64 x i) y j (c i j)) as Q.
      rewrite (sum4_ext (fun k => Rabs (B2R (as64 x i k) * val y k j)) (fun k => Rabs (val x i k * val y k j))) in Q by (intros k K; now rewrite E).
      rewrite (sum4_ext (fun k => B2R (as64 x i k) * val y k j) (fun k => val x i k * val y k j)) in Q by (intros k K; now rewrite E).
      apply Q; auto; [|exact (H i j I J)]. intros k K. apply (as64_ok x i k FX I K). }
  split; [intros i j I J|intros i j I J]; apply (G i j I J).
Qed.

(** ** sizes *)
Definition size (x : rmat) (r : R) : Prop := forall i, (i < 4)%nat -> row x i <= r.
Definition eqm (x y : rmat) : Prop := forall i j, (i < 4)%nat -> (j < 4)%nat -> x i j = y i j.
Definition diff (x y : rmat) : rmat := fun i j => x i j - y i j.
Definition plus (x y : rmat) : rmat := fun i j => x i j + y i j.
Lemma row_pos x i : 0 <= row x i.
Proof. unfold row, sum4. repeat apply Rplus_le_le_0_compat; apply Rabs_pos. Qed.
Lemma mass_row x y a b i : (i < 4)%nat -> row x i <= a -> size y b -> sum4 (fun j => mass x y i j) <= a * b.
Proof.
  intros I A B. assert (B0 : 0 <= b) by (apply Rle_trans with (row y 0); [apply row_pos|apply B; lia]).
  replace (sum4 (fun j => mass x y i j)) with (sum4 (fun k => Rabs (x i k) * row y k)) by (unfold mass, row, sum4; rewrite !Rabs_mult; ring).
  apply Rle_trans with (sum4 (fun k => Rabs (x i k) * b)).
  - apply sum4_le. intros k K. apply Rmult_le_compat_l; [apply Rabs_pos|apply B; exact K].
  - replace (sum4 (fun k => Rabs (x i k) * b)) with (row x i * b) by (unfold row, sum4; ring). apply Rmult_le_compat_r; assumption.
Qed.
Lemma times_mass x y i j : Rabs (times x y i j) <= mass x y i j.
Proof. apply sum4_abs. Qed.
Lemma size_times x y a b : size x a -> size y b -> size (times x y) (a * b).
Proof. intros A B i I. eapply Rle_trans; [|apply (mass_row x y a b i I (A i I) B)]. unfold row. apply sum4_le. intros j J. apply times_mass. Qed.
Lemma mass_one x y a b i j : (i < 4)%nat -> (j < 4)%nat -> size x a -> size y b -> mass x y i j <= a * b.
Proof.
  intros I J A B. pose proof (mass_row x y a b i I (A i I) B) as H. unfold sum4 in H.
  assert (P : forall j, 0 <= mass x y i j) by (intros k; unfold mass, sum4; repeat apply Rplus_le_le_0_compat; apply Rabs_pos).
  pose proof (P 0%nat). pose proof (P 1%nat). pose proof (P 2%nat). pose proof (P 3%nat). destruct j as [|[|[|[|j]]]]; try lra; lia.
Qed.
Lemma size_plus x y a b : size x a -> size y b -> size (plus x y) (a + b).
Proof.
  intros A B i I. specialize (A i I). specialize (B i I). unfold row, plus, sum4 in *.
  pose proof (Rabs_triang (x i 0%nat) (y i 0%nat)). pose proof (Rabs_triang (x i 1%nat) (y i 1%nat)). pose proof (Rabs_triang (x i 2%nat) (y i 2%nat)). pose proof (Rabs_triang (x i 3%nat) (y i 3%nat)). lra.
Qed.
Lemma row_eqm x y i : (i < 4)%nat -> eqm x y -> row x i = row y i.
Proof. intros I E. unfold row. apply sum4_ext. intros k K. rewrite (E i k I K). reflexivity. Qed.
Lemma size_eqm x y r : eqm x y -> size x r -> size y r.
Proof. intros E S i I. rewrite <- (row_eqm x y i I E). exact (S i I). Qed.
Lemma size_mono x r r' : r <= r' -> size x r -> size x r'.
Proof. intros L S i I. specialize (S i I). lra. Qed.
Lemma row_norm x i : (i < 4)%nat -> row x i <= norm x.
Proof.
  intros I. unfold norm. destruct i as [|[|[|[|i]]]]; [| | | |lia].
  - eapply Rle_trans; [|apply Rmax_l]. apply Rmax_l.
  - eapply Rle_trans; [|apply Rmax_l]. apply Rmax_r.
  - eapply Rle_trans; [|apply Rmax_r]. apply Rmax_l.
  - eapply Rle_trans; [|apply Rmax_r]. apply Rmax_r.
Qed.
Lemma item_row x i j : (j < 4)%nat -> Rabs (x i j) <= row x i.
Proof.
  intros J. unfold row, sum4. pose proof (Rabs_pos (x i 0%nat)). pose proof (Rabs_pos (x i 1%nat)). pose proof (Rabs_pos (x i 2%nat)). pose proof (Rabs_pos (x i 3%nat)).
  destruct j as [|[|[|[|j]]]]; try lra; lia.
Qed.
Lemma times_assoc x y z : eqm (times (times x y) z) (times x (times y z)).
Proof. intros i j _ _. unfold times, sum4. ring. Qed.
Lemma times_eqm x x' y y' : eqm x x' -> eqm y y' -> eqm (times x y) (times x' y').
Proof. intros E E' i j I J. unfold times. apply sum4_ext. intros k K. rewrite (E i k I K), (E' k j K J). reflexivity. Qed.
Lemma times_unit_r x : eqm (times x unit4) x.
Proof. intros i j I J. unfold times, sum4, unit4. destruct j as [|[|[|[|j]]]]; cbn; try ring; lia. Qed.
Lemma times_unit_l x : eqm (times unit4 x) x.
Proof. intros i j I J. unfold times, sum4, unit4. destruct i as [|[|[|[|i]]]]; cbn; try ring; lia. Qed.
Lemma eqm_sym x y : eqm x y -> eqm y x. Proof. intros E i j I J. symmetry. exact (E i j I J). Qed.
Lemma eqm_trans x y z : eqm x y -> eqm y z -> eqm x z. Proof. intros E E' i j I J. rewrite (E i j I J). exact (E' i j I J). Qed.
Lemma eqm_refl x : eqm x x. Proof. intros i j _ _. reflexivity. Qed.

(** ** errors grow with each product *)
Notation d := (bpow radix2 (-20)).
Lemma d_pos : 0 < d. Proof. apply bpow_gt_0. Qed.
Lemma d_w : d = 16 * w. Proof. change 16 with (bpow radix2 4). rewrite <- bpow_plus. reflexivity. Qed.
Lemma growth_1 n : 1 <= growth n. Proof. apply pow_R1_Rle. pose proof d_pos. lra. Qed.
Lemma growth_add n m : growth (n + m) = growth n * growth m. Proof. apply pow_add. Qed.
Lemma growth_mono n m : (n <= m)%nat -> growth n <= growth m.
Proof. intros L. apply Rle_pow; [pose proof d_pos; lra|exact L]. Qed.

Definition near (n : nat) (r : R) (m : fmat) (x : rmat) : Prop :=
  finite m /\ size x r /\ size (diff (val m) x) ((growth n - 1) * r).
Lemma near_mono n n' r r' m x : (n <= n')%nat -> 1 <= r <= r' -> near n r m x -> near n' r' m x.
Proof.
  intros L [L1 L2] (F & S1 & S2). split; [exact F|]. split; [exact (size_mono _ _ _ L2 S1)|]. eapply size_mono; [|exact S2].
  pose proof (growth_mono _ _ L). pose proof (growth_1 n). apply Rmult_le_compat; lra.
Qed.
Lemma near_eqm n r m x y : eqm x y -> near n r m x -> near n r m y.
Proof.
  intros E (F & S1 & S2). split; [exact F|]. split; [exact (size_eqm _ _ _ E S1)|]. eapply size_eqm; [|exact S2].
  intros i j I J. unfold diff. rewrite (E i j I J). reflexivity.
Qed.
Lemma near_size n r m x : near n r m x -> size (val m) (growth n * r).
Proof.
  intros (_ & S1 & S2). apply size_eqm with (plus (diff (val m) x) x); [intros i j _ _; unfold plus, diff; ring|].
  eapply size_mono; [|apply size_plus; [exact S2|exact S1]]. lra.
Qed.
Lemma near_leaf m : finite m -> near 0 (Rmax 1 (norm (val m))) m (val m).
Proof.
  intros F. split; [exact F|]. split.
  - intros i I. eapply Rle_trans; [apply row_norm; exact I|apply Rmax_r].
  - intros i I. unfold growth. cbn [pow]. unfold row, diff, sum4. rewrite !Rminus_diag_eq by reflexivity. rewrite Rabs_R0. lra.
Qed.
Lemma low_small : low <= / 1000.
Proof. apply Rle_trans with (bpow radix2 (-10)); [apply bpow_le; lia|]. change (bpow radix2 (-10)) with (/ 1024). apply Rinv_le_contravar; lra. Qed.
Lemma b100 : bpow radix2 100 <= bpow radix2 104. Proof. apply bpow_le. lia. Qed.

Lemma near_times n m r s x y z X Y : near n r x X -> near m s y Y -> 1 <= r -> 1 <= s -> dots x y z ->
  growth (n + m) * (r * s) <= bpow radix2 100 -> near (n + m + 1) (r * s) z (times X Y).
Proof.
  intros HX HY R1 S1 D G. pose proof (near_size _ _ _ _ HX) as ZX. pose proof (near_size _ _ _ _ HY) as ZY.
  destruct HX as (FX & SX & EX). destruct HY as (FY & SY & EY). rewrite growth_add in G.
  pose proof (growth_1 n) as G1. pose proof (growth_1 m) as G2. set (a := growth n) in *. set (b := growth m) in *.
  assert (AB : a * r * (b * s) = a * b * (r * s)) by ring.
  destruct (dots_err x y z FX FY D) as (FZ & EZ).
  { intros i j I J. pose proof (mass_one _ _ _ _ i j I J ZX ZY). pose proof b100. lra. }
  split; [exact FZ|]. split; [exact (size_times _ _ _ _ SX SY)|].
  assert (RS : 1 <= r * s) by nra. assert (ABR : 1 <= a * b * (r * s)) by (assert (1 <= a * b) by nra; nra).
  assert (E1 : size (diff (val z) (times (val x) (val y))) (d * (a * b * (r * s)))).
  { intros i I. apply Rle_trans with (sum4 (fun j => 9 * w * (mass (val x) (val y) i j + low))).
    - apply sum4_le. intros j J. exact (EZ i j I J).
    - replace (sum4 (fun j => 9 * w * (mass (val x) (val y) i j + low))) with (9 * w * (sum4 (fun j => mass (val x) (val y) i j) + 4 * low)) by (unfold sum4; ring).
      pose proof (mass_row _ _ _ _ i I (ZX i I) ZY) as M. rewrite AB in M. pose proof low_small. pose proof w_pos. rewrite d_w.
      replace (16 * w * (a * b * (r * s))) with (w * (16 * (a * b * (r * s)))) by ring. rewrite (Rmult_comm 9), Rmult_assoc. apply Rmult_le_compat_l; lra. }
  apply size_eqm with (plus (diff (val z) (times (val x) (val y))) (plus (times (diff (val x) X) (val y)) (times X (diff (val y) Y)))).
  { intros i j I J. unfold plus, diff, times, sum4. ring. }
  eapply size_mono; [|apply size_plus; [exact E1|apply size_plus; apply size_times; [exact EX|exact ZY|exact SX|exact EY]]].
  rewrite !growth_add. fold a b. unfold growth. cbn [pow]. right. ring.
Qed.

(** ** compressMatrices *)
Definition desc (o : option fmat) (n : nat) (r : R) (x : rmat) : Prop :=
  1 <= r /\ match o with None => eqm x unit4 | Some m => near n r m x end.
Definition entry : Type := nat * R * rmat.
Definition fits (o : option fmat) (e : entry) : Prop := let '(n, r, x) := e in desc o n r x.
Fixpoint cost (es : list entry) : nat := match es with [] => 0 | (n, _, _) :: es => n + 1 + cost es end.
Fixpoint prodr (es : list entry) : R := match es with [] => 1 | (_, r, _) :: es => r * prodr es end.
Fixpoint prodx (es : list entry) : rmat := match es with [] => unit4 | (_, _, x) :: es => times (prodx es) x end.
Lemma prodr_1 ms es : Forall2 fits ms es -> 1 <= prodr es.
Proof. induction 1 as [|o [[n r] x] ms es H _ IH]; cbn [prodr]; [lra|]. destruct H as (H & _). nra. Qed.
Lemma compress_near first ms r : compress_from first ms r -> forall es n s x, desc first n s x -> Forall2 fits ms es ->
  growth (n + cost es) * (s * prodr es) <= bpow radix2 100 -> desc r (n + cost es) (s * prodr es) (times (prodx es) x).
Proof.
  induction 1 as [first|first ms r _ IH|item ms r _ IH|first item e ms r D _ IH]; intros es n s x HF HS G.
  - inversion HS; subst. cbn [cost prodr prodx]. rewrite Nat.add_0_r, Rmult_1_r. destruct HF as (H1 & H2). split; [exact H1|].
    destruct first as [m|]; [|eapply eqm_trans; [apply times_unit_l|exact H2]]. eapply near_eqm; [|exact H2]. apply eqm_sym, times_unit_l.
  - inversion HS as [|? [[q t] y] ? es' HY HS']; subst. cbn [cost prodr prodx] in *. destruct HY as (T1 & EY). pose proof (prodr_1 _ _ HS') as P1.
    destruct HF as (H1 & H2). assert (L : 1 <= s * t) by nra.
    specialize (IH es' (n + (q + 1))%nat (s * t) (times y x)).
    replace (n + (q + 1 + cost es'))%nat with (n + (q + 1) + cost es')%nat by lia. replace (s * (t * prodr es')) with (s * t * prodr es') by ring.
    assert (Q : desc r (n + (q + 1) + cost es') (s * t * prodr es') (times (prodx es') (times y x))).
    { apply IH; [|exact HS'|replace (n + (q + 1) + cost es')%nat with (n + (q + 1 + cost es'))%nat by lia; rewrite Rmult_assoc; exact G].
      split; [exact L|]. assert (E : eqm x (times y x)) by (eapply eqm_trans; [apply eqm_sym, times_unit_l|]; apply times_eqm; [apply eqm_sym; exact EY|apply eqm_refl]).
      destruct first as [m|]; [|eapply eqm_trans; [apply eqm_sym; exact E|exact H2]].
      eapply near_eqm; [exact E|]. eapply near_mono; [| |exact H2]; [lia|nra]. }
    destruct Q as (Q1 & Q2). split; [exact Q1|]. destruct r as [m|]; [eapply near_eqm; [apply eqm_sym, times_assoc|exact Q2]|eapply eqm_trans; [apply times_assoc|exact Q2]].
  - inversion HS as [|? [[q t] y] ? es' HY HS']; subst. cbn [cost prodr prodx] in *. destruct HY as (T1 & NY). pose proof (prodr_1 _ _ HS') as P1.
    destruct HF as (H1 & H2). assert (L : 1 <= s * t) by nra.
    replace (n + (q + 1 + cost es'))%nat with (n + (q + 1) + cost es')%nat by lia. replace (s * (t * prodr es')) with (s * t * prodr es') by ring.
    assert (Q : desc r (n + (q + 1) + cost es') (s * t * prodr es') (times (prodx es') (times y x))).
    { apply IH; [|exact HS'|replace (n + (q + 1) + cost es')%nat with (n + (q + 1 + cost es'))%nat by lia; rewrite Rmult_assoc; exact G].
      split; [exact L|]. eapply near_eqm with y; [apply eqm_sym; eapply eqm_trans; [apply times_eqm; [apply eqm_refl|exact H2]|apply times_unit_r]|].
      eapply near_mono; [| |exact NY]; [lia|nra]. }
    destruct Q as (Q1 & Q2). split; [exact Q1|]. destruct r as [m|]; [eapply near_eqm; [apply eqm_sym, times_assoc|exact Q2]|eapply eqm_trans; [apply times_assoc|exact Q2]].
  - inversion HS as [|? [[q t] y] ? es' HY HS']; subst. cbn [cost prodr prodx] in *. destruct HY as (T1 & NY). pose proof (prodr_1 _ _ HS') as P1.
    destruct HF as (H1 & H2). assert (L : 1 <= s * t) by nra.
    replace (n + (q + 1 + cost es'))%nat with (q + n + 1 + cost es')%nat in * by lia. replace (s * (t * prodr es')) with (t * s * prodr es') in * by ring.
    assert (Q : desc r (q + n + 1 + cost es') (t * s * prodr es') (times (prodx es') (times y x))).
    { apply IH; [|exact HS'|exact G]. split; [lra|]. eapply near_times; [exact NY|exact H2|exact T1|exact H1|exact D|].
      eapply Rle_trans; [|exact G]. apply Rmult_le_compat; [pose proof (growth_1 (q + n)); lra|nra|apply growth_mono; lia|nra]. }
    destruct Q as (Q1 & Q2). split; [exact Q1|]. destruct r as [m|]; [eapply near_eqm; [apply eqm_sym, times_assoc|exact Q2]|eapply eqm_trans; [apply times_assoc|exact Q2]].
Qed.
Lemma compress_near_all ms r es : compress ms r -> Forall2 fits ms es -> growth (cost es - 1) * prodr es <= bpow radix2 100 ->
  desc r (cost es - 1) (prodr es) (prodx es).
Proof.
  intros H F G. destruct ms as [|first ms]; cbn [compress] in H.
  - subst r. inversion F; subst. cbn. split; [lra|apply eqm_refl].
  - inversion F as [|? [[n s] x] ? es' HF HS]; subst. cbn [cost prodr prodx] in *. replace (n + 1 + cost es' - 1)%nat with (n + cost es')%nat in * by lia.
    exact (compress_near first ms r H es' n s x HF HS G).
Qed.

Definition leaf (o : option fmat) : entry := match o with None => (0%nat, 1, unit4) | Some m => (0%nat, Rmax 1 (norm (val m)), val m) end.
Lemma leaves ms : all_finite ms -> Forall2 fits ms (map leaf ms).
Proof.
  induction ms as [|o ms IH]; intros A; cbn [map]; constructor; [|apply IH; intros m H; apply A; right; exact H].
  destruct o as [m|]; cbn [leaf fits desc]; split; try lra; [apply Rmax_l|apply near_leaf, A; left; reflexivity|apply eqm_refl].
Qed.
Lemma leaf_cost ms : cost (map leaf ms) = length ms.
Proof. induction ms as [|[m|] ms IH]; cbn [map leaf cost length]; [reflexivity| |]; rewrite IH; lia. Qed.
Lemma leaf_r ms : prodr (map leaf ms) = bound ms.
Proof. induction ms as [|[m|] ms IH]; cbn [map leaf prodr bound]; [reflexivity| |]; rewrite IH; ring. Qed.
Lemma leaf_x ms : eqm (prodx (map leaf ms)) (exact ms).
Proof.
  induction ms as [|[m|] ms IH]; cbn [map leaf prodx exact]; [apply eqm_refl| |].
  - apply times_eqm; [exact IH|apply eqm_refl].
  - eapply eqm_trans; [apply times_unit_r|exact IH].
Qed.
Lemma bound_1 ms : 1 <= bound ms.
Proof. induction ms as [|[m|] ms IH]; cbn [bound]; [lra| |exact IH]. pose proof (Rmax_l 1 (norm (val m))). nra. Qed.
Lemma bound_app ms ms' : bound (ms ++ ms') = bound ms * bound ms'.
Proof. induction ms as [|[m|] ms IH]; cbn [app bound]; [ring| |exact IH]. rewrite IH. ring. Qed.
Lemma exact_app ms ms' : eqm (exact (ms ++ ms')) (times (exact ms') (exact ms)).
Proof.
  induction ms as [|[m|] ms IH]; cbn [app exact]; [apply eqm_sym, times_unit_r| |exact IH].
  eapply eqm_trans; [apply times_eqm; [exact IH|apply eqm_refl]|]. apply times_assoc.
Qed.
Lemma desc_mono o n n' r x y : (n <= n')%nat -> eqm x y -> desc o n r x -> desc o n' r y.
Proof.
  intros L E (H1 & H2). split; [exact H1|]. destruct o as [m|]; [|eapply eqm_trans; [apply eqm_sym; exact E|exact H2]].
  eapply near_eqm; [exact E|]. eapply near_mono; [exact L| |exact H2]. lra.
Qed.
(** what is computed of given matrices *)
Lemma compress_desc ms r : all_finite ms -> compress ms r -> growth (length ms) * bound ms <= bpow radix2 100 ->
  desc r (length ms - 1) (bound ms) (exact ms).
Proof.
  intros A H G. eapply desc_mono; [reflexivity|apply leaf_x|]. rewrite <- leaf_r, <- leaf_cost. apply compress_near_all with ms; [exact H|now apply leaves|].
  rewrite leaf_cost, leaf_r. eapply Rle_trans; [|exact G]. apply Rmult_le_compat_r; [pose proof (bound_1 ms); lra|apply growth_mono; lia].
Qed.
Lemma desc_items o n r x : desc o n r x -> match o with
  | None => eqm x unit4
  | Some m => finite m /\ forall i j, (i < 4)%nat -> (j < 4)%nat -> Rabs (val m i j - x i j) <= (growth n - 1) * r end.
Proof.
  intros (_ & H). destruct o as [m|]; [|exact H]. destruct H as (F & _ & E). split; [exact F|]. intros i j I J.
  eapply Rle_trans; [apply (item_row (diff (val m) x) i j J)|exact (E i I)].
Qed.

(** ** paths *)
Definition whole (ms : list (option fmat)) : entry := (6%nat, bound ms, exact ms).
Lemma whole_cost ls : cost (map whole ls) = (7 * length ls)%nat.
Proof. induction ls as [|l ls IH]; [reflexivity|]. cbn [map whole cost length]. rewrite IH. lia. Qed.
Lemma whole_r ls : prodr (map whole ls) = bound (concat ls).
Proof. induction ls as [|l ls IH]; [reflexivity|]. cbn [map whole prodr concat]. rewrite IH, bound_app. reflexivity. Qed.
Lemma whole_x ls : eqm (prodx (map whole ls)) (exact (concat ls)).
Proof.
  induction ls as [|l ls IH]; [apply eqm_refl|]. cbn [map whole prodx concat].
  eapply eqm_trans; [apply times_eqm; [exact IH|apply eqm_refl]|]. apply eqm_sym, exact_app.
Qed.
Lemma bound_in l ls : In l ls -> bound l <= bound (concat ls).
Proof.
  induction ls as [|l' ls IH]; [intros []|]. cbn [concat]. rewrite bound_app. pose proof (bound_1 (concat ls)). pose proof (bound_1 l'). intros [->|H1]; [nra|]. specialize (IH H1). nra.
Qed.
Lemma locals_fit ls locals n : (forall l, In l ls -> length l = 7%nat) -> all_finite (concat ls) -> Forall2 compress ls locals ->
  (7 <= n)%nat -> growth n * bound (concat ls) <= bpow radix2 100 -> Forall2 fits locals (map whole ls).
Proof.
  intros L A H N G.
  assert (Q : forall l, In l ls -> all_finite l /\ growth (length l) * bound l <= bpow radix2 100).
  { intros l Hl. split; [intros m Hm; apply A, in_concat; exists l; auto|]. rewrite (L l Hl). eapply Rle_trans; [|exact G].
    apply Rmult_le_compat; [pose proof (growth_1 7); lra|pose proof (bound_1 l); lra|apply growth_mono; exact N|apply bound_in; exact Hl]. }
  clear A G. induction H as [|l o ls locals H _ IH]; cbn [map]; constructor.
  - destruct (Q l (or_introl eq_refl)) as (A & G). pose proof (compress_desc l o A H G) as D. rewrite (L l (or_introl eq_refl)) in D. exact D.
  - apply IH; intros; [apply L|apply Q]; right; assumption.
Qed.
Definition listed (path : list parts) (inverse : bool) : list (list (option fmat)) :=
  if inverse then map backward (rev path) else map forward path.
Lemma listed_7 path inverse l : In l (listed path inverse) -> length l = 7%nat.
Proof. unfold listed. destruct inverse; intros H; apply in_map_iff in H as (p & <- & _); reflexivity. Qed.
Lemma listed_len path inverse : length (listed path inverse) = length path.
Proof. unfold listed. destruct inverse; rewrite map_length; [apply rev_length|reflexivity]. Qed.
Lemma identity_near x : eqm x unit4 -> near 0 1 (F32 identity32) x.
Proof.
  intros E. assert (V : eqm (val (F32 identity32)) unit4).
  { intros i j I J. unfold val, identity32, at4, unit4. pose proof Rounded_Proofs.one32_1 as O1.
    destruct i as [|[|[|[|i]]]]; try lia; destruct j as [|[|[|[|j]]]]; try lia; cbn [nth Nat.eqb]; first [exact O1|reflexivity]. }
  split; [|split].
  - intros i j I J. unfold identity32, at4. destruct i as [|[|[|[|i]]]]; try lia; destruct j as [|[|[|[|j]]]]; try lia; reflexivity.
  - apply size_eqm with unit4; [apply eqm_sym; exact E|]. intros i I. unfold row, sum4, unit4.
    destruct i as [|[|[|[|i]]]]; try lia; cbn [Nat.eqb]; rewrite ?Rabs_R0, ?Rabs_R1; lra.
  - apply size_eqm with (diff x x); [intros i j I J; unfold diff; rewrite (V i j I J), (E i j I J); reflexivity|].
    intros i I. unfold row, sum4, diff, growth. cbn [pow]. rewrite !Rminus_diag_eq by reflexivity. rewrite Rabs_R0. lra.
Qed.
Lemma path_near path inverse r : all_finite (concat (listed path inverse)) -> path_matrix path inverse r ->
  growth (7 * length path) * bound (concat (listed path inverse)) <= bpow radix2 100 ->
  near (7 * length path) (bound (concat (listed path inverse))) r (exact (concat (listed path inverse))).
Proof.
  intros A (locals & m & H & C & ->) G. fold (listed path inverse) in H. pose proof (bound_1 (concat (listed path inverse))) as B1.
  assert (D : desc m (7 * length path - 1) (bound (concat (listed path inverse))) (exact (concat (listed path inverse)))).
  { pose proof (listed_len path inverse) as LL. destruct path as [|p path].
    - destruct (listed [] inverse); [|discriminate LL]. inversion H; subst. cbn in C. subst m. cbn. split; [lra|apply eqm_refl].
    - assert (F : Forall2 fits locals (map whole (listed (p :: path) inverse))).
      { apply locals_fit with (7 * length (p :: path))%nat; auto; [apply listed_7|cbn [length]; lia]. }
      eapply desc_mono; [|apply whole_x|]; [|rewrite <- whole_r; apply (compress_near_all locals m _ C F)].
      + rewrite whole_cost, LL. lia.
      + rewrite whole_cost, whole_r, LL. eapply Rle_trans; [|exact G]. apply Rmult_le_compat_r; [lra|apply growth_mono; lia]. }
  destruct D as (_ & D). destruct m as [m|].
  - eapply near_mono; [| |exact D]; [lia|lra].
  - eapply near_mono; [| |apply identity_near; exact D]; [lia|lra].
Qed.

(** a point moved by the matrix *)
Lemma point_near (p : nat -> b64) n r m x j v : near n r m x -> 1 <= r -> (forall k, (k < 4)%nat -> is_finite (p k) = true) -> (j < 4)%nat -> moves p m j v ->
  let P := sum4 (fun k => Rabs (B2R (p k))) in 1 <= P -> growth n * (P * r) <= bpow radix2 100 ->
  is_finite v = true /\ Rabs (B2R v - sum4 (fun k => B2R (p k) * x k j)) <= (growth (n + 1) - 1) * (P * r).
Proof.
  intros NM R1 FP J M P P1 G. pose proof (near_size _ _ _ _ NM) as Z. destruct NM as (F & S1 & S2). pose proof (growth_1 n) as G1.
  pose (q := (fun _ k => B2R (p k)) : rmat). assert (SQ : size q P) by (intros i _; apply Rle_refl).
  pose proof (mass_one q (val m) P (growth n * r) 0 j ltac:(lia) J SQ Z) as MM. unfold mass, q in MM.
  destruct (moves_err p m j v FP F J M) as (FV & E); [pose proof b100; lra|]. split; [exact FV|].
  pose proof (size_times q (diff (val m) x) P _ SQ S2 0%nat ltac:(lia)) as T. pose proof (item_row (times q (diff (val m) x)) 0 j J) as T1.
  replace (B2R v - sum4 (fun k => B2R (p k) * x k j)) with ((B2R v - sum4 (fun k => B2R (p k) * val m k j)) + times q (diff (val m) x) 0%nat j) by (unfold times, diff, q, sum4; ring).
  eapply Rle_trans; [apply Rabs_triang|]. rewrite growth_add. replace (growth 1) with (1 + d) by (unfold growth; cbn [pow]; ring).
  assert (K : Rabs (B2R v - sum4 (fun k => B2R (p k) * val m k j)) <= d * (growth n * (P * r))).
  { eapply Rle_trans; [exact E|]. rewrite d_w. pose proof low_small. pose proof w_pos. assert (1 <= P * r) by nra. assert (1 <= growth n * (P * r)) by nra.
    replace (16 * w * (growth n * (P * r))) with (w * (16 * (growth n * (P * r)))) by ring. rewrite (Rmult_comm 9), Rmult_assoc. apply Rmult_le_compat_l; lra. }
  replace ((growth n * (1 + d) - 1) * (P * r)) with (d * (growth n * (P * r)) + P * ((growth n - 1) * r)) by ring. lra.
Qed.

(** ** the library always returns something *)
Lemma dots_defined x y : exists z, dots x y z.
Proof.
  destruct x as [a|a], y as [b|b].
  - exists (F32 (fun i j => fma32 (a i 0%nat) (b 0%nat j) (fma32 (a i 1%nat) (b 1%nat j) (fma32 (a i 2%nat) (b 2%nat j) (mul32 (a i 3%nat) (b 3%nat j)))))). constructor.
    intros i j _ _. exists [0; 1; 2; 3]%nat. split; [reflexivity|]. apply (pt_fma (a i) (fun k => b k j) 0), (pt_fma (a i) (fun k => b k j) 1), (pt_fma (a i) (fun k => b k j) 2), (pt_mul (a i) (fun k => b k j) 3).
  - set (a' := as64 (F32 a)). exists (F64 (fun i j => fma64 (a' i 0%nat) (b 0%nat j) (fma64 (a' i 1%nat) (b 1%nat j) (fma64 (a' i 2%nat) (b 2%nat j) (mul64 (a' i 3%nat) (b 3%nat j)))))). constructor; [exact Logic.I|].
    intros i j _ _. exists [0; 1; 2; 3]%nat. split; [reflexivity|]. apply (p6_fma (a' i) (fun k => b k j) 0), (p6_fma (a' i) (fun k => b k j) 1), (p6_fma (a' i) (fun k => b k j) 2), (p6_mul (a' i) (fun k => b k j) 3).
  - set (b' := as64 (F32 b)). exists (F64 (fun i j => fma64 (a i 0%nat) (b' 0%nat j) (fma64 (a i 1%nat) (b' 1%nat j) (fma64 (a i 2%nat) (b' 2%nat j) (mul64 (a i 3%nat) (b' 3%nat j)))))). constructor; [exact Logic.I|].
    intros i j _ _. exists [0; 1; 2; 3]%nat. split; [reflexivity|]. apply (p6_fma (a i) (fun k => b' k j) 0), (p6_fma (a i) (fun k => b' k j) 1), (p6_fma (a i) (fun k => b' k j) 2), (p6_mul (a i) (fun k => b' k j) 3).
  - exists (F64 (fun i j => fma64 (a i 0%nat) (b 0%nat j) (fma64 (a i 1%nat) (b 1%nat j) (fma64 (a i 2%nat) (b 2%nat j) (mul64 (a i 3%nat) (b 3%nat j)))))). constructor; [exact Logic.I|].
    intros i j _ _. exists [0; 1; 2; 3]%nat. split; [reflexivity|]. apply (p6_fma (a i) (fun k => b k j) 0), (p6_fma (a i) (fun k => b k j) 1), (p6_fma (a i) (fun k => b k j) 2), (p6_mul (a i) (fun k => b k j) 3).
Qed.
Lemma compress_from_defined ms : forall first, exists r, compress_from first ms r.
Proof.
  induction ms as [|[m|] ms IH]; intros first.
  - exists first. constructor.
  - destruct first as [f|].
    + destruct (dots_defined m f) as (z & Z). destruct (IH (Some z)) as (r & H). exists r. econstructor; eassumption.
    + destruct (IH (Some m)) as (r & H). exists r. now constructor.
  - destruct (IH first) as (r & H). exists r. now constructor.
Qed.
Lemma compress_defined ms : exists r, compress ms r.
Proof. destruct ms as [|m ms]; [exists None; reflexivity|apply compress_from_defined]. Qed.
Lemma path_defined path inverse : exists r, path_matrix path inverse r.
Proof.
  assert (H : forall ls, exists locals, Forall2 compress ls locals).
  { induction ls as [|l ls (locals & IH)]; [exists []; constructor|]. destruct (compress_defined l) as (o & O1). exists (o :: locals). now constructor. }
  destruct (H (listed path inverse)) as (locals & L). destruct (compress_defined locals) as (m & M). eexists. exists locals, m. split; [exact L|]. split; [exact M|reflexivity].
Qed.
Lemma compress_from_none ms : forall first r, compress_from first ms r -> (r = None <-> (first = None /\ forall o, In o ms -> o = None)).
Proof.
  intros first r H. induction H as [first|first ms r _ IH|item ms r _ IH|first item e ms r D _ IH].
  - split; [intros ->; split; [reflexivity|intros o []]|tauto].
  - rewrite IH. split; intros (H1 & H2); (split; [exact H1|]); intros o; [intros [<-|H]; auto|intros H; apply H2; right; exact H].
  - rewrite IH. split; [intros (H & _); discriminate H|intros (_ & H); discriminate (H _ (or_introl eq_refl))].
  - rewrite IH. split; [intros (H & _); discriminate H|intros (H & _); discriminate H].
Qed.
