(** Products, in binary64, of matrices whose items are known only roughly. *)
From Coq Require Import Reals ZArith List Bool Permutation Lia Lra Psatz.
From Flocq Require Import Core.Core IEEE754.BinarySingleNaN.
From Verif Require Import Rounded_Model Rounded_Proofs Turn_Model Matrix_Model Matrix_Spec Matrix_Proofs Turn_Spec Turn_Proofs Turn32_Model Turn32_Spec.
From Verif Require Turn32_Proofs.
Import ListNotations.
Local Open Scope list_scope.
Local Open Scope R_scope.

Section Rough.
Variables a b : nat -> b64.
Hypothesis Fa : forall k, (k < 4)%nat -> is_finite (a k) = true /\ Rabs (B2R (a k)) <= 11 / 10.
Hypothesis Fb : forall k, (k < 4)%nat -> is_finite (b k) = true /\ Rabs (B2R (b k)) <= 11 / 10.
Let A k := B2R (a k).
Let B k := B2R (b k).
Lemma rough_1 k : (k < 4)%nat -> Rabs (A k * B k) <= 5 / 4.
Proof. intros K. destruct (Fa k K) as (_ & P). destruct (Fb k K) as (_ & Q). unfold A, B. rewrite Rabs_mult. pose proof (Rabs_pos (B2R (a k))). pose proof (Rabs_pos (B2R (b k))). nra. Qed.
Lemma rough_sum l : (forall k, In k l -> (k < 4)%nat) -> Rabs (sum A B l) <= 5 / 4 * INR (length l).
Proof.
  induction l as [|k l IH]; intros L; cbn [sum fold_right length]; [rewrite Rabs_R0; cbn; lra|]. rewrite S_INR. eapply Rle_trans; [apply Rabs_triang|].
  pose proof (rough_1 k (L k (or_introl eq_refl))). specialize (IH (fun j H => L j (or_intror H))). unfold sum in IH. lra.
Qed.
Lemma big8 v : Rabs v <= 8 -> Rabs v <= bpow radix2 1010.
Proof. intros H. apply Rle_trans with (8 * 1); [lra|]. apply (M_big 1 one_lo one_hi 8). lra. Qed.
Lemma rough_B2R v r k : ok 1 v r k -> 0 <= k <= 2000 -> Rabs r <= 5 -> Rabs (B2R v) <= 8.
Proof.
  intros (_ & H) K R4. pose proof u_pos. pose proof u_small. replace (B2R v) with (r + (B2R v - r)) by ring. eapply Rle_trans; [apply Rabs_triang|].
  assert (k * u <= 1) by nra. lra.
Qed.
Definition share (n : nat) : R := 8 * INR n - 6.
Lemma rough_partial l v : partial64 a b l v -> (forall k, In k l -> (k < 4)%nat) -> (length l <= 4)%nat ->
  (l = [] -> is_finite v = true /\ B2R v = 0) /\ (l <> [] -> ok 1 v (sum A B l) (share (length l))).
Proof.
  induction 1 as [|k|l1 l2 w v H1 IH1 H2 IH2|k l w H IH]; intros L N.
  - split; [intros _; split; reflexivity|congruence].
  - split; [discriminate|intros _]. assert (K : (k < 4)%nat) by (apply L; left; reflexivity). destruct (Fa k K) as (FA & _). destruct (Fb k K) as (FB & _). pose proof (rough_1 k K) as P.
    destruct (mul64_r (a k) (b k) FA FB) as (F & E); [apply big8; fold (A k) (B k); lra|].
    unfold share. cbn [length INR sum fold_right]. rewrite Rplus_0_r. apply (ok_le 1 one_lo) with (0 + 5 / 4 + / 16); [|lra].
    apply (rounded 1 one_lo _ _ _ _ _ F E); fold (A k) (B k); [rewrite Rminus_diag_eq, Rabs_R0 by reflexivity; lra|lra|lra|lra].
  - rewrite app_length in N. destruct (IH1 ltac:(intros; apply L, in_or_app; auto) ltac:(lia)) as (E1 & O1). destruct (IH2 ltac:(intros; apply L, in_or_app; auto) ltac:(lia)) as (E2 & O2).
    rewrite sum_app, app_length.
    destruct l1 as [|k1 l1].
    + destruct (E1 eq_refl) as (F1 & R1). cbn [app sum fold_right length Nat.add]. rewrite Rplus_0_l. split.
      * intros ->. destruct (E2 eq_refl) as (F2 & R2). destruct (add64_r w v F1 F2) as (F & E); [rewrite R1, R2, Rplus_0_l, Rabs_R0; apply bpow_ge_0|]. split; [exact F|].
        rewrite E, R1, R2, Rplus_0_l. apply round_0. apply valid_rnd_N.
      * intros NE. specialize (O2 NE). pose proof O2 as (F2 & D2). assert (1 <= length l2)%nat by (destruct l2; [congruence|cbn; lia]). cbn [length] in N.
        pose proof (len_4 (length l2) ltac:(lia)) as P. pose proof (rough_sum l2 ltac:(intros; apply L, in_or_app; auto)) as S2.
        assert (B5 : Rabs (B2R v) <= 8) by (eapply rough_B2R; [exact O2|unfold share; lra|lra]).
        destruct (add64_r w v F1 F2) as (F & E); [rewrite R1, Rplus_0_l; apply big8, B5|]. split; [exact F|]. rewrite E, R1, Rplus_0_l, rnd64_B2R. exact D2.
    + split; [discriminate|intros _]. specialize (O1 ltac:(discriminate)). cbn [length] in *. set (n1 := S (length l1)) in *.
      assert (P1 := len_4 n1 ltac:(unfold n1; lia)). pose proof (rough_sum (k1 :: l1) ltac:(intros; apply L, in_or_app; auto)) as S1. cbn [length] in S1. fold n1 in S1.
      destruct l2 as [|k2 l2].
      * destruct (E2 eq_refl) as (F2 & R2). pose proof O1 as (F1 & D1). cbn [length]. rewrite Nat.add_0_r. change (sum A B []) with 0. rewrite Rplus_0_r.
        assert (B5 : Rabs (B2R w) <= 8) by (eapply rough_B2R; [exact O1|unfold share; lra|lra]).
        destruct (add64_r w v F1 F2) as (F & E); [rewrite R2, Rplus_0_r; apply big8, B5|]. split; [exact F|]. rewrite E, R2, Rplus_0_r, rnd64_B2R. exact D1.
      * specialize (O2 ltac:(discriminate)). pose proof (rough_sum (k2 :: l2) ltac:(intros; apply L, in_or_app; auto)) as S2. cbn [length] in *. set (n2 := S (length l2)) in *.
        assert (P2 := len_4 n2 ltac:(unfold n1, n2 in *; lia)). assert (P3 := len_4 (n1 + n2) ltac:(unfold n1, n2 in *; lia)). rewrite plus_INR in P3.
        assert (S3 : Rabs (sum A B (k1 :: l1) + sum A B (k2 :: l2)) <= 5 * 1) by (eapply Rle_trans; [apply Rabs_triang|]; lra).
        eapply ok_le; [exact one_lo|eapply (add_near 1 one_lo one_hi _ _ _ _ _ _ 5 O1 O2 S3); unfold share; lra|]. unfold share. rewrite plus_INR. lra.
  - split; [discriminate|intros _]. cbn [length] in N. assert (K : (k < 4)%nat) by (apply L; left; reflexivity). destruct (Fa k K) as (FA & _). destruct (Fb k K) as (FB & _).
    destruct (IH ltac:(intros; apply L; right; assumption) ltac:(lia)) as (E0 & O0).
    pose proof (rough_1 k K) as P1. pose proof u_pos as U. pose proof u_small as U1. cbn [sum fold_right]. fold (sum A B l).
    assert (W : exists kw, is_finite w = true /\ Rabs (B2R w - sum A B l) <= kw * u * 1 /\ Rabs (sum A B l) <= 15 / 4 /\ 0 <= kw <= 400 /\ (l <> [] -> kw + 8 <= share (S (length l))) /\ (l = [] -> kw = 0)).
    { pose proof (rough_sum l ltac:(intros; apply L; right; assumption)) as S1. assert (N3 : INR (length l) <= 3) by (replace 3 with (INR 3) by (cbn; lra); apply le_INR; lia).
      destruct l as [|k' l].
      - destruct (E0 eq_refl) as (F & ->). exists 0. split; [exact F|]. cbn. rewrite Rminus_0_r, Rabs_R0. repeat split; try lra. congruence.
      - specialize (O0 ltac:(discriminate)). destruct O0 as (F & D0). exists (share (length (k' :: l))). split; [exact F|]. split; [exact D0|].
        assert (1 <= INR (length (k' :: l))) by (apply (le_INR 1); cbn [length]; lia). unfold share. rewrite S_INR. repeat split; try lra. discriminate. }
    destruct W as (kw & Fw & Dw & Sw & Kw & Bw & Bw0).
    set (v := B2R (a k) * B2R (b k) + B2R w).
    assert (V : Rabs (v - (A k * B k + sum A B l)) <= kw * u * 1).
    { unfold v. fold (A k) (B k). replace (A k * B k + B2R w - (A k * B k + sum A B l)) with (B2R w - sum A B l) by ring. exact Dw. }
    assert (S4 : Rabs (A k * B k + sum A B l) <= 5 * 1) by (eapply Rle_trans; [apply Rabs_triang|]; lra).
    destruct (fma64_r (a k) (b k) w FA FB Fw) as (F & E).
    { fold v. apply big8. replace v with ((A k * B k + sum A B l) + (v - (A k * B k + sum A B l))) by ring. eapply Rle_trans; [apply Rabs_triang|].
      assert (kw * u <= 1) by nra. lra. }
    fold v in E. destruct l as [|k' l].
    + rewrite (Bw0 eq_refl) in V. change (sum A B []) with 0 in *. rewrite Rplus_0_r in *. apply (ok_le 1 one_lo) with (0 + 5 / 4 + / 16); [|unfold share; cbn; lra].
      apply (rounded 1 one_lo _ _ _ _ _ F E V); lra.
    + specialize (Bw ltac:(discriminate)). apply (ok_le 1 one_lo) with (kw + 5 + / 16); [|cbn [length] in *; lra]. apply (rounded 1 one_lo _ _ _ _ _ F E V S4); lra.
Qed.
End Rough.

Lemma widen_ok (v : b32) : is_finite v = true -> is_finite (widen v) = true /\ B2R (widen v) = B2R v.
Proof.
  destruct v as [s|s| |s m e b]; intros F; try discriminate; [split; reflexivity|]. cbn [widen].
  pose proof (binary_normalize_correct 53 1024 p53 l1024 mode_NE (SpecFloat.cond_Zopp s (Zpos m)) e s) as H. cbv zeta in H.
  set (r := F2R (Float radix2 (SpecFloat.cond_Zopp s (Zpos m)) e)) in *.
  assert (G : generic_format radix2 (SpecFloat.fexp 24 128) r) by exact (generic_format_B2R 24 128 (B754_finite s m e b)).
  assert (G' : generic_format radix2 (SpecFloat.fexp 53 1024) r).
  { apply (generic_inclusion_mag radix2 (SpecFloat.fexp 24 128)); [|exact G]. intros _. unfold SpecFloat.fexp, SpecFloat.emin. lia. }
  rewrite round_generic in H; [|apply valid_rnd_round_mode|exact G'].
  rewrite Rlt_bool_true in H; [destruct H as (H1 & H2 & _); split; [exact H2|exact H1]|].
  apply Rlt_trans with (bpow radix2 128); [exact (abs_B2R_lt_emax 24 128 (B754_finite s m e b))|apply bpow_lt; lia].
Qed.

(** exact products of roughly known rows and columns *)
Lemma rough_exact (a b A B : nat -> R) d : 0 <= d <= / 1000 ->
  (forall k, (k < 4)%nat -> Rabs (a k - A k) <= d /\ Rabs (A k) <= 1) -> (forall k, (k < 4)%nat -> Rabs (b k - B k) <= d /\ Rabs (B k) <= 1) ->
  Rabs (sum a b [0;1;2;3]%nat - (A 0%nat * B 0%nat + A 1%nat * B 1%nat + A 2%nat * B 2%nat + A 3%nat * B 3%nat)) <= 4 * (2 * d + d * d).
Proof.
  intros D HA HB.
  assert (G : forall k, (k < 4)%nat -> Rabs (a k * b k - A k * B k) <= 2 * d + d * d).
  { intros k K. destruct (HA k K) as (DA & NA). destruct (HB k K) as (DB & NB).
    replace (a k * b k - A k * B k) with (A k * (b k - B k) + (B k * (a k - A k) + (a k - A k) * (b k - B k))) by ring.
    eapply Rle_trans; [apply Rabs_triang|]. eapply Rle_trans; [apply Rplus_le_compat_l, Rabs_triang|]. rewrite !Rabs_mult.
    pose proof (Rabs_pos (A k)). pose proof (Rabs_pos (B k)). pose proof (Rabs_pos (a k - A k)). pose proof (Rabs_pos (b k - B k)).
    assert (Rabs (A k) * Rabs (b k - B k) <= 1 * d) by (apply Rmult_le_compat; lra). assert (Rabs (B k) * Rabs (a k - A k) <= 1 * d) by (apply Rmult_le_compat; lra).
    assert (Rabs (a k - A k) * Rabs (b k - B k) <= d * d) by (apply Rmult_le_compat; lra). lra. }
  pose proof (G 0%nat ltac:(lia)) as G0. pose proof (G 1%nat ltac:(lia)) as G1. pose proof (G 2%nat ltac:(lia)) as G2. pose proof (G 3%nat ltac:(lia)) as G3.
  unfold sum. cbn [fold_right]. apply Rabs_le_inv in G0, G1, G2, G3. apply Rabs_le. lra.
Qed.

Section Whole.
Variables turns pow_half cos_ sin_ : b32 -> b32.
Hypothesis Hpow : accurate_root32 pow_half.
Hypothesis Hcos : accurate32 cos_ cos.
Hypothesis Hsin : accurate32 sin_ sin.
Lemma wide_items x y z a R0 R1 : rotMatrix32 turns pow_half cos_ sin_ x y z a = Some (R0, R1) -> ordinary32 x y z a ->
  forall i j, (i < 4)%nat -> (j < 4)%nat ->
  (is_finite (widened R0 i j) = true /\ Rabs (B2R (widened R0 i j) - rows (rotate (rotation_of32 x y z a)) i j) <= bpow radix2 (-18)) /\
  (is_finite (widened R1 i j) = true /\ Rabs (B2R (widened R1 i j) - rows (unrotate (rotation_of32 x y z a)) i j) <= bpow radix2 (-18)).
Proof.
  intros E O i j Hi Hj. destruct (Turn32_Proofs.whole_items turns pow_half cos_ sin_ Hpow Hcos Hsin x y z a R0 R1 E O i j Hi Hj) as ((F & D) & (F1 & D1)).
  unfold widened. destruct (widen_ok _ F) as (F' & E'). destruct (widen_ok _ F1) as (F1' & E1'). rewrite E', E1'. auto.
Qed.
Lemma wide_product x y z a R0 R1 : rotMatrix32 turns pow_half cos_ sin_ x y z a = Some (R0, R1) -> ordinary32 x y z a ->
  forall i j v, (i < 4)%nat -> (j < 4)%nat -> product64 (widened R0) (widened R1) i j v \/ product64 (widened R1) (widened R0) i j v ->
  is_finite v = true /\ Rabs (B2R v - same i j) <= bpow radix2 (-15).
Proof.
  intros E O i j v Hi Hj H. pose proof (Turn32_Proofs.whole turns pow_half cos_ sin_ Hpow Hcos Hsin x y z a R0 R1 E O) as W. cbv zeta in W. destruct W as (N & U1 & U2 & W).
  set (X := B2R x / _) in *. set (Y := B2R y / _) in *. set (Z := B2R z / _) in *. set (C := cos (B2R a)) in *. set (S0 := sin (B2R a)) in *.
  change Turn32_Proofs.exact_items with exact_items in W.
  set (d := 53 * bpow radix2 (-24)).
  assert (D : 0 <= d <= / 1000). { unfold d. change (bpow radix2 (-24)) with (/ IZR 16777216). lra. }
  assert (G : forall A B a b, (forall k, (k < 4)%nat -> is_finite (a k) = true /\ Rabs (B2R (a k) - A k) <= d /\ Rabs (A k) <= 1) ->
    (forall k, (k < 4)%nat -> is_finite (b k) = true /\ Rabs (B2R (b k) - B k) <= d /\ Rabs (B k) <= 1) ->
    forall l, Permutation l [0; 1; 2; 3]%nat -> partial64 a b l v -> A 0%nat * B 0%nat + A 1%nat * B 1%nat + A 2%nat * B 2%nat + A 3%nat * B 3%nat = same i j ->
    is_finite v = true /\ Rabs (B2R v - same i j) <= bpow radix2 (-15)).
  { intros A B a0 b0 OA OB l P PV SE. pose proof (Permutation_length P) as LL. cbn [length] in LL.
    assert (L1 : forall (w c : R), Rabs (w - c) <= d -> Rabs c <= 1 -> Rabs w <= 11 / 10) by (intros w c Q1 Q2; apply Rabs_le_inv in Q1, Q2; apply Rabs_le; lra).
    destruct (rough_partial a0 b0) with (l := l) (v := v) as (_ & OK).
    - intros k K. destruct (OA k K) as (F & Q1 & Q2). split; [exact F|]. eapply L1; eassumption.
    - intros k K. destruct (OB k K) as (F & Q1 & Q2). split; [exact F|]. eapply L1; eassumption.
    - exact PV.
    - intros k K. apply (Permutation_in _ P) in K. cbn in K. lia.
    - lia.
    - specialize (OK ltac:(intros ->; discriminate)). rewrite LL, (sum_perm _ _ _ _ P) in OK. destruct OK as (F & Q). split; [exact F|].
      pose proof (rough_exact (fun k => B2R (a0 k)) (fun k => B2R (b0 k)) A B d D (fun k K => proj2 (OA k K)) (fun k K => proj2 (OB k K))) as T. rewrite SE in T.
      set (q := sum _ _ _) in *. replace (B2R v - same i j) with ((B2R v - q) + (q - same i j)) by ring. eapply Rle_trans; [apply Rabs_triang|].
      assert (Q' : share 4 * u * 1 <= / 1000000000000). { unfold share, u. cbn [INR]. change (bpow radix2 (-53)) with (/ IZR 9007199254740992). lra. }
      assert (T' : 4 * (2 * d + d * d) + / 1000000000000 <= bpow radix2 (-15)). { unfold d. change (bpow radix2 (-24)) with (/ IZR 16777216). change (bpow radix2 (-15)) with (/ IZR 32768). lra. }
      lra. }
  pose proof (exact_1 X Y Z C S0 U1 U2) as B1.
  assert (I0 : forall k m, (k < 4)%nat -> (m < 4)%nat -> is_finite (widened R0 k m) = true /\ Rabs (B2R (widened R0 k m) - exact_items X Y Z C S0 (1 - C) k m) <= d).
  { intros k m K M. destruct (W k m K M) as ((F & Q) & _). unfold widened. destruct (widen_ok _ F) as (F' & E'). split; [exact F'|]. rewrite E'. unfold Turn32_Proofs.u in Q. unfold d. lra. }
  assert (I1 : forall k m, (k < 4)%nat -> (m < 4)%nat -> is_finite (widened R1 k m) = true /\ Rabs (B2R (widened R1 k m) - exact_items X Y Z C (- S0) (1 - C) k m) <= d).
  { intros k m K M. destruct (W k m K M) as (_ & (F & Q)). unfold widened. destruct (widen_ok _ F) as (F' & E'). split; [exact F'|]. rewrite E'. unfold Turn32_Proofs.u in Q. unfold d. lra. }
  destruct H as [(l & P & H)|(l & P & H)].
  - eapply (G (exact_items X Y Z C S0 (1 - C) i) (fun k => exact_items X Y Z C (- S0) (1 - C) k j)); [| |exact P|exact H|].
    + intros k K. destruct (I0 i k Hi K). repeat split; try assumption. apply B1; assumption.
    + intros k K. destruct (I1 k j K Hj). repeat split; try assumption. apply B1; assumption.
    + apply (exact_inverse X Y Z C S0 U1 U2 i j Hi Hj).
  - eapply (G (exact_items X Y Z C (- S0) (1 - C) i) (fun k => exact_items X Y Z C S0 (1 - C) k j)); [| |exact P|exact H|].
    + intros k K. destruct (I1 i k Hi K). repeat split; try assumption. apply B1; assumption.
    + intros k K. destruct (I0 k j K Hj). repeat split; try assumption. apply B1; assumption.
    + assert (U2' : C * C + - S0 * - S0 = 1) by lra. pose proof (proj1 (exact_inverse X Y Z C (- S0) U1 U2' i j Hi Hj)) as T. cbv zeta in T. rewrite Ropp_involutive in T. exact T.
Qed.
End Whole.
