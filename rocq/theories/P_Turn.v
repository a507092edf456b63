(** C98: rotation matrices in floating point. *)
From Coq Require Import Reals ZArith List Bool Permutation Lia Lra Psatz.
From Flocq Require Import Core.Core IEEE754.BinarySingleNaN.
From Verif Require Import Rounded_Model Rounded_Proofs Turn_Model Matrix_Model Matrix_Spec Turn_Spec Turn_Proofs.
Import ListNotations.
Local Open Scope list_scope.
Local Open Scope R_scope.

(** The rows of the two matrices are the images of the unit vectors under the
    rotation and its inverse, Rodrigues' formula over the reals, to within
    2^-47; all items are finite.  Any cosine, sine and square root that are off
    by at most one unit in the last place will do. *)
Theorem C98_rotation_near :
  forall turns pow_half cos_ sin_ : b64 -> b64,
  accurate_root pow_half -> accurate cos_ cos -> accurate sin_ sin ->
  forall x y z a R0 R1, rotMatrix64 turns pow_half cos_ sin_ x y z a = Some (R0, R1) -> ordinary x y z a ->
  forall i j, (i < 4)%nat -> (j < 4)%nat ->
  (is_finite (R0 i j) = true /\ Rabs (B2R (R0 i j) - rows (rotate (rotation_of x y z a)) i j) <= bpow radix2 (-47)) /\
  (is_finite (R1 i j) = true /\ Rabs (B2R (R1 i j) - rows (unrotate (rotation_of x y z a)) i j) <= bpow radix2 (-47)).
Proof. exact whole_items. Qed.
Print Assumptions C98_rotation_near.

(** Their products, in either order and computed in any order of additions, with
    or without fused multiply-add, are the identity to within 2^-44. *)
Theorem C98_inverse_near :
  forall turns pow_half cos_ sin_ : b64 -> b64,
  accurate_root pow_half -> accurate cos_ cos -> accurate sin_ sin ->
  forall x y z a R0 R1, rotMatrix64 turns pow_half cos_ sin_ x y z a = Some (R0, R1) -> ordinary x y z a ->
  forall i j v, (i < 4)%nat -> (j < 4)%nat -> product64 R0 R1 i j v \/ product64 R1 R0 i j v ->
  is_finite v = true /\ Rabs (B2R v - same i j) <= bpow radix2 (-44).
Proof. exact whole_product. Qed.
Print Assumptions C98_inverse_near.

(** *** outside the domain *)
Lemma square_cases (v : b64) : is_finite v = true ->
  mul64 v v = B754_infinity false /\ bpow radix2 1024 <= Rabs (rnd64 (B2R v * B2R v)) \/
  is_finite (mul64 v v) = true /\ B2R (mul64 v v) = rnd64 (B2R v * B2R v).
Proof.
  intros F. pose proof (Bmult_correct 53 1024 p53 l1024 mode_NE v v) as H. change (round_mode mode_NE) with ZnearestE in H. fold (rnd64 (B2R v * B2R v)) in H. rewrite F in H.
  destruct (Rlt_bool_spec (Rabs (rnd64 (B2R v * B2R v))) (bpow radix2 1024)) as [L|L].
  - right. destruct H as (H1 & H2 & _). split; assumption.
  - left. split; [|exact L]. rewrite xorb_nilpotent in H. cbn in H. change (Bmult mode_NE v v) with (mul64 v v) in H. destruct (mul64 v v); cbn in H; congruence.
Qed.
Lemma huge_square (v : b64) : is_finite v = true -> bpow radix2 512 <= Rabs (B2R v) -> mul64 v v = B754_infinity false.
Proof.
  intros F L. destruct (square_cases v F) as [(H & _)|(G & E)]; [exact H|exfalso].
  assert (Q : bpow radix2 1024 <= Rabs (B2R v * B2R v)). { rewrite Rabs_mult. change 1024%Z with (512 + 512)%Z. rewrite bpow_plus. apply Rmult_le_compat; auto using bpow_ge_0. }
  assert (P : bpow radix2 1024 <= Rabs (rnd64 (B2R v * B2R v))).
  { apply abs_round_ge_generic; [apply v64|apply valid_rnd_N|apply generic_format_bpow; unfold SpecFloat.fexp, SpecFloat.emin; lia|exact Q]. }
  pose proof (abs_B2R_lt_emax 53 1024 (mul64 v v)) as T. rewrite E in T. lra.
Qed.
Lemma tiny_square (v : b64) : is_finite v = true -> Rabs (B2R v) < bpow radix2 (-538) -> mul64 v v = B754_zero false.
Proof.
  intros F L. set (w := B2R v * B2R v).
  assert (Q : Rabs w < bpow radix2 (-1075)). { unfold w. rewrite Rabs_mult. apply Rlt_le_trans with (bpow radix2 (-538) * bpow radix2 (-538)); [|rewrite <- bpow_plus; apply bpow_le; lia]. pose proof (Rabs_pos (B2R v)). nra. }
  assert (Z : rnd64 w = 0).
  { destruct (Req_dec w 0) as [E|E]; [rewrite E; apply round_0; apply valid_rnd_N|].
    destruct (mag radix2 w) as [ex He]. specialize (He E).
    apply (round_N_small radix2 _ _ w ex He). assert (ex - 1 < -1075)%Z by (apply (lt_bpow radix2); lra). unfold SpecFloat.fexp, SpecFloat.emin. lia. }
  pose proof (Bmult_correct 53 1024 p53 l1024 mode_NE v v) as H. change (round_mode mode_NE) with ZnearestE in H. fold w in H. fold (rnd64 w) in H. rewrite Z, F, Rabs_R0, xorb_nilpotent in H.
  rewrite Rlt_bool_true in H by apply bpow_gt_0. destruct H as (H1 & H2 & H3). change (Bmult mode_NE v v) with (mul64 v v) in *.
  destruct (mul64 v v) as [s|s| |s m e b]; cbn in H2; try discriminate.
  - specialize (H3 eq_refl). cbn in H3. congruence.
  - exfalso. cbn in H1. apply eq_0_F2R in H1. destruct s; discriminate.
Qed.
Lemma over_inf (v : b64) : is_finite v = true -> exists s, div64 v (B754_infinity false) = B754_zero s.
Proof. destruct v as [s|s| |s m e b]; intros; try discriminate; eexists; reflexivity. Qed.
Lemma mul_zero (v : b64) s : is_finite v = true -> exists s', mul64 v (B754_zero s) = B754_zero s'.
Proof. destruct v as [s0|s0| |s0 m e b]; intros; try discriminate; eexists; reflexivity. Qed.
Lemma zero_plus s (v : b64) : is_finite v = true -> B2R (add64 (B754_zero s) v) = B2R v.
Proof. destruct v as [s0|s0| |s0 m e b]; intros; try discriminate; [destruct s, s0; reflexivity|reflexivity]. Qed.
Lemma fin_t (c : b64) : is_finite c = true -> Rabs (B2R c) <= 2 -> is_finite (sub64 one64 c) = true.
Proof.
  intros F L. pose proof (Bminus_correct 53 1024 p53 l1024 mode_NE one64 c eq_refl F) as H. change (round_mode mode_NE) with ZnearestE in H. fold (rnd64 (B2R one64 - B2R c)) in H.
  rewrite Rlt_bool_true in H; [exact (proj1 (proj2 H))|].
  apply Rle_lt_trans with (bpow radix2 2); [|apply bpow_lt; lia].
  apply abs_round_le_generic; [apply v64|apply valid_rnd_N|apply generic_format_bpow; unfold SpecFloat.fexp, SpecFloat.emin; lia|].
  rewrite one64_1. change (bpow radix2 2) with 4. apply Rabs_le_inv in L. apply Rabs_le. lra.
Qed.

(** An axis with a component of 2^512 or more, about 1.3e154: the square is
    infinite, the axis becomes zero and the matrix scales by the cosine. *)
Theorem C98_huge_axis_refuted :
  forall turns pow_half cos_ sin_ : b64 -> b64,
  pow_half (B754_infinity false) = B754_infinity false -> accurate cos_ cos -> accurate sin_ sin ->
  forall x y z a R0 R1, rotMatrix64 turns pow_half cos_ sin_ x y z a = Some (R0, R1) ->
  is_finite x = true -> is_finite y = true -> is_finite z = true -> is_finite a = true -> bpow radix2 512 <= Rabs (B2R x) ->
  forall i j, (i < 3)%nat -> (j < 3)%nat -> B2R (R0 i j) = if Nat.eqb i j then B2R (cos_ a) else 0.
Proof.
  intros turns pow_half cos_ sin_ Hp Hc Hs x y z a R0 R1 H Fx Fy Fz Fa L i j Hi Hj.
  unfold rotMatrix64 in H. destruct (nonzero64 (turns a)); [|discriminate].
  assert (Q : (x * x + y * y + z * z)%b64 = B754_infinity false).
  { assert (Y : forall v, is_finite v = true -> mul64 v v = B754_infinity false \/ is_finite (mul64 v v) = true) by (intros v F; destruct (square_cases v F) as [(A & _)|(A & _)]; auto).
    pose proof (huge_square x Fx L) as Hx.
    assert (P : (x * x + y * y)%b64 = B754_infinity false). { rewrite Hx. destruct (Y y Fy) as [->|B]; [reflexivity|]. destruct (mul64 y y); try discriminate; reflexivity. }
    rewrite P. destruct (Y z Fz) as [->|B]; [reflexivity|]. destruct (mul64 z z); try discriminate; reflexivity. }
  rewrite Q in H. change (eq64 (B754_infinity false) one64) with false in H. cbv iota zeta in H. rewrite Hp in H.
  destruct (over_inf x Fx) as (sx & Ex), (over_inf y Fy) as (sy & Ey), (over_inf z Fz) as (sz & Ez). rewrite Ex, Ey, Ez in H.
  destruct (Hc a Fa) as (Fc & Ac). destruct (Hs a Fa) as (Fs & _).
  assert (Bc : Rabs (B2R (cos_ a)) <= 2).
  { pose proof (COS_bound (B2R a)). apply Rabs_le_inv in Ac. assert (bpow radix2 (-52) <= 1) by (change 1 with (bpow radix2 0); apply bpow_le; lia). apply Rabs_le. lra. }
  pose proof (fin_t _ Fc Bc) as Ft. set (t := sub64 one64 (cos_ a)) in *. set (c := cos_ a) in *. set (s := sin_ a) in *.
  injection H as H _. subst R0.
  destruct (mul_zero t sx Ft) as (tx & Tx), (mul_zero t sy Ft) as (ty & Ty), (mul_zero t sz Ft) as (tz & Tz).
  destruct (mul_zero s sx Fs) as (ux & Ux), (mul_zero s sy Fs) as (uy & Uy), (mul_zero s sz Fs) as (uz & Uz).
  destruct i as [|[|[|?]]], j as [|[|[|?]]]; try lia; unfold rot_items, at64; cbn [nth Nat.eqb]; rewrite ?Tx, ?Ty, ?Tz, ?Ux, ?Uy, ?Uz; try (apply zero_plus; exact Fc);
    repeat match goal with |- context [B754_zero ?s] => is_var s; destruct s end; reflexivity.
Qed.
Print Assumptions C98_huge_axis_refuted.

(** An axis whose components are all below 2^-538, about 1e-162: the length is
    zero, and the items on the diagonal are not numbers. *)
Theorem C98_tiny_axis_refuted :
  forall turns pow_half cos_ sin_ : b64 -> b64,
  pow_half (B754_zero false) = B754_zero false -> accurate cos_ cos ->
  forall x y z a R0 R1, rotMatrix64 turns pow_half cos_ sin_ x y z a = Some (R0, R1) ->
  is_finite x = true -> is_finite y = true -> is_finite z = true -> is_finite a = true ->
  Rabs (B2R x) < bpow radix2 (-538) -> Rabs (B2R y) < bpow radix2 (-538) -> Rabs (B2R z) < bpow radix2 (-538) ->
  forall i, (i < 3)%nat -> is_finite (R0 i i) = false.
Proof.
  intros turns pow_half cos_ sin_ Hp Hc x y z a R0 R1 H Fx Fy Fz Fa Lx Ly Lz i Hi.
  unfold rotMatrix64 in H. destruct (nonzero64 (turns a)); [|discriminate].
  rewrite (tiny_square x Fx Lx), (tiny_square y Fy Ly), (tiny_square z Fz Lz) in H.
  change ((B754_zero false + B754_zero false + B754_zero false)%b64) with (B754_zero false : b64) in H.
  change (eq64 (B754_zero false) one64) with false in H. cbv iota zeta in H. rewrite Hp in H. injection H as H _. subst R0.
  destruct (Hc a Fa) as (Fc & Ac). set (t := sub64 one64 (cos_ a)) in *. set (c := cos_ a) in *.
  assert (D : forall v, is_finite v = true -> is_finite (t * div64 v (B754_zero false) * div64 v (B754_zero false) + c)%b64 = false).
  { intros v Fv. assert (E : div64 v (B754_zero false) = B754_nan \/ exists s, div64 v (B754_zero false) = B754_infinity s) by (destruct v as [s|s| |s m e b]; try discriminate; cbn; eauto).
    destruct E as [->|(s & ->)]; destruct t as [? |? | |? ? ? ?]; destruct c as [? |? | |? ? ? ?]; try discriminate; reflexivity. }
  destruct i as [|[|[|?]]]; try lia; apply D; assumption.
Qed.
Print Assumptions C98_tiny_axis_refuted.

(** *** there are such functions *)
Definition to64 (r : R) : b64 :=
  binary_normalize 53 1024 p53 l1024 mode_NE (Ztrunc (scaled_mantissa radix2 (SpecFloat.fexp 53 1024) (rnd64 r)))
    (cexp radix2 (SpecFloat.fexp 53 1024) (rnd64 r)) false.
Lemma to64_ok r : Rabs r <= 1 -> is_finite (to64 r) = true /\ Rabs (B2R (to64 r) - r) <= bpow radix2 (-52).
Proof.
  intros L. assert (G : generic_format radix2 (SpecFloat.fexp 53 1024) (rnd64 r)) by (apply generic_format_round; [apply v64|apply valid_rnd_N]).
  pose proof (binary_normalize_correct 53 1024 p53 l1024 mode_NE (Ztrunc (scaled_mantissa radix2 (SpecFloat.fexp 53 1024) (rnd64 r))) (cexp radix2 (SpecFloat.fexp 53 1024) (rnd64 r)) false) as H.
  unfold generic_format in G. cbv zeta in H. rewrite <- G in H.
  replace (round radix2 (SpecFloat.fexp 53 1024) (round_mode mode_NE) (rnd64 r)) with (rnd64 r) in H
    by (symmetry; apply round_generic; [apply valid_rnd_N|apply generic_format_round; [apply v64|apply valid_rnd_N]]).
  rewrite Rlt_bool_true in H.
  - destruct H as (H1 & H2 & _). split; [exact H2|]. unfold to64. rewrite H1. pose proof (err64 r) as E. unfold u, eta in E.
    assert (T : bpow radix2 (-52) = bpow radix2 (-53) + bpow radix2 (-53)) by (rewrite <- (Rmult_1_r (bpow radix2 (-53))) at 1; change (-52)%Z with (-53 + 1)%Z; rewrite bpow_plus; change (bpow radix2 1) with 2; lra).
    assert (bpow radix2 (-1075) <= bpow radix2 (-53)) by (apply bpow_le; lia). pose proof (bpow_gt_0 radix2 (-53)). pose proof (Rabs_pos r). nra.
  - apply Rle_lt_trans with (bpow radix2 0); [|apply bpow_lt; lia]. apply abs_round_le_generic; [apply v64|apply valid_rnd_N|apply generic_format_bpow; unfold SpecFloat.fexp, SpecFloat.emin; lia|exact L].
Qed.
Definition cosine (v : b64) : b64 := to64 (cos (B2R v)).
Definition sine (v : b64) : b64 := to64 (sin (B2R v)).
Definition root (v : b64) : b64 := Bsqrt (prec_gt_0_ := p53) (prec_lt_emax_ := l1024) mode_NE v.

Example C98_cosine_ex : accurate cosine cos /\ accurate sine sin.
Proof. split; intros v _; apply to64_ok; apply Rabs_le; [apply COS_bound|apply SIN_bound]. Qed.
Example C98_root_ex : accurate_root root /\ root (B754_infinity false) = B754_infinity false /\ root (B754_zero false) = B754_zero false.
Proof.
  split; [|split; reflexivity]. intros v F P. destruct (Bsqrt_correct 53 1024 p53 l1024 mode_NE v) as (H1 & H2 & _).
  change (round_mode mode_NE) with ZnearestE in H1. fold (rnd64 (sqrt (B2R v))) in H1.
  assert (G : is_finite (root v) = true). { unfold root. rewrite H2. destruct v as [s|s| |s m e b]; try discriminate; [reflexivity|destruct s; [|reflexivity]]. exfalso. cbn in P. assert (F2R (Float radix2 (Z.neg m) e) < 0) by (apply F2R_lt_0; reflexivity). lra. }
  split; [exact G|]. unfold root. rewrite H1. pose proof (err64 (sqrt (B2R v))) as E. unfold u, eta in E.
  assert (A : bpow radix2 (-1074) <= B2R v). { apply (generic_format_ge_bpow radix2 (SpecFloat.fexp 53 1024)); [intros e; unfold SpecFloat.fexp, SpecFloat.emin; lia|exact P|apply generic_format_B2R]. }
  assert (S : bpow radix2 (-537) <= sqrt (B2R v)). { rewrite <- (sqrt_square (bpow radix2 (-537))) by apply bpow_ge_0. apply sqrt_le_1_alt. rewrite <- bpow_plus. exact A. }
  assert (T : bpow radix2 (-52) = bpow radix2 (-53) + bpow radix2 (-53)) by (change (-52)%Z with (-53 + 1)%Z; rewrite bpow_plus; change (bpow radix2 1) with 2; lra).
  assert (U : bpow radix2 (-1075) <= bpow radix2 (-53) * bpow radix2 (-537)) by (rewrite <- bpow_plus; apply bpow_le; lia).
  rewrite (Rabs_pos_eq (sqrt _)) in E by apply sqrt_pos. pose proof (bpow_gt_0 radix2 (-53)). rewrite T. nra.
Qed.

(** the axis (1, 1, 1), turned by one radian *)
Example C98_ordinary_ex : ordinary one64 one64 one64 one64 /\
  exists R0 R1, rotMatrix64 (fun v => v) root cosine sine one64 one64 one64 one64 = Some (R0, R1).
Proof.
  split; [|eexists; eexists; reflexivity]. split; [repeat split; reflexivity|]. rewrite !one64_1. unfold norm3, dot3.
  assert (1 <= sqrt (1 * 1 + 1 * 1 + 1 * 1) <= 2).
  { split; [rewrite <- sqrt_1 at 1|rewrite <- (sqrt_square 2) by lra]; apply sqrt_le_1_alt; lra. }
  assert (bpow radix2 (-500) <= bpow radix2 0) by (apply bpow_le; lia). assert (bpow radix2 1 <= bpow radix2 500) by (apply bpow_le; lia).
  change (bpow radix2 0) with 1 in *. change (bpow radix2 1) with 2 in *. lra.
Qed.
(** 2^600 is a huge axis and 2^-600 a tiny one *)
Definition two600 : b64 := @B754_finite 53 1024 false 4503599627370496 548 eq_refl.
Definition half600 : b64 := @B754_finite 53 1024 false 4503599627370496 (-652) eq_refl.
Example C98_outside_ex : bpow radix2 512 <= Rabs (B2R two600) /\ Rabs (B2R half600) < bpow radix2 (-538) /\
  (exists R0 R1, rotMatrix64 (fun v => v) root cosine sine two600 one64 zero64 one64 = Some (R0, R1)) /\
  (exists R0 R1, rotMatrix64 (fun v => v) root cosine sine half600 zero64 zero64 one64 = Some (R0, R1)).
Proof.
  assert (P : forall e, F2R (Float radix2 4503599627370496 e) = bpow radix2 (52 + e)) by (intros e; unfold F2R; cbn [Fnum Fexp]; rewrite bpow_plus; reflexivity).
  split; [|split; [|split; eexists; eexists; reflexivity]]; unfold two600, half600, B2R; cbn [SpecFloat.cond_Zopp]; rewrite P, Rabs_pos_eq by apply bpow_ge_0; [apply bpow_le|apply bpow_lt]; lia.
Qed.
