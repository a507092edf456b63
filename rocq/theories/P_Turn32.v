(** C98, for the float32 values of SFRotation fields. *)
From Coq Require Import Reals ZArith List Bool Permutation Lia Lra Psatz.
From Flocq Require Import Core.Core IEEE754.BinarySingleNaN.
From Verif Require Import Rounded_Model Rounded_Proofs Turn_Model Matrix_Model Matrix_Spec Turn_Spec Turn32_Model Turn32_Spec Turn32_Proofs.
From Verif Require TurnWide_Proofs.
Import ListNotations.
Local Open Scope list_scope.
Local Open Scope R_scope.

(** As C98_rotation_near: the bound is 2^-18. *)
Theorem C98_field_rotation_near :
  forall turns pow_half cos_ sin_ : b32 -> b32,
  accurate_root32 pow_half -> accurate32 cos_ cos -> accurate32 sin_ sin ->
  forall x y z a R0 R1, rotMatrix32 turns pow_half cos_ sin_ x y z a = Some (R0, R1) -> ordinary32 x y z a ->
  forall i j, (i < 4)%nat -> (j < 4)%nat ->
  (is_finite (widened R0 i j) = true /\ Rabs (B2R (widened R0 i j) - rows (rotate (rotation_of32 x y z a)) i j) <= bpow radix2 (-18)) /\
  (is_finite (widened R1 i j) = true /\ Rabs (B2R (widened R1 i j) - rows (unrotate (rotation_of32 x y z a)) i j) <= bpow radix2 (-18)).
Proof. exact TurnWide_Proofs.wide_items. Qed.
Print Assumptions C98_field_rotation_near.

(** The products are the identity to within 2^-15, computed in float64, as the
    arrays are, or in float32. *)
Theorem C98_field_inverse_near :
  forall turns pow_half cos_ sin_ : b32 -> b32,
  accurate_root32 pow_half -> accurate32 cos_ cos -> accurate32 sin_ sin ->
  forall x y z a R0 R1, rotMatrix32 turns pow_half cos_ sin_ x y z a = Some (R0, R1) -> ordinary32 x y z a ->
  forall i j, (i < 4)%nat -> (j < 4)%nat ->
  (forall v, product64 (widened R0) (widened R1) i j v \/ product64 (widened R1) (widened R0) i j v ->
   is_finite v = true /\ Rabs (B2R v - same i j) <= bpow radix2 (-15)) /\
  (forall v, product32 R0 R1 i j v \/ product32 R1 R0 i j v ->
   is_finite v = true /\ Rabs (B2R v - same i j) <= bpow radix2 (-15)).
Proof.
  intros turns pow_half cos_ sin_ Hp Hc Hs x y z a R0 R1 E O i j Hi Hj. split; intros v.
  - apply (TurnWide_Proofs.wide_product turns pow_half cos_ sin_ Hp Hc Hs x y z a R0 R1 E O i j v Hi Hj).
  - apply (whole_product turns pow_half cos_ sin_ Hp Hc Hs x y z a R0 R1 E O i j v Hi Hj).
Qed.
Print Assumptions C98_field_inverse_near.

(** *** outside the domain *)
Lemma square_cases (v : b32) : is_finite v = true ->
  mul32 v v = B754_infinity false /\ bpow radix2 128 <= Rabs (rnd32 (B2R v * B2R v)) \/
  is_finite (mul32 v v) = true /\ B2R (mul32 v v) = rnd32 (B2R v * B2R v).
Proof.
  intros F. pose proof (Bmult_correct 24 128 p24 l128 mode_NE v v) as H. change (round_mode mode_NE) with ZnearestE in H. fold (rnd32 (B2R v * B2R v)) in H. rewrite F in H.
  destruct (Rlt_bool_spec (Rabs (rnd32 (B2R v * B2R v))) (bpow radix2 128)) as [L|L].
  - right. destruct H as (H1 & H2 & _). split; assumption.
  - left. split; [|exact L]. rewrite xorb_nilpotent in H. cbn in H. change (Bmult mode_NE v v) with (mul32 v v) in H. destruct (mul32 v v); cbn in H; congruence.
Qed.
Lemma huge_square (v : b32) : is_finite v = true -> bpow radix2 64 <= Rabs (B2R v) -> mul32 v v = B754_infinity false.
Proof.
  intros F L. destruct (square_cases v F) as [(H & _)|(G & E)]; [exact H|exfalso].
  assert (Q : bpow radix2 128 <= Rabs (B2R v * B2R v)). { rewrite Rabs_mult. change 128%Z with (64 + 64)%Z. rewrite bpow_plus. apply Rmult_le_compat; auto using bpow_ge_0. }
  assert (P : bpow radix2 128 <= Rabs (rnd32 (B2R v * B2R v))).
  { apply abs_round_ge_generic; [apply v32|apply valid_rnd_N|apply generic_format_bpow; unfold SpecFloat.fexp, SpecFloat.emin; lia|exact Q]. }
  pose proof (abs_B2R_lt_emax 24 128 (mul32 v v)) as T. rewrite E in T. lra.
Qed.
Lemma tiny_square (v : b32) : is_finite v = true -> Rabs (B2R v) < bpow radix2 (-75) -> mul32 v v = B754_zero false.
Proof.
  intros F L. set (w := B2R v * B2R v).
  assert (Q : Rabs w < bpow radix2 (-150)). { unfold w. rewrite Rabs_mult. apply Rlt_le_trans with (bpow radix2 (-75) * bpow radix2 (-75)); [|rewrite <- bpow_plus; apply bpow_le; lia]. pose proof (Rabs_pos (B2R v)). nra. }
  assert (Z : rnd32 w = 0).
  { destruct (Req_dec w 0) as [E|E]; [rewrite E; apply round_0; apply valid_rnd_N|].
    destruct (mag radix2 w) as [ex He]. specialize (He E).
    apply (round_N_small radix2 _ _ w ex He). assert (ex - 1 < -150)%Z by (apply (lt_bpow radix2); lra). unfold SpecFloat.fexp, SpecFloat.emin. lia. }
  pose proof (Bmult_correct 24 128 p24 l128 mode_NE v v) as H. change (round_mode mode_NE) with ZnearestE in H. fold w in H. fold (rnd32 w) in H. rewrite Z, F, Rabs_R0, xorb_nilpotent in H.
  rewrite Rlt_bool_true in H by apply bpow_gt_0. destruct H as (H1 & H2 & H3). change (Bmult mode_NE v v) with (mul32 v v) in *.
  destruct (mul32 v v) as [s|s| |s m e b]; cbn in H2; try discriminate.
  - specialize (H3 eq_refl). cbn in H3. congruence.
  - exfalso. cbn in H1. apply eq_0_F2R in H1. destruct s; discriminate.
Qed.
Lemma over_inf (v : b32) : is_finite v = true -> exists s, div32 v (B754_infinity false) = B754_zero s.
Proof. destruct v as [s|s| |s m e b]; intros; try discriminate; eexists; reflexivity. Qed.
Lemma mul_zero (v : b32) s : is_finite v = true -> exists s', mul32 v (B754_zero s) = B754_zero s'.
Proof. destruct v as [s0|s0| |s0 m e b]; intros; try discriminate; eexists; reflexivity. Qed.
Lemma zero_plus s (v : b32) : is_finite v = true -> B2R (add32 (B754_zero s) v) = B2R v.
Proof. destruct v as [s0|s0| |s0 m e b]; intros; try discriminate; [destruct s, s0; reflexivity|reflexivity]. Qed.
Lemma fin_t (c : b32) : is_finite c = true -> Rabs (B2R c) <= 2 -> is_finite (sub32 one32 c) = true.
Proof.
  intros F L. pose proof (Bminus_correct 24 128 p24 l128 mode_NE one32 c eq_refl F) as H. change (round_mode mode_NE) with ZnearestE in H. fold (rnd32 (B2R one32 - B2R c)) in H.
  rewrite Rlt_bool_true in H; [exact (proj1 (proj2 H))|].
  apply Rle_lt_trans with (bpow radix2 2); [|apply bpow_lt; lia].
  apply abs_round_le_generic; [apply v32|apply valid_rnd_N|apply generic_format_bpow; unfold SpecFloat.fexp, SpecFloat.emin; lia|].
  rewrite one32_1. change (bpow radix2 2) with 4. apply Rabs_le_inv in L. apply Rabs_le. lra.
Qed.

(** An axis with a component of 2^64 or more, about 1.8e19: the square is
    infinite, the axis becomes zero and the matrix scales by the cosine. *)
Theorem C98_field_huge_axis_refuted :
  forall turns pow_half cos_ sin_ : b32 -> b32,
  pow_half (B754_infinity false) = B754_infinity false -> accurate32 cos_ cos -> accurate32 sin_ sin ->
  forall x y z a R0 R1, rotMatrix32 turns pow_half cos_ sin_ x y z a = Some (R0, R1) ->
  is_finite x = true -> is_finite y = true -> is_finite z = true -> is_finite a = true -> bpow radix2 64 <= Rabs (B2R x) ->
  forall i j, (i < 3)%nat -> (j < 3)%nat -> B2R (R0 i j) = if Nat.eqb i j then B2R (cos_ a) else 0.
Proof.
  intros turns pow_half cos_ sin_ Hp Hc Hs x y z a R0 R1 H Fx Fy Fz Fa L i j Hi Hj.
  unfold rotMatrix32 in H. destruct (nonzero32 (turns a)); [|discriminate].
  assert (Q : (x * x + y * y + z * z)%b32 = B754_infinity false).
  { assert (Y : forall v, is_finite v = true -> mul32 v v = B754_infinity false \/ is_finite (mul32 v v) = true) by (intros v F; destruct (square_cases v F) as [(A & _)|(A & _)]; auto).
    pose proof (huge_square x Fx L) as Hx.
    assert (P : (x * x + y * y)%b32 = B754_infinity false). { rewrite Hx. destruct (Y y Fy) as [->|B]; [reflexivity|]. destruct (mul32 y y); try discriminate; reflexivity. }
    rewrite P. destruct (Y z Fz) as [->|B]; [reflexivity|]. destruct (mul32 z z); try discriminate; reflexivity. }
  rewrite Q in H. change (eq32 (B754_infinity false) one32) with false in H. cbv iota zeta in H. rewrite Hp in H.
  destruct (over_inf x Fx) as (sx & Ex), (over_inf y Fy) as (sy & Ey), (over_inf z Fz) as (sz & Ez). rewrite Ex, Ey, Ez in H.
  destruct (Hc a Fa) as (Fc & Ac). destruct (Hs a Fa) as (Fs & _).
  assert (Bc : Rabs (B2R (cos_ a)) <= 2).
  { pose proof (COS_bound (B2R a)). apply Rabs_le_inv in Ac. assert (bpow radix2 (-23) <= 1) by (change 1 with (bpow radix2 0); apply bpow_le; lia). apply Rabs_le. lra. }
  pose proof (fin_t _ Fc Bc) as Ft. set (t := sub32 one32 (cos_ a)) in *. set (c := cos_ a) in *. set (s := sin_ a) in *.
  injection H as H _. subst R0.
  destruct (mul_zero t sx Ft) as (tx & Tx), (mul_zero t sy Ft) as (ty & Ty), (mul_zero t sz Ft) as (tz & Tz).
  destruct (mul_zero s sx Fs) as (ux & Ux), (mul_zero s sy Fs) as (uy & Uy), (mul_zero s sz Fs) as (uz & Uz).
  destruct i as [|[|[|?]]], j as [|[|[|?]]]; try lia; unfold rot_items32, at32; cbn [nth Nat.eqb]; rewrite ?Tx, ?Ty, ?Tz, ?Ux, ?Uy, ?Uz; try (apply zero_plus; exact Fc);
    repeat match goal with |- context [B754_zero ?s] => is_var s; destruct s end; reflexivity.
Qed.
Print Assumptions C98_field_huge_axis_refuted.

(** An axis whose components are all below 2^-75, about 2.6e-23: the length is
    zero, and the items on the diagonal are not numbers. *)
Theorem C98_field_tiny_axis_refuted :
  forall turns pow_half cos_ sin_ : b32 -> b32,
  pow_half (B754_zero false) = B754_zero false -> accurate32 cos_ cos ->
  forall x y z a R0 R1, rotMatrix32 turns pow_half cos_ sin_ x y z a = Some (R0, R1) ->
  is_finite x = true -> is_finite y = true -> is_finite z = true -> is_finite a = true ->
  Rabs (B2R x) < bpow radix2 (-75) -> Rabs (B2R y) < bpow radix2 (-75) -> Rabs (B2R z) < bpow radix2 (-75) ->
  forall i, (i < 3)%nat -> is_finite (R0 i i) = false.
Proof.
  intros turns pow_half cos_ sin_ Hp Hc x y z a R0 R1 H Fx Fy Fz Fa Lx Ly Lz i Hi.
  unfold rotMatrix32 in H. destruct (nonzero32 (turns a)); [|discriminate].
  rewrite (tiny_square x Fx Lx), (tiny_square y Fy Ly), (tiny_square z Fz Lz) in H.
  change ((B754_zero false + B754_zero false + B754_zero false)%b32) with (B754_zero false : b32) in H.
  change (eq32 (B754_zero false) one32) with false in H. cbv iota zeta in H. rewrite Hp in H. injection H as H _. subst R0.
  destruct (Hc a Fa) as (Fc & Ac). set (t := sub32 one32 (cos_ a)) in *. set (c := cos_ a) in *.
  assert (D : forall v, is_finite v = true -> is_finite (t * div32 v (B754_zero false) * div32 v (B754_zero false) + c)%b32 = false).
  { intros v Fv. assert (E : div32 v (B754_zero false) = B754_nan \/ exists s, div32 v (B754_zero false) = B754_infinity s) by (destruct v as [s|s| |s m e b]; try discriminate; cbn; eauto).
    destruct E as [->|(s & ->)]; destruct t as [? |? | |? ? ? ?]; destruct c as [? |? | |? ? ? ?]; try discriminate; reflexivity. }
  destruct i as [|[|[|?]]]; try lia; apply D; assumption.
Qed.
Print Assumptions C98_field_tiny_axis_refuted.

(** *** there are such functions *)
Definition to32 (r : R) : b32 :=
  binary_normalize 24 128 p24 l128 mode_NE (Ztrunc (scaled_mantissa radix2 (SpecFloat.fexp 24 128) (rnd32 r)))
    (cexp radix2 (SpecFloat.fexp 24 128) (rnd32 r)) false.
Lemma to64_ok r : Rabs r <= 1 -> is_finite (to32 r) = true /\ Rabs (B2R (to32 r) - r) <= bpow radix2 (-23).
Proof.
  intros L. assert (G : generic_format radix2 (SpecFloat.fexp 24 128) (rnd32 r)) by (apply generic_format_round; [apply v32|apply valid_rnd_N]).
  pose proof (binary_normalize_correct 24 128 p24 l128 mode_NE (Ztrunc (scaled_mantissa radix2 (SpecFloat.fexp 24 128) (rnd32 r))) (cexp radix2 (SpecFloat.fexp 24 128) (rnd32 r)) false) as H.
  unfold generic_format in G. cbv zeta in H. rewrite <- G in H.
  replace (round radix2 (SpecFloat.fexp 24 128) (round_mode mode_NE) (rnd32 r)) with (rnd32 r) in H
    by (symmetry; apply round_generic; [apply valid_rnd_N|apply generic_format_round; [apply v32|apply valid_rnd_N]]).
  rewrite Rlt_bool_true in H.
  - destruct H as (H1 & H2 & _). split; [exact H2|]. unfold to32. rewrite H1. pose proof (err32 r) as E. unfold u, eta in E.
    assert (T : bpow radix2 (-23) = bpow radix2 (-24) + bpow radix2 (-24)) by (rewrite <- (Rmult_1_r (bpow radix2 (-24))) at 1; change (-23)%Z with (-24 + 1)%Z; rewrite bpow_plus; change (bpow radix2 1) with 2; lra).
    assert (bpow radix2 (-150) <= bpow radix2 (-24)) by (apply bpow_le; lia). pose proof (bpow_gt_0 radix2 (-24)). pose proof (Rabs_pos r). nra.
  - apply Rle_lt_trans with (bpow radix2 0); [|apply bpow_lt; lia]. apply abs_round_le_generic; [apply v32|apply valid_rnd_N|apply generic_format_bpow; unfold SpecFloat.fexp, SpecFloat.emin; lia|exact L].
Qed.
Definition cosine (v : b32) : b32 := to32 (cos (B2R v)).
Definition sine (v : b32) : b32 := to32 (sin (B2R v)).
Definition root (v : b32) : b32 := Bsqrt (prec_gt_0_ := p24) (prec_lt_emax_ := l128) mode_NE v.

Example C98_field_cosine_ex : accurate32 cosine cos /\ accurate32 sine sin.
Proof. split; intros v _; apply to64_ok; apply Rabs_le; [apply COS_bound|apply SIN_bound]. Qed.
Example C98_field_root_ex : accurate_root32 root /\ root (B754_infinity false) = B754_infinity false /\ root (B754_zero false) = B754_zero false.
Proof.
  split; [|split; reflexivity]. intros v F P. destruct (Bsqrt_correct 24 128 p24 l128 mode_NE v) as (H1 & H2 & _).
  change (round_mode mode_NE) with ZnearestE in H1. fold (rnd32 (sqrt (B2R v))) in H1.
  assert (G : is_finite (root v) = true). { unfold root. rewrite H2. destruct v as [s|s| |s m e b]; try discriminate; [reflexivity|destruct s; [|reflexivity]]. exfalso. cbn in P. assert (F2R (Float radix2 (Z.neg m) e) < 0) by (apply F2R_lt_0; reflexivity). lra. }
  split; [exact G|]. unfold root. rewrite H1. pose proof (err32 (sqrt (B2R v))) as E. unfold u, eta in E.
  assert (A : bpow radix2 (-149) <= B2R v). { apply (generic_format_ge_bpow radix2 (SpecFloat.fexp 24 128)); [intros e; unfold SpecFloat.fexp, SpecFloat.emin; lia|exact P|apply generic_format_B2R]. }
  assert (S : bpow radix2 (-75) <= sqrt (B2R v)). { rewrite <- (sqrt_square (bpow radix2 (-75))) by apply bpow_ge_0. apply sqrt_le_1_alt. rewrite <- bpow_plus. eapply Rle_trans; [|exact A]. apply bpow_le. lia. }
  assert (T : bpow radix2 (-23) = bpow radix2 (-24) + bpow radix2 (-24)) by (change (-23)%Z with (-24 + 1)%Z; rewrite bpow_plus; change (bpow radix2 1) with 2; lra).
  assert (U : bpow radix2 (-150) <= bpow radix2 (-24) * bpow radix2 (-75)) by (rewrite <- bpow_plus; apply bpow_le; lia).
  rewrite (Rabs_pos_eq (sqrt _)) in E by apply sqrt_pos. pose proof (bpow_gt_0 radix2 (-24)). rewrite T. nra.
Qed.

(** the axis (1, 1, 1), turned by one radian *)
Example C98_field_ordinary_ex : ordinary32 one32 one32 one32 one32 /\
  exists R0 R1, rotMatrix32 (fun v => v) root cosine sine one32 one32 one32 one32 = Some (R0, R1).
Proof.
  split; [|eexists; eexists; reflexivity]. split; [repeat split; reflexivity|]. rewrite !one32_1. unfold norm3, dot3.
  assert (1 <= sqrt (1 * 1 + 1 * 1 + 1 * 1) <= 2).
  { split; [rewrite <- sqrt_1 at 1|rewrite <- (sqrt_square 2) by lra]; apply sqrt_le_1_alt; lra. }
  assert (bpow radix2 (-50) <= bpow radix2 0) by (apply bpow_le; lia). assert (bpow radix2 1 <= bpow radix2 50) by (apply bpow_le; lia).
  change (bpow radix2 0) with 1 in *. change (bpow radix2 1) with 2 in *. lra.
Qed.
(** 2^100 is a huge axis and 2^-100 a tiny one *)
Definition two100 : b32 := @B754_finite 24 128 false 8388608 77 eq_refl.
Definition half100 : b32 := @B754_finite 24 128 false 8388608 (-123) eq_refl.
Example C98_field_outside_ex : bpow radix2 64 <= Rabs (B2R two100) /\ Rabs (B2R half100) < bpow radix2 (-75) /\
  (exists R0 R1, rotMatrix32 (fun v => v) root cosine sine two100 one32 zero32 one32 = Some (R0, R1)) /\
  (exists R0 R1, rotMatrix32 (fun v => v) root cosine sine half100 zero32 zero32 one32 = Some (R0, R1)).
Proof.
  assert (P : forall e, F2R (Float radix2 8388608 e) = bpow radix2 (23 + e)) by (intros e; unfold F2R; cbn [Fnum Fexp]; rewrite bpow_plus; reflexivity).
  split; [|split; [|split; eexists; eexists; reflexivity]]; unfold two100, half100, B2R; cbn [SpecFloat.cond_Zopp]; rewrite P, Rabs_pos_eq by apply bpow_ge_0; [apply bpow_le|apply bpow_lt]; lia.
Qed.
