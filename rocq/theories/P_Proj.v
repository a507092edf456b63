(** * C102: projection matrices in floating point *)
From Coq Require Import Reals ZArith List Bool Lia Lra.
From Flocq Require Import Core.Core IEEE754.BinarySingleNaN.
From Verif Require Import Rounded_Model Turn_Model Proj_Model Proj_Spec.
From Verif Require Rounded_Proofs Turn_Proofs Proj_Proofs P_Turn.
Import ListNotations.
Local Open Scope R_scope.

(** For ordinary parameters and a library whose tangent is accurate at the
    angle, both matrices exist and each item is that of gluPerspective's matrix,
    or of its inverse, up to a relative error of 2^-23 (one unit in the last place
    of a float32). *)
Theorem C102_perspective_is_accurate : forall tan_ fovy aspect n f,
  viewing fovy aspect n f -> accurate_tan tan_ (B2R fovy / 2) ->
  exists m m', perspective32 tan_ fovy aspect n f false = Some m /\ perspective32 tan_ fovy aspect n f true = Some m' /\
    within (bpow radix2 (-23)) m (persp (tan (B2R fovy / 2)) (B2R aspect) (B2R n) (B2R f)) /\
    within (bpow radix2 (-23)) m' (persp_inv (tan (B2R fovy / 2)) (B2R aspect) (B2R n) (B2R f)).
Proof.
  intros tan_ fovy aspect n f V A.
  destruct (Proj_Proofs.forward_items tan_ fovy aspect n f V A) as (m & E & H). destruct (Proj_Proofs.backward_items tan_ fovy aspect n f V A) as (m' & E' & H').
  exists m, m'. split; [exact E|]. split; [exact E'|]. split; apply Proj_Proofs.items_within; assumption.
Qed.

(** The products of the two, whatever the order of the additions, are the
    identity: up to 2^-21 on the diagonal, exactly elsewhere, but for one item
    each, which is off by at most 2^-21 times (f + n) / (f n), or 2 (f + n) / |n - f|. *)
Theorem C102_perspective_inverse : forall tan_ fovy aspect n f m m' i j v,
  viewing fovy aspect n f -> accurate_tan tan_ (B2R fovy / 2) ->
  perspective32 tan_ fovy aspect n f false = Some m -> perspective32 tan_ fovy aspect n f true = Some m' ->
  (i < 4)%nat -> (j < 4)%nat ->
  (product m m' i j v -> is_finite v = true /\ Rabs (B2R v - same i j) <= bpow radix2 (-21) * slack (B2R n) (B2R f) i j) /\
  (product m' m i j v -> is_finite v = true /\ Rabs (B2R v - same i j) <= bpow radix2 (-21) * slack' (B2R n) (B2R f) i j).
Proof.
  intros tan_ fovy aspect n f m m' i j v V A E E' I J.
  destruct (Proj_Proofs.forward_items tan_ fovy aspect n f V A) as (m0 & E0 & H). rewrite E in E0. injection E0 as <-.
  destruct (Proj_Proofs.backward_items tan_ fovy aspect n f V A) as (m0 & E0 & H'). rewrite E' in E0. injection E0 as <-.
  destruct V as (_ & (_ & Ut & Ua) & (P1 & U1 & P2 & U2 & U3)). split; intros P.
  - destruct (Proj_Proofs.forward_sum _ _ _ _ Ut Ua P1 P2 U3 i j I J) as (S1 & S2).
    pose proof (Proj_Proofs.dot_near _ _ _ _ (H i) (fun k => H' k j) _ S2 (Proj_Proofs.slack_fits _ _ P1 U1 P2 U2 i j) v P) as Q. rewrite <- S1. exact Q.
  - destruct (Proj_Proofs.backward_sum _ _ _ _ Ut Ua P1 P2 U3 i j I J) as (S1 & S2).
    pose proof (Proj_Proofs.dot_near _ _ _ _ (H' i) (fun k => H k j) _ S2 (Proj_Proofs.slack'_fits _ _ P1 U1 P2 U2 U3 i j) v P) as Q. rewrite <- S1. exact Q.
Qed.

(** Each item of orthoMatrix is that of glOrtho's matrix up to a relative error
    of 2^-23; in particular the translation of a centred box is exactly 0. *)
Theorem C102_ortho_is_accurate : forall l r b t n f,
  interval l r -> interval b t -> interval n f ->
  exists m, ortho32 l r b t n f = Some m /\
    within (bpow radix2 (-23)) m (orth (B2R l) (B2R r) (B2R b) (B2R t) (B2R n) (B2R f)).
Proof.
  intros l r b t n f H1 H2 H3. destruct (Proj_Proofs.ortho_items l r b t n f H1 H2 H3) as (m & E & H). exists m. split; [exact E|]. now apply Proj_Proofs.items_within.
Qed.

(** Planes at the same distance are refused. *)
Theorem C102_equal_planes_are_refused : forall tan_ fovy aspect n f,
  is_finite n = true -> is_finite f = true -> B2R n = B2R f ->
  perspective32 tan_ fovy aspect n f false = None.
Proof.
  intros tan_ fovy aspect n f Fn Ff E. unfold perspective32.
  assert (Z : B2R n - B2R f = 0) by lra. destruct (Turn_Proofs.sub64_r n f Fn Ff) as (F & H).
  - rewrite Z, Rabs_R0. apply bpow_ge_0.
  - rewrite Z in H. unfold Rounded_Proofs.rnd64 in H. rewrite round_0 in H by apply valid_rnd_N.
    destruct (sub64 n f) as [s|s| |s m e B]; try discriminate F; [reflexivity|].
    exfalso. cbn in H. apply eq_0_F2R in H. destruct s; discriminate H.
Qed.

(** Beyond the ordinary parameters the items overflow: with the near plane at
    2^-130 the inverse has an infinite item, whatever the angle and the aspect. *)
Definition near_plane : b64 := @B754_finite 53 1024 false 4503599627370496 (-182) eq_refl.
Theorem C102_planes_near_the_eye_refuted : forall tan_ fovy aspect,
  B2R near_plane = bpow radix2 (-130) /\
  exists m', perspective32 tan_ fovy aspect near_plane one64 true = Some m' /\ is_finite (m' 3%nat 3%nat) = false.
Proof.
  intros tan_ fovy aspect. split.
  - unfold near_plane, B2R, F2R. cbn [Fnum Fexp SpecFloat.cond_Zopp]. change (-130)%Z with (52 + -182)%Z. rewrite bpow_plus. reflexivity.
  - unfold perspective32. replace (nonzero64 (mul64 (mul64 two64 one64) near_plane)) with true by (vm_compute; reflexivity).
    eexists. split; [reflexivity|]. cbn [at4 nth].
    replace (to32 (div64 (add64 one64 near_plane) (mul64 (mul64 two64 one64) near_plane))) with (B754_infinity false : b32) by (vm_compute; reflexivity). reflexivity.
Qed.

(** The hypotheses are met: an angle of 3/2, aspect 1, planes at 1 and 2, and the
    correctly rounded tangent. *)
Definition angle : b64 := @B754_finite 53 1024 false 6755399441055744 (-52) eq_refl.
Definition tangent (v : b64) : b64 := P_Turn.to64 (tan (B2R v)).
Lemma angle_is : B2R angle = 3 / 2.
Proof. unfold angle, B2R, F2R. cbn. lra. Qed.
Lemma tan_34 : / 2 <= tan (3 / 4) <= 1.
Proof.
  pose proof PI2_3_2 as P1. pose proof PI_4 as P2. split.
  - apply Rle_trans with (tan (PI / 6)).
    + rewrite tan_PI6. apply Rmult_le_reg_r with (sqrt 3); [apply sqrt_lt_R0; lra|]. unfold Rdiv. rewrite Rmult_1_l, Rinv_l by (apply Rgt_not_eq, sqrt_lt_R0; lra).
      assert (sqrt 3 <= sqrt (2 * 2)) by (apply sqrt_le_1_alt; lra). rewrite sqrt_square in H by lra. lra.
    + apply Rlt_le, tan_increasing; lra.
  - rewrite <- tan_PI4. apply Rlt_le, tan_increasing; lra.
Qed.
Lemma to64_rnd r : Rabs r <= 1 -> is_finite (P_Turn.to64 r) = true /\ B2R (P_Turn.to64 r) = Rounded_Proofs.rnd64 r.
Proof.
  intros L. destruct (P_Turn.to64_ok r L) as (F & _). split; [exact F|].
  assert (G : generic_format radix2 (SpecFloat.fexp 53 1024) (Rounded_Proofs.rnd64 r)) by (apply generic_format_round; [apply Rounded_Proofs.v64|apply valid_rnd_N]).
  pose proof (binary_normalize_correct 53 1024 p53 l1024 mode_NE (Ztrunc (scaled_mantissa radix2 (SpecFloat.fexp 53 1024) (Rounded_Proofs.rnd64 r))) (cexp radix2 (SpecFloat.fexp 53 1024) (Rounded_Proofs.rnd64 r)) false) as H.
  unfold generic_format in G. cbv zeta in H. rewrite <- G in H.
  replace (round radix2 (SpecFloat.fexp 53 1024) (round_mode mode_NE) (Rounded_Proofs.rnd64 r)) with (Rounded_Proofs.rnd64 r) in H
    by (symmetry; apply round_generic; [apply valid_rnd_N|apply generic_format_round; [apply Rounded_Proofs.v64|apply valid_rnd_N]]).
  rewrite Rlt_bool_true in H; [exact (proj1 H)|].
  apply Rle_lt_trans with (bpow radix2 0); [|apply bpow_lt; lia]. apply abs_round_le_generic; [apply Rounded_Proofs.v64|apply valid_rnd_N|apply generic_format_bpow; unfold SpecFloat.fexp, SpecFloat.emin; lia|exact L].
Qed.
Lemma usual_mid x : / 4 <= Rabs x <= 4 -> usual x.
Proof.
  intros [H1 H2]. split; [apply Rle_trans with (bpow radix2 (-2))|apply Rle_trans with (bpow radix2 2)]; try (apply bpow_le; lia); [change (bpow radix2 (-2)) with (/ 4)|change (bpow radix2 2) with 4]; assumption.
Qed.
Example C102_case : viewing angle one64 one64 two64 /\ accurate_tan tangent (B2R angle / 2) /\ interval zero64 one64 /\ interval (Bopp one64) one64.
Proof.
  pose proof tan_34 as T. rewrite !angle_is. replace (3 / 2 / 2) with (3 / 4) by lra.
  assert (U : forall x, / 4 <= x <= 4 -> usual x) by (intros x Hx; apply usual_mid; rewrite Rabs_pos_eq; lra).
  assert (U' : forall x, / 4 <= - x <= 4 -> usual x) by (intros x Hx; apply usual_mid; rewrite Rabs_left; lra).
  split; [|split; [|split]].
  - unfold viewing. rewrite angle_is, Proj_Proofs.two64_2, Rounded_Proofs.one64_1. replace (3 / 2 / 2) with (3 / 4) by lra.
    repeat split; try reflexivity; try lra; try (apply U; lra); apply U'; lra.
  - intros v F E. unfold tangent. rewrite E. destruct (to64_rnd (tan (3 / 4))) as (F1 & R1); [rewrite Rabs_pos_eq; lra|]. split; [exact F1|]. rewrite R1.
    pose proof (Turn_Proofs.err64 (tan (3 / 4))) as E1. unfold Turn_Proofs.u, Turn_Proofs.eta in E1. rewrite (Rabs_pos_eq (tan (3 / 4))) in E1 |- * by lra.
    assert (bpow radix2 (-52) = bpow radix2 (-53) * 2) by (change (-52)%Z with (-53 + 1)%Z; rewrite bpow_plus; reflexivity).
    assert (bpow radix2 (-1075) <= bpow radix2 (-53) * / 2) by (change (/ 2) with (bpow radix2 (-1)); rewrite <- bpow_plus; apply bpow_le; lia).
    pose proof (bpow_gt_0 radix2 (-53)). nra.
  - unfold interval. rewrite Rounded_Proofs.one64_1. cbn [B2R zero64]. repeat split; try reflexivity; try (apply U; lra). right. apply U. lra.
  - unfold interval. rewrite B2R_Bopp, Rounded_Proofs.one64_1. repeat split; try reflexivity; try (apply U; lra). left. lra.
Qed.

Print Assumptions C102_perspective_is_accurate.
Print Assumptions C102_perspective_inverse.
Print Assumptions C102_ortho_is_accurate.
Print Assumptions C102_equal_planes_are_refused.
Print Assumptions C102_planes_near_the_eye_refuted.
