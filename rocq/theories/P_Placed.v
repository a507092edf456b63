(** * C104: where Transforms take points, in floating point *)
From Coq Require Import Reals ZArith List Bool Permutation Lia Lra Machin.
From Flocq Require Import Core.Core IEEE754.BinarySingleNaN.
From Verif Require Import Rounded_Model Turn_Model Turn_Spec Turn32_Model Turn32_Spec Matrix_Model Matrix_Spec Combined_Model Combined_Spec Placed_Model Placed_Spec.
From Verif Require Rounded_Proofs Combined_Proofs Placed_Proofs P_Turn32 P_Combined.
Import ListNotations.
Local Open Scope list_scope.
Local Open Scope R_scope.

Lemma hom4_comp3 p j : (j < 3)%nat -> Placed_Proofs.hom4 p j = comp3 p j.
Proof. destruct p as [[x y] z]. intros J. destruct j as [|[|[|j]]]; try reflexivity. lia. Qed.

(** A point of a leaf, moved by the matrix of its path, lands where the VRML97
    standard has it, whatever the number of Transforms: up to 25 roundings of
    2^-20 for each, relative to the sizes of the point and of the Transforms. *)
Theorem C104_point_placed : forall turns pow_half cos_ sin_ : b32 -> b32,
  accurate_root32 pow_half -> accurate32 cos_ cos -> accurate32 sin_ sin ->
  forall (path : list node) (r : fmat) (p : b64 * b64 * b64) (j : nat) (v : b64),
  (forall n, In n path -> good_node turns n) ->
  node_matrix turns pow_half cos_ sin_ path false r -> fin3' p -> (j < 3)%nat -> moves (homogenous p) r j v ->
  let size := (1 + len1 (point_of p)) * weights weight (map params_of path) in
  growth (25 * length path) * size <= bpow radix2 100 ->
  is_finite v = true /\
  Rabs (B2R v - comp3 (path_transform (map params_of path) (point_of p)) j) <= (growth (25 * length path + 1) - 1) * size.
Proof.
  intros turns pow_half cos_ sin_ H1 H2 H3 path r p j v G M F J Mv size S. rewrite <- hom4_comp3 by exact J.
  apply (Placed_Proofs.placed turns pow_half cos_ sin_ H1 H2 H3 path r p j v G M F ltac:(lia) Mv S).
Qed.
Print Assumptions C104_point_placed.

(** The inverse matrix takes the place back to the point. *)
Theorem C104_point_taken_back : forall turns pow_half cos_ sin_ : b32 -> b32,
  accurate_root32 pow_half -> accurate32 cos_ cos -> accurate32 sin_ sin ->
  forall (path : list node) (r : fmat) (p : b64 * b64 * b64) (q : vec3) (j : nat) (v : b64),
  (forall n, In n path -> good_node turns n /\ can_undo n) ->
  node_matrix turns pow_half cos_ sin_ path true r -> fin3' p -> (j < 3)%nat -> moves (homogenous p) r j v ->
  path_transform (map params_of path) q = point_of p ->
  let size := (1 + len1 (point_of p)) * weights weight' (map params_of path) in
  growth (26 * length path) * size <= bpow radix2 100 ->
  is_finite v = true /\ Rabs (B2R v - comp3 q j) <= (growth (26 * length path + 1) - 1) * size.
Proof.
  intros turns pow_half cos_ sin_ H1 H2 H3 path r p q j v G M F J Mv E size S. rewrite <- hom4_comp3 by exact J.
  apply (Placed_Proofs.taken_back turns pow_half cos_ sin_ H1 H2 H3 path r p j v q G M F ltac:(lia) Mv E S).
Qed.
Print Assumptions C104_point_taken_back.

(** There and back: a point moved by the matrix of a path, and then by the inverse
    matrix, is where it was, up to the errors of both ways. *)
Theorem C104_there_and_back : forall turns pow_half cos_ sin_ : b32 -> b32,
  accurate_root32 pow_half -> accurate32 cos_ cos -> accurate32 sin_ sin ->
  forall (path : list node) (f b : fmat) (p v : b64 * b64 * b64) (j : nat) (u : b64),
  (forall n, In n path -> good_node turns n /\ can_undo n) ->
  node_matrix turns pow_half cos_ sin_ path false f -> node_matrix turns pow_half cos_ sin_ path true b ->
  fin3' p -> (forall k, (k < 3)%nat -> moves (homogenous p) f k (homogenous v k)) -> (j < 3)%nat -> moves (homogenous v) b j u ->
  let there := (1 + len1 (point_of p)) * weights weight (map params_of path) in
  let back := (1 + len1 (point_of v)) * weights weight' (map params_of path) in
  growth (25 * length path) * there <= bpow radix2 100 -> growth (26 * length path) * back <= bpow radix2 100 ->
  is_finite u = true /\
  Rabs (B2R u - comp3 (point_of p) j) <=
    (growth (26 * length path + 1) - 1) * back + 3 * weights weight' (map params_of path) * ((growth (25 * length path + 1) - 1) * there).
Proof.
  intros turns pow_half cos_ sin_ H1 H2 H3 path f b p v j u G Mf Mb F Mv J Mu there back S1 S2. rewrite <- hom4_comp3 by exact J.
  exact (Placed_Proofs.there_and_back turns pow_half cos_ sin_ H1 H2 H3 path f b p v j u G Mf Mb F Mv J Mu S1 S2).
Qed.
Print Assumptions C104_there_and_back.

(** In plain numbers, for up to 20000 Transforms: 2^-19 for each of 25, or 26,
    roundings of each Transform and one more. *)
Theorem C104_error_per_transform : forall n, (n <= Z.to_nat 20000)%nat ->
  growth (25 * n + 1) - 1 <= (25 * INR n + 1) * bpow radix2 (-19) /\
  growth (26 * n + 1) - 1 <= (26 * INR n + 1) * bpow radix2 (-19).
Proof.
  intros n L. assert (N : INR n <= 20000). { rewrite INR_IZR_INZ. apply IZR_le. lia. }
  assert (E : bpow radix2 19 = 524288) by (cbn; lra).
  assert (A : forall k : nat, INR (k * n + 1) = INR k * INR n + 1) by (intros k; rewrite plus_INR, mult_INR; reflexivity).
  assert (I25 : INR 25 = 25) by (rewrite INR_IZR_INZ; reflexivity). assert (I26 : INR 26 = 26) by (rewrite INR_IZR_INZ; reflexivity).
  split; [rewrite <- I25, <- A|rewrite <- I26, <- A]; apply P_Combined.C103_growth; rewrite A, E; [rewrite I25|rewrite I26]; lra.
Qed.
Print Assumptions C104_error_per_transform.

(** There always is such a matrix. *)
Theorem C104_always_defined : forall turns pow_half cos_ sin_ path inverse, exists r, node_matrix turns pow_half cos_ sin_ path inverse r.
Proof. intros. apply Combined_Proofs.path_defined. Qed.
Print Assumptions C104_always_defined.

(** Beyond: a Transform that flattens the first coordinate has an inverse matrix,
    but every finite point it moves gets a coordinate that is no number. *)
Definition flat : node :=
  {| n_translation := (zero32, zero32, zero32); n_center := (zero32, zero32, zero32); n_rotation := (zero32, one32, zero32, zero32);
     n_scale := (zero32, one32, one32); n_scaleOrientation := (zero32, one32, zero32, zero32) |}.
Theorem C104_flat_scale_refuted : forall turns pow_half cos_ sin_ : b32 -> b32, nonzero32 (turns zero32) = false ->
  good_node turns flat /\ (exists r, node_matrix turns pow_half cos_ sin_ [flat] true r) /\
  forall r p v, node_matrix turns pow_half cos_ sin_ [flat] true r -> moves (homogenous p) r 0 v -> is_finite v = false.
Proof.
  intros turns pow_half cos_ sin_ T0. split; [|split; [apply C104_always_defined|]].
  - assert (O0 : good_rotation turns (zero32, one32, zero32, zero32)).
    { split; [|intros _; reflexivity]. split; [repeat split; reflexivity|]. unfold norm3, dot3. rewrite Rounded_Proofs.one32_1. change (B2R zero32) with 0.
      replace (0 * 0 + 1 * 1 + 0 * 0) with 1 by ring. rewrite sqrt_1. change 1 with (bpow radix2 0). split; apply bpow_le; lia. }
    repeat split; try reflexivity; apply O0.
  - intros r p v (locals & m & H & Cm & ->) (l & Pm & Q).
    assert (E : m = Some (F32 (at4 [[B754_infinity false; O; O; O]; [O; div32 one32 one32; O; O]; [O; O; div32 one32 one32; O]; [O; O; O; I]]))).
    { assert (TN : turn32 turns pow_half cos_ sin_ (zero32, one32, zero32, zero32) = (None, None)) by (cbn [turn32]; unfold rotMatrix32; rewrite T0; reflexivity).
      cbn [rev app map] in H. inversion H as [|? o ? ? K1 K2]; subst. inversion K2; subst. cbn [compress] in Cm. inversion Cm; subst.
      unfold parts_of, backward in K1. cbn [flat n_translation n_center n_rotation n_scale n_scaleOrientation T T1 C C1 Ro Ro1 SO SO1 Sc Sc1] in K1. rewrite TN in K1.
      cbn [fst snd] in K1. change (trans32 (zero32, zero32, zero32)) with (@None fmat, @None fmat) in K1. cbn [fst snd] in K1.
      change (snd (scale32 (zero32, one32, one32))) with (Some (F32 (at4 [[B754_infinity false; O; O; O]; [O; div32 one32 one32; O; O]; [O; O; div32 one32 one32; O]; [O; O; O; I]]))) in K1.
      cbn [compress] in K1. repeat match goal with K : compress_from _ _ _ |- _ => inversion K; clear K; subst end. reflexivity. }
    subst m. assert (Z : In 0%nat l) by (apply (Permutation_in _ (Permutation_sym Pm)); left; reflexivity). clear Pm H Cm.
    assert (A1 : forall u w : b64, is_finite u = false -> is_finite (add64 u w) = false /\ is_finite (add64 w u) = false).
    { intros u w Fu. destruct u as [?|su| |? ? ? ?]; try discriminate Fu; destruct w as [?|sw| |? ? ? ?]; try (split; reflexivity); destruct su, sw; split; reflexivity. }
    assert (W : as64 (F32 (at4 [[B754_infinity false; O; O; O]; [O; div32 one32 one32; O; O]; [O; O; div32 one32 one32; O]; [O; O; O; I]])) 0%nat 0%nat = B754_infinity false) by reflexivity.
    revert Z. induction Q as [|k|l1 l2 u w _ IH1 _ IH2|k l u _ IH]; intros Z.
    + destruct Z.
    + destruct Z as [->|[]]. rewrite W. destruct (homogenous p 0%nat); reflexivity.
    + apply in_app_or in Z as [Z|Z]; [apply (A1 u w (IH1 Z))|apply (A1 w u (IH2 Z))].
    + assert (Fm : forall a b c : b64, is_finite c = false -> is_finite (fma64 a b c) = false).
      { intros a b c Fc. destruct c as [?|sc| |? ? ? ?]; try discriminate Fc; destruct a as [?|sa| |? ? ? ?], b as [?|sb| |? ? ? ?]; try reflexivity; repeat match goal with s : bool |- _ => destruct s end; reflexivity. }
      destruct Z as [->|Z]; [|apply Fm, IH, Z]. rewrite W. destruct (homogenous p 0%nat) as [?|sa| |sa ? ? ?], u as [?|su| |? ? ? ?]; try reflexivity; repeat match goal with s : bool |- _ => destruct s end; reflexivity.
Qed.
Print Assumptions C104_flat_scale_refuted.

(** Beyond: angles of many turns.  2*pi is not a float32, so the angle of 2^20
    times the float32 nearest to it is far from a whole number of turns, but its
    remainder is 0 and the rotation is left out. *)
Lemma pi_bounds : 3141592650 / 1000000000 <= PI <= 3141592658 / 1000000000.
Proof.
  pose proof (PI_2_3_7_ineq 4) as (A & B).
  assert (U : sum_f_R0 (tg_alt PI_2_3_7_tg) (2 * 4) <= 3141592658 / 4000000000).
  { unfold tg_alt, PI_2_3_7_tg, Ratan_seq. cbn [sum_f_R0 Nat.mul Nat.add]. rewrite !INR_IZR_INZ. cbn [Z.of_nat Pos.of_succ_nat Pos.succ pow]. lra. }
  assert (L : 3141592650 / 4000000000 <= sum_f_R0 (tg_alt PI_2_3_7_tg) (S (2 * 4))).
  { unfold tg_alt, PI_2_3_7_tg, Ratan_seq. cbn [sum_f_R0 Nat.mul Nat.add]. rewrite !INR_IZR_INZ. cbn [Z.of_nat Pos.of_succ_nat Pos.succ pow]. lra. }
  lra.
Qed.
Lemma sin_small x : 15 / 100 <= x <= 2 / 10 -> 1 / 10 <= sin x.
Proof.
  intros H. pose proof pi_bounds. destruct (SIN x ltac:(lra) ltac:(lra)) as (A & _). eapply Rle_trans; [|exact A].
  unfold sin_lb, sin_approx, sin_term. cbn [sum_f_R0 Nat.mul Nat.add pow]. rewrite !INR_IZR_INZ. 
  replace (Z.of_nat (fact 1)) with 1%Z by reflexivity. replace (Z.of_nat (fact 3)) with 6%Z by reflexivity. replace (Z.of_nat (fact 5)) with 120%Z by reflexivity. replace (Z.of_nat (fact 7)) with 5040%Z by reflexivity.
  assert (X2 : 0 <= x * x <= 1) by nra. assert (X3 : 0 <= x * x * x <= 8 / 1000) by nra. 
  assert (X5 : 0 <= x * x * x * (x * x) <= 8 / 1000) by nra. assert (X7 : 0 <= x * x * x * (x * x) * (x * x) <= 8 / 1000) by nra. lra.
Qed.
Lemma many_sin : 1 / 10 <= sin (13176795 / 2).
Proof.
  pose proof pi_bounds.
  assert (E : exists k, INR k = 1048576) by (exists (Z.to_nat 1048576); rewrite INR_IZR_INZ; apply f_equal, Z2Nat.id; lia). destruct E as (k & K).
  pose proof (sin_period (13176795 / 2 - 2 * INR k * PI) k) as P. replace (13176795 / 2 - 2 * INR k * PI + 2 * INR k * PI) with (13176795 / 2) in P by ring.
  rewrite P, K. apply sin_small. lra.
Qed.
Definition twopi32 : b32 := @B754_finite 24 128 false 13176795 (-21) eq_refl.
Definition many_turns : b32 := @B754_finite 24 128 false 13176795 (-1) eq_refl.
(** the remainder of a multiple of the float32 2*pi is 0 *)
Definition remainder32 (turns : b32 -> b32) : Prop :=
  forall a k, is_finite a = true -> B2R a = IZR k * B2R twopi32 -> nonzero32 (turns a) = false.
Definition spun : node :=
  {| n_translation := (zero32, zero32, zero32); n_center := (zero32, zero32, zero32); n_rotation := (zero32, zero32, one32, many_turns);
     n_scale := (one32, one32, one32); n_scaleOrientation := (zero32, zero32, one32, zero32) |}.
Theorem C104_many_turns_refuted : forall turns pow_half cos_ sin_ : b32 -> b32, remainder32 turns ->
  ordinary32 zero32 zero32 one32 many_turns /\
  (forall r, node_matrix turns pow_half cos_ sin_ [spun] false r -> r = F32 identity32) /\
  1 / 10 <= comp3 (path_transform (map params_of [spun]) (1, 0, 0)) 1.
Proof.
  intros turns pow_half cos_ sin_ Rm. pose proof Rounded_Proofs.one32_1 as U1.
  assert (M : B2R many_turns = 13176795 / 2) by (unfold many_turns, B2R, F2R; cbn; lra).
  assert (M2 : B2R twopi32 = 13176795 / 2097152) by (unfold twopi32, B2R, F2R; cbn; lra).
  assert (N : norm3 (B2R zero32, B2R zero32, B2R one32) = 1).
  { unfold norm3, dot3. rewrite U1. change (B2R zero32) with 0. replace (0 * 0 + 0 * 0 + 1 * 1) with 1 by ring. apply sqrt_1. }
  split; [|split].
  - split; [repeat split; reflexivity|]. rewrite N. change 1 with (bpow radix2 0). split; apply bpow_le; lia.
  - intros r (locals & m & H & Cm & ->).
    assert (Z1 : nonzero32 (turns many_turns) = false) by (apply (Rm _ 1048576%Z); [reflexivity|rewrite M, M2; lra]).
    assert (Z2 : nonzero32 (turns zero32) = false) by (apply (Rm _ 0%Z); [reflexivity|change (B2R zero32) with 0; ring]).
    assert (E1 : turn32 turns pow_half cos_ sin_ (zero32, zero32, one32, many_turns) = (None, None)) by (cbn [turn32]; unfold rotMatrix32; rewrite Z1; reflexivity).
    assert (E2 : turn32 turns pow_half cos_ sin_ (zero32, zero32, one32, zero32) = (None, None)) by (cbn [turn32]; unfold rotMatrix32; rewrite Z2; reflexivity).
    cbn [map] in H. inversion H as [|? o ? ? K1 K2]; subst. inversion K2; subst. cbn [compress] in Cm. inversion Cm; subst.
    unfold parts_of, forward in K1. cbn [spun n_translation n_center n_rotation n_scale n_scaleOrientation T T1 C C1 Ro Ro1 SO SO1 Sc Sc1] in K1. rewrite E1, E2 in K1.
    change (trans32 (zero32, zero32, zero32)) with (@None fmat, @None fmat) in K1. change (scale32 (one32, one32, one32)) with (@None fmat, @None fmat) in K1. cbn [fst snd compress] in K1.
    repeat match goal with K : compress_from _ _ _ |- _ => inversion K; clear K; subst end. reflexivity.
  - cbn [map path_transform fold_right]. unfold spun, params_of, vrml_transform, rotate, unrotate.
    cbn [p_translation p_center p_rotation p_scale p_scaleOrientation n_translation n_center n_rotation n_scale n_scaleOrientation vec_of rot_of angle axis].
    pose proof many_sin as S. rewrite <- M in S. eapply Rle_trans; [exact S|apply Req_le]. rewrite N. set (a := B2R many_turns) in *. change (B2R zero32) with 0 in *. rewrite U1, Rinv_1, Ropp_0.
    unfold rodrigues, stretch, add3, neg3, scal3, cross, dot3. cbn [comp3]. rewrite cos_0, sin_0. ring.
Qed.
Print Assumptions C104_many_turns_refuted.
(** there is such a remainder, for these angles *)
Example C104_remainder_ex : exists turns : b32 -> b32, remainder32 turns /\ exists a, nonzero32 (turns a) = true.
Proof.
  assert (Q : B2R twopi32 = 13176795 / 2097152) by (unfold twopi32, B2R, F2R; cbn; lra). pose proof Rounded_Proofs.one32_1 as U1.
  exists (fun a => if eq32 a one32 then one32 else zero32). split; [|exists one32; reflexivity].
  intros a k Fa E. destruct (eq32 a one32) eqn:X; [|reflexivity]. exfalso. apply (Placed_Proofs.eq32_eq a one32 Fa eq_refl) in X. rewrite E, U1, Q in X.
  assert (IZR (k * 13176795) = IZR 2097152) as Y by (rewrite mult_IZR; lra). apply eq_IZR in Y. lia.
Qed.

(** The hypotheses are met: a Transform that moves, turns, and scales, twice. *)
Definition two32 : b32 := @B754_finite 24 128 false 8388608 (-22) eq_refl.
Definition turned : node :=
  {| n_translation := (two32, one32, zero32); n_center := (one32, zero32, zero32); n_rotation := (one32, one32, one32, one32);
     n_scale := (two32, two32, one32); n_scaleOrientation := (one32, one32, one32, one32) |}.
Definition spot : b64 * b64 * b64 := (one64, one64, zero64).
Example C104_case : accurate_root32 P_Turn32.root /\ accurate32 P_Turn32.cosine cos /\ accurate32 P_Turn32.sine sin /\
  (forall n, In n [turned; turned] -> good_node (fun a => a) n /\ can_undo n) /\ fin3' spot /\
  growth (26 * length [turned; turned]) * ((1 + len1 (point_of spot)) * weights weight (map params_of [turned; turned])) <= bpow radix2 100 /\
  growth (26 * length [turned; turned]) * ((1 + len1 (point_of spot)) * weights weight' (map params_of [turned; turned])) <= bpow radix2 100.
Proof.
  split; [apply P_Turn32.C98_field_root_ex|]. split; [apply P_Turn32.C98_field_cosine_ex|]. split; [apply P_Turn32.C98_field_cosine_ex|].
  assert (T2 : B2R two32 = 2) by (unfold two32, B2R, F2R; cbn; lra). pose proof Rounded_Proofs.one32_1 as T1. pose proof Rounded_Proofs.one64_1 as D1.
  assert (G : growth 52 <= 2).
  { assert (L : INR 52 <= bpow radix2 19) by (rewrite INR_IZR_INZ; cbn; lra). pose proof (P_Combined.C103_growth 52 L) as G. rewrite INR_IZR_INZ in G.
    assert (bpow radix2 (-19) <= / 64) by (change (/ 64) with (bpow radix2 (-6)); apply bpow_le; lia). cbn [Z.of_nat Pos.of_succ_nat Pos.succ] in G. lra. }
  pose proof (Combined_Proofs.growth_1 52) as G1.
  assert (P : len1 (point_of spot) = 2) by (unfold spot, point_of, len1; rewrite D1, Rabs_R1; change (B2R zero64) with 0; rewrite Rabs_R0; ring).
  assert (P1 : bpow radix2 (-100) <= 1) by (change 1 with (bpow radix2 0); apply bpow_le; lia).
  assert (P2 : 2 <= bpow radix2 100) by (change 2 with (bpow radix2 1); apply bpow_le; lia).
  assert (Big : 2 * (3 * (864 * (864 * 1))) <= bpow radix2 100) by (apply Rle_trans with (bpow radix2 23); [cbn; lra|apply bpow_le; lia]).
  assert (W : 1 <= weight (params_of turned) <= 864).
  { unfold weight, params_of, turned. cbn [p_translation p_center p_scale n_translation n_center n_scale vec_of]. unfold len1, big. rewrite T1, T2. change (B2R zero32) with 0. rewrite Rabs_R0, Rabs_R1, (Rabs_pos_eq 2) by lra.
    rewrite (Rmax_right 1 2), (Rmax_left 2 1), (Rmax_left 2 2) by lra. lra. }
  assert (W' : 1 <= weight' (params_of turned) <= 864).
  { unfold weight', params_of, turned. cbn [p_translation p_center p_scale n_translation n_center n_scale vec_of inv3]. unfold len1, big. rewrite T1, T2. change (B2R zero32) with 0. rewrite Rinv_1, Rabs_R0, Rabs_R1, (Rabs_pos_eq 2), (Rabs_pos_eq (/ 2)) by lra.
    rewrite (Rmax_left 1 (/ 2)), (Rmax_right (/ 2) 1), (Rmax_left 1 1) by lra. lra. }
  split; [|split; [repeat split; reflexivity|split]].
  - intros n [<-|[<-|[]]]; (split; [|unfold can_undo, turned; cbn [n_scale vec_of]; rewrite T1, T2, Rabs_R1, (Rabs_pos_eq 2) by lra; lra]);
      (repeat split; try reflexivity; try discriminate; try (apply P_Turn32.C98_field_ordinary_ex)).
  - rewrite P. cbn [length Nat.mul Nat.add map weights fold_right]. unfold weights. cbn [fold_right]. set (x := weight _) in *. eapply Rle_trans; [|exact Big].
    apply Rmult_le_compat; [lra|nra|exact G|]. apply Rmult_le_compat; [lra|nra|lra|]. apply Rmult_le_compat; [lra|nra|lra|lra].
  - rewrite P. cbn [length Nat.mul Nat.add map weights fold_right]. unfold weights. cbn [fold_right]. set (x := weight' _) in *. eapply Rle_trans; [|exact Big].
    apply Rmult_le_compat; [lra|nra|exact G|]. apply Rmult_le_compat; [lra|nra|lra|]. apply Rmult_le_compat; [lra|nra|lra|lra].
Qed.
