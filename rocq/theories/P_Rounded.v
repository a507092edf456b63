(** C94: the translation and scale matrices in floating point.

    The items of the matrices are binary32 numbers, and a product of two
    matrices is computed in any order of additions, with or without fused
    multiply-add.  A translation and its inverse multiply to exactly the
    identity; a scale and its inverse to within 2^-22 of it; a point moved
    there and back is within 2^-22 of the distances.  A scale with a zero
    component and a translation too far for binary32 do not: they give NaN. *)
From Coq Require Import Reals ZArith List Bool Permutation Lia Lra Psatz.
From Flocq Require Import Core.Core IEEE754.BinarySingleNaN.
Require Import Flocq.Prop.Relative Flocq.Prop.Plus_error.
From Verif Require Import Rounded_Model Rounded_Proofs.
Import ListNotations.
Local Open Scope list_scope.
Local Open Scope R_scope.

(** *** specification *)
(** the number is finite, and this real *)
Definition is_real (v : b32) (r : R) : Prop := is_finite v = true /\ B2R v = r.
(** the identity matrix *)
Definition id4 (i j : nat) : R := if Nat.eqb i j then 1 else 0.
(** the component can be an item of a float32 array *)
Definition fits (x : b64) : Prop := is_finite (to32 x) = true.
(** neither huge nor tiny *)
Definition moderate (x : b64) : Prop := is_finite x = true /\ bpow radix2 (-120) <= Rabs (B2R x) <= bpow radix2 120.

Ltac cases4 k := destruct k as [|[|[|[|k]]]].
Ltac cases3 k := destruct k as [|[|[|k]]].

Lemma some_pair {A B} {a a' : A} {b b' : B} : Some (a, b) = Some (a', b') -> a = a' /\ b = b'. Proof. intros H. split; congruence. Qed.

(** *** translations *)
Lemma fin_at4 (r : list (list b32)) : Forall (Forall (fun v : b32 => is_finite v = true)) r -> forall i j, is_finite (at4 r i j) = true.
Proof.
  intros H i j. unfold at4. destruct (nth_in_or_default i r []) as [Hi | ->]; [|destruct j; reflexivity].
  rewrite Forall_forall in H. specialize (H _ Hi). destruct (nth_in_or_default j (nth i r []) zero32) as [Hj | ->]; [|reflexivity].
  rewrite Forall_forall in H. apply H, Hj.
Qed.
Lemma small_1 : small32 1. Proof. unfold small32. rewrite Rabs_R1. change 1 with (bpow radix2 0). apply bpow_lt. lia. Qed.
Lemma fmt_1 : fmt32 1. Proof. rewrite <- one32_1. apply fmt_B2R. Qed.
Lemma trans_prod (a b c a' b' c' : b32) : is_finite a = true -> is_finite b = true -> is_finite c = true ->
  is_finite a' = true -> is_finite b' = true -> is_finite c' = true -> B2R a' = - B2R a -> B2R b' = - B2R b -> B2R c' = - B2R c ->
  forall i j v, (i < 4)%nat -> (j < 4)%nat ->
  product (at4 [[I; O; O; O]; [O; I; O; O]; [O; O; I; O]; [a; b; c; I]]) (at4 [[I; O; O; O]; [O; I; O; O]; [O; O; I; O]; [a'; b'; c'; I]]) i j v -> is_real v (id4 i j).
Proof.
  intros Fa Fb Fc Fa' Fb' Fc' Ea Eb Ec i j v Hi Hj H. unfold product in H.
  set (k1 := if Nat.ltb i 3 then i else if Nat.ltb j 3 then j else 0%nat).
  assert (K1 : (k1 < 3)%nat) by (unfold k1; destruct (Nat.ltb_spec i 3); [lia|destruct (Nat.ltb_spec j 3); lia]).
  assert (FA : forall i j, is_finite (at4 [[I; O; O; O]; [O; I; O; O]; [O; O; I; O]; [a; b; c; I]] i j) = true) by (apply fin_at4; repeat (constructor; auto)).
  assert (FB : forall i j, is_finite (at4 [[I; O; O; O]; [O; I; O; O]; [O; O; I; O]; [a'; b'; c'; I]] i j) = true) by (apply fin_at4; repeat (constructor; auto)).
  apply (two_is _ _ (FA i) (fun k => FB k j) k1 3) in H; [| lia | lia | lia | | | | | | ].
  - destruct H as (F & E). split; [exact F|]. rewrite E. clear E F. rewrite <- (rnd32_id (id4 i j)) by (unfold id4; destruct (Nat.eqb i j); [apply fmt_1|apply fmt32_0]). f_equal.
    unfold k1, id4. cases4 i; try lia; cases4 j; try lia; cbn -[B2R one32 zero32]; rewrite ?one32_1, ?zero32_0, ?Ea, ?Eb, ?Ec; lra.
  - intros k Hk. unfold k1. cases4 i; try lia; cases4 j; try lia; cases4 k; try lia; cbn -[B2R one32 zero32]; intros N1 N2; try congruence; rewrite ?one32_1, ?zero32_0, ?Ea, ?Eb, ?Ec; lra.
  - replace (B2R _ * B2R _) with (B2R (if Nat.ltb i 3 then at4 [[I; O; O; O]; [O; I; O; O]; [O; O; I; O]; [a'; b'; c'; I]] k1 j else if Nat.ltb j 3 then at4 [[I; O; O; O]; [O; I; O; O]; [O; O; I; O]; [a; b; c; I]] i k1 else O)); [apply fmt_B2R|].
    unfold k1. cases4 i; try lia; cases4 j; try lia; cbn -[B2R one32 zero32]; rewrite ?one32_1, ?zero32_0; lra.
  - replace (B2R _ * B2R _) with (B2R (if Nat.ltb i 3 then O else at4 [[I; O; O; O]; [O; I; O; O]; [O; O; I; O]; [a'; b'; c'; I]] 3 j)); [apply fmt_B2R|].
    cases4 i; try lia; cases4 j; try lia; cbn -[B2R one32 zero32]; rewrite ?one32_1, ?zero32_0; lra.
  - replace (B2R _ * B2R _) with (B2R (if Nat.ltb i 3 then at4 [[I; O; O; O]; [O; I; O; O]; [O; O; I; O]; [a'; b'; c'; I]] k1 j else if Nat.ltb j 3 then at4 [[I; O; O; O]; [O; I; O; O]; [O; O; I; O]; [a; b; c; I]] i k1 else O)); [apply small_fin|].
    unfold k1. cases4 i; try lia; cases4 j; try lia; cbn -[B2R one32 zero32]; rewrite ?one32_1, ?zero32_0; lra.
  - replace (B2R _ * B2R _) with (B2R (if Nat.ltb i 3 then O else at4 [[I; O; O; O]; [O; I; O; O]; [O; O; I; O]; [a'; b'; c'; I]] 3 j)); [apply small_fin|].
    cases4 i; try lia; cases4 j; try lia; cbn -[B2R one32 zero32]; rewrite ?one32_1, ?zero32_0; lra.
  - replace (B2R _ * B2R _ + B2R _ * B2R _) with (id4 i j).
    + rewrite rnd32_id by (unfold id4; destruct (Nat.eqb i j); [apply fmt_1|apply fmt32_0]). unfold id4. destruct (Nat.eqb i j); [apply small_1|apply small_0].
    + unfold k1, id4. cases4 i; try lia; cases4 j; try lia; cbn -[B2R one32 zero32]; rewrite ?one32_1, ?zero32_0, ?Ea, ?Eb, ?Ec; lra.
Qed.

(** The matrices of a translation and of its inverse, in either order,
    multiply to exactly the identity, however the sums are computed. *)
Theorem C94_translation_exact x y z T T1 : transMatrix x y z = Some (T, T1) -> fits x -> fits y -> fits z ->
  forall i j v, (i < 4)%nat -> (j < 4)%nat -> product T T1 i j v \/ product T1 T i j v -> is_real v (id4 i j).
Proof.
  unfold transMatrix. destruct (eq64 x y && eq64 y z && eq64 z zero64); [discriminate|]. intros E0; destruct (some_pair E0) as (<- & <-); clear E0; intros Fx Fy Fz.
  destruct (to32_opp x Fx) as (Fx' & Ex). destruct (to32_opp y Fy) as (Fy' & Ey). destruct (to32_opp z Fz) as (Fz' & Ez).
  intros i j v Hi Hj [H|H]; eapply trans_prod; try exact H; auto; rewrite ?Ex, ?Ey, ?Ez; lra.
Qed.

(** *** scales *)
Lemma rel32 x : bpow radix2 (-126) <= Rabs x -> exists e, Rabs e <= bpow radix2 (-24) /\ rnd32 x = x * (1 + e).
Proof.
  intros H. destruct (relative_error_N_FLT_ex radix2 (-149) 24 eq_refl (fun n => negb (Z.even n)) x H) as (e & B & E). exists e. split; [|exact E].
  eapply Rle_trans; [exact B|]. change (/ 2) with (bpow radix2 (-1)). rewrite <- bpow_plus. apply bpow_le. lia.
Qed.
Lemma rel64 x : bpow radix2 (-1022) <= Rabs x -> exists e, Rabs e <= bpow radix2 (-53) /\ rnd64 x = x * (1 + e).
Proof.
  intros H. destruct (relative_error_N_FLT_ex radix2 (-1074) 53 eq_refl (fun n => negb (Z.even n)) x H) as (e & B & E). exists e. split; [|exact E].
  eapply Rle_trans; [exact B|]. change (/ 2) with (bpow radix2 (-1)). rewrite <- bpow_plus. apply bpow_le. lia.
Qed.
Lemma div_ok (x : b64) : is_finite x = true -> B2R x <> 0 -> Rabs (rnd64 (1 / B2R x)) < bpow radix2 1024 -> is_finite (div64 one64 x) = true /\ B2R (div64 one64 x) = rnd64 (1 / B2R x).
Proof.
  intros F N S. pose proof (Bdiv_correct 53 1024 p53 l1024 mode_NE one64 x N) as H. change (round_mode mode_NE) with ZnearestE in H. rewrite one64_1 in H. fold (rnd64 (1 / B2R x)) in H.
  rewrite Rlt_bool_true in H by exact S. destruct H as (H1 & H2 & _). split; [exact H2|exact H1].
Qed.
Lemma eps_small e n : (n < 0)%Z -> Rabs e <= bpow radix2 n -> / 2 <= 1 + e <= 3 / 2.
Proof.
  intros N H. assert (bpow radix2 n <= bpow radix2 (-1)) by (apply bpow_le; lia). change (bpow radix2 (-1)) with (/ 2) in *. apply Rabs_le_inv in H. lra.
Qed.
Lemma abs_mul_between x m lo hi : / 2 <= m <= 3 / 2 -> lo <= Rabs x <= hi -> 0 <= lo -> lo / 2 <= Rabs (x * m) <= hi * 2.
Proof.
  intros Hm Hx L. rewrite Rabs_mult, (Rabs_pos_eq m) by lra. split; nra.
Qed.
Lemma recip_between x lo : 0 < lo -> lo <= Rabs x <= / lo -> lo <= Rabs (1 / x) <= / lo.
Proof.
  intros L (A & B). unfold Rdiv. rewrite Rmult_1_l, Rabs_inv. split.
  - rewrite <- (Rinv_inv lo) at 1. apply Rinv_le_contravar; lra.
  - apply Rinv_le_contravar; lra.
Qed.
Definition near (n : Z) (r : R) : Prop := Rabs (r - 1) <= bpow radix2 n.
Lemma scale_item x : moderate x -> is_finite (to32 x) = true /\ is_finite (to32 (div64 one64 (or_small x))) = true /\
  small32 (rnd32 (B2R (to32 x) * B2R (to32 (div64 one64 (or_small x))))) /\ near (-22) (rnd32 (B2R (to32 x) * B2R (to32 (div64 one64 (or_small x))))).
Proof.
  intros (F & M). set (lo := bpow radix2 (-120)) in *. assert (L : 0 < lo) by apply bpow_gt_0. assert (HI : bpow radix2 120 = / lo) by (unfold lo; rewrite <- bpow_opp; reflexivity). rewrite HI in M.
  assert (N : B2R x <> 0) by (intros E; rewrite E, Rabs_R0 in M; lra).
  assert (OS : or_small x = x) by (destruct x as [s| | |]; try reflexivity; cbn in N; congruence). rewrite OS. clear OS.
  assert (B126 : bpow radix2 (-126) <= lo / 4) by (replace (lo / 4) with (bpow radix2 (-122)); [apply bpow_le; lia|unfold lo; change (-122)%Z with (-120 + -2)%Z; rewrite bpow_plus; reflexivity]).
  assert (B128 : / lo * 4 < bpow radix2 128) by (rewrite <- HI; replace (bpow radix2 120 * 4) with (bpow radix2 122); [apply bpow_lt; lia|change 122%Z with (120 + 2)%Z; rewrite bpow_plus; reflexivity]).
  assert (B1022 : bpow radix2 (-1022) <= bpow radix2 (-126)) by (apply bpow_le; lia).
  assert (B1024 : bpow radix2 128 <= bpow radix2 1024) by (apply bpow_le; lia).
  assert (IL : 0 < / lo) by (apply Rinv_0_lt_compat; exact L).
  assert (L2 : 0 <= lo / 2) by lra.
  destruct (rel32 (B2R x)) as (e1 & E1 & R1); [lra|]. pose proof (abs_mul_between _ _ _ _ (eps_small _ (-24) eq_refl E1) M (Rlt_le _ _ L)) as Q1. rewrite <- R1 in Q1.
  destruct (to32_correct x F) as (F1 & V1); [unfold small32; lra|].
  pose proof (recip_between _ _ L M) as M'.
  destruct (rel64 (1 / B2R x)) as (e2 & E2 & R2); [lra|]. pose proof (abs_mul_between _ _ _ _ (eps_small _ (-53) eq_refl E2) M' (Rlt_le _ _ L)) as Q2. rewrite <- R2 in Q2.
  destruct (div_ok x F N) as (F2 & V2); [lra|].
  destruct (rel32 (rnd64 (1 / B2R x))) as (e3 & E3 & R3); [lra|]. pose proof (abs_mul_between _ _ _ _ (eps_small _ (-24) eq_refl E3) Q2 L2) as Q3. rewrite <- R3 in Q3.
  destruct (to32_correct (div64 one64 x) F2) as (F3 & V3); [unfold small32; rewrite V2; lra|].
  split; [exact F1|]. split; [exact F3|]. rewrite V1, V3, V2, R3, R1, R2.
  replace (B2R x * (1 + e1) * (1 / B2R x * (1 + e2) * (1 + e3))) with ((1 + e1) * (1 + e2) * (1 + e3)) by (field; exact N).
  assert (U : bpow radix2 (-24) = / 16777216) by reflexivity. assert (U' : bpow radix2 (-53) <= / 16777216 / 1024) by (change (/ 16777216 / 1024) with (/ 16777216 * / 1024); change (/ 16777216) with (bpow radix2 (-24)); change (/ 1024) with (bpow radix2 (-10)); rewrite <- bpow_plus; apply bpow_le; lia).
  rewrite U in *. apply Rabs_le_inv in E1. apply Rabs_le_inv in E2. apply Rabs_le_inv in E3.
  set (p := (1 + e1) * (1 + e2) * (1 + e3)). assert (P12 : Rabs ((1 + e1) * (1 + e2) - 1) <= / 16777216 * (1 + / 500)) by (apply Rabs_le; split; nra).
  apply Rabs_le_inv in P12. assert (P : Rabs (p - 1) <= / 16777216 * (2 + / 250)) by (unfold p; apply Rabs_le; split; nra). apply Rabs_le_inv in P.
  destruct (rel32 p) as (e4 & E4 & R4).
  - rewrite Rabs_pos_eq by lra. apply Rle_trans with (/ 2); [change (/ 2) with (bpow radix2 (-1)); apply bpow_le; lia|lra].
  - rewrite R4. rewrite U in E4. apply Rabs_le_inv in E4. unfold near. change (bpow radix2 (-22)) with (/ 4194304). assert (Rabs (p * (1 + e4) - 1) <= / 4194304) by (apply Rabs_le; split; nra). split; [|assumption].
    unfold small32. apply Rle_lt_trans with 2; [apply Rabs_le; apply Rabs_le_inv in H; lra|]. change 2 with (bpow radix2 1). apply bpow_lt. lia.
Qed.

(** The matrices of a scale and of its inverse, in either order, multiply to
    within 2^-22 of the identity, and off the diagonal exactly to it. *)
Theorem C94_scale_near x y z S0 S1 : scaleMatrix x y z = Some (S0, S1) -> moderate x -> moderate y -> moderate z ->
  forall i j v, (i < 4)%nat -> (j < 4)%nat -> product S0 S1 i j v \/ product S1 S0 i j v ->
  is_finite v = true /\ Rabs (B2R v - id4 i j) <= bpow radix2 (-22) /\ (i <> j -> B2R v = 0).
Proof.
  unfold scaleMatrix. destruct (eq64 x y && eq64 y z && eq64 z one64); [discriminate|]. intros E0; destruct (some_pair E0) as (<- & <-); clear E0; intros Mx My Mz.
  destruct (scale_item x Mx) as (Fx & Fx' & Sx & Nx). destruct (scale_item y My) as (Fy & Fy' & Sy & Ny). destruct (scale_item z Mz) as (Fz & Fz' & Sz & Nz).
  revert Fx Fx' Sx Nx Fy Fy' Sy Ny Fz Fz' Sz Nz.
  generalize (to32 x) (to32 y) (to32 z) (to32 (div64 one64 (or_small x))) (to32 (div64 one64 (or_small y))) (to32 (div64 one64 (or_small z))). clear.
  assert (G : forall a b c a' b' c' : b32, is_finite a = true -> is_finite a' = true -> small32 (rnd32 (B2R a * B2R a')) -> near (-22) (rnd32 (B2R a * B2R a')) ->
    is_finite b = true -> is_finite b' = true -> small32 (rnd32 (B2R b * B2R b')) -> near (-22) (rnd32 (B2R b * B2R b')) ->
    is_finite c = true -> is_finite c' = true -> small32 (rnd32 (B2R c * B2R c')) -> near (-22) (rnd32 (B2R c * B2R c')) ->
    forall i j v, (i < 4)%nat -> (j < 4)%nat ->
    product (at4 [[a; O; O; O]; [O; b; O; O]; [O; O; c; O]; [O; O; O; I]]) (at4 [[a'; O; O; O]; [O; b'; O; O]; [O; O; c'; O]; [O; O; O; I]]) i j v ->
    is_finite v = true /\ Rabs (B2R v - id4 i j) <= bpow radix2 (-22) /\ (i <> j -> B2R v = 0)).
  { intros a b c a' b' c' Fa Fa' Sa Na Fb Fb' Sb Nb Fc Fc' Sc Nc i j v Hi Hj H. unfold product in H.
    assert (FA : forall i j, is_finite (at4 [[a; O; O; O]; [O; b; O; O]; [O; O; c; O]; [O; O; O; I]] i j) = true) by (apply fin_at4; repeat (constructor; auto)).
    assert (FB : forall i j, is_finite (at4 [[a'; O; O; O]; [O; b'; O; O]; [O; O; c'; O]; [O; O; O; I]] i j) = true) by (apply fin_at4; repeat (constructor; auto)).
    assert (ZZ : rnd32 0 = 0) by apply (rnd32_id 0 fmt32_0). assert (BP : 0 < bpow radix2 (-22)) by apply bpow_gt_0. assert (R1 : rnd32 1 = 1) by apply (rnd32_id 1 fmt_1).
    apply (one_is _ _ (FA i) (fun k => FB k j) i) in H; [| lia | | ].
    - destruct H as (F & E). split; [exact F|]. rewrite E. unfold near in *. clear E F Sa Sb Sc. unfold id4.
      cases4 i; try lia; cases4 j; try lia; cbn -[B2R one32 zero32 bpow]; rewrite ?one32_1, ?zero32_0, ?Rmult_0_l, ?Rmult_0_r, ?Rmult_1_l, ?ZZ, ?R1, ?Rminus_0_r, ?Rabs_R0;
        (split; [try assumption; try lra; unfold Rminus; rewrite Rplus_opp_r, Rabs_R0; lra | intros N; try congruence]).
    - intros k Hk N. cases4 i; try lia; cases4 k; try lia; cbn -[B2R one32 zero32]; rewrite ?zero32_0; lra.
    - cases4 i; try lia; cases4 j; try lia; cbn -[B2R one32 zero32]; rewrite ?one32_1, ?zero32_0, ?Rmult_0_l, ?Rmult_0_r, ?Rmult_1_l, ?ZZ, ?R1; auto using small_0, small_1. }
  intros a b c a' b' c' ? ? Sa Na ? ? Sb Nb ? ? Sc Nc i j v Hi Hj [H|H]; [apply (G a b c a' b' c'); assumption|].
  apply (G a' b' c' a b c); try assumption; rewrite Rmult_comm; assumption.
Qed.

(** *** points *)
(** the homogeneous coordinates of a point *)
Definition vec (a b c d : b32) : nat -> b32 := fun k => nth k [a; b; c; d] zero32.
Lemma fin_vec a b c d : is_finite a = true -> is_finite b = true -> is_finite c = true -> is_finite d = true -> forall k, is_finite (vec a b c d k) = true.
Proof. intros A B C D k. unfold vec. cases4 k; try assumption. cbn. destruct k; reflexivity. Qed.
Lemma rnd_bound x e : (-100 <= e <= 127)%Z -> Rabs x <= bpow radix2 e -> Rabs (rnd32 x) <= bpow radix2 e.
Proof.
  intros E H. apply abs_round_le_generic; [apply v32|apply valid_rnd_N| |exact H]. apply generic_format_bpow. unfold SpecFloat.fexp, SpecFloat.emin. lia.
Qed.
Lemma move_item (a b c t u w : b32) d : is_finite a = true -> is_finite b = true -> is_finite c = true -> is_finite t = true -> is_finite u = true -> is_finite w = true ->
  is_real d 1 -> (forall j, (j < 3)%nat -> Rabs (B2R (vec a b c d j)) <= bpow radix2 126 /\ Rabs (B2R (vec t u w d j)) <= bpow radix2 126) ->
  forall j v, (j < 4)%nat -> moved (vec a b c d) (at4 [[I; O; O; O]; [O; I; O; O]; [O; O; I; O]; [t; u; w; I]]) j v ->
  is_real v (if Nat.ltb j 3 then rnd32 (B2R (vec a b c d j) + B2R (vec t u w d j)) else 1).
Proof.
  intros Fa Fb Fc Ft Fu Fw (Fd & Ed) HB j v Hj H. unfold moved in H.
  assert (FB : forall i j, is_finite (at4 [[I; O; O; O]; [O; I; O; O]; [O; O; I; O]; [t; u; w; I]] i j) = true) by (apply fin_at4; repeat (constructor; auto)).
  pose proof (fin_vec a b c d Fa Fb Fc Fd) as FA.
  set (k1 := if Nat.ltb j 3 then j else 0%nat). assert (K1 : (k1 < 3)%nat) by (unfold k1; destruct (Nat.ltb_spec j 3); lia).
  assert (V1 : B2R (vec a b c d k1) * B2R (at4 [[I; O; O; O]; [O; I; O; O]; [O; O; I; O]; [t; u; w; I]] k1 j) = B2R (if Nat.ltb j 3 then vec a b c d k1 else O))
    by (unfold k1, vec; cases4 j; try lia; cbn -[B2R one32 zero32]; rewrite ?one32_1, ?zero32_0; lra).
  assert (V2 : B2R (vec a b c d 3) * B2R (at4 [[I; O; O; O]; [O; I; O; O]; [O; O; I; O]; [t; u; w; I]] 3 j) = B2R (if Nat.ltb j 3 then vec t u w d j else I))
    by (unfold vec; cases4 j; try lia; cbn -[B2R one32 zero32]; rewrite ?Ed, ?one32_1; lra).
  apply (two_is _ _ FA (fun k => FB k j) k1 3) in H; [| lia | lia | lia | | rewrite V1; apply fmt_B2R | rewrite V2; apply fmt_B2R | rewrite V1; apply small_fin | rewrite V2; apply small_fin | ].
  - destruct H as (F & E). split; [exact F|]. rewrite E, V1, V2. unfold k1. destruct (Nat.ltb j 3); [reflexivity|]. rewrite one32_1, zero32_0, Rplus_0_l. apply rnd32_id, fmt_1.
  - intros k Hk N1 N2. unfold k1 in N1. unfold vec. cases4 j; try lia; cases4 k; try lia; cbn -[B2R one32 zero32] in *; try congruence; rewrite ?zero32_0; lra.
  - rewrite V1, V2. unfold k1. destruct (Nat.ltb_spec j 3) as [L|L].
    + destruct (HB j L) as (B1 & B2). apply Rle_lt_trans with (bpow radix2 127); [|apply bpow_lt; lia]. apply rnd_bound; [lia|]. eapply Rle_trans; [apply Rabs_triang|].
      change 127%Z with (1 + 126)%Z. rewrite bpow_plus. change (bpow radix2 1) with 2. lra.
    + rewrite one32_1, zero32_0, Rplus_0_l, (rnd32_id 1 fmt_1). apply small_1.
Qed.
Lemma plus32 x y : fmt32 x -> fmt32 y -> exists e, Rabs e <= bpow radix2 (-24) /\ rnd32 (x + y) = (x + y) * (1 + e).
Proof.
  intros X Y. destruct (@FLT_plus_error_N_ex radix2 (-149) 24 p24 (fun n => negb (Z.even n)) x y X Y) as (e & B & E). exists e. split; [|exact E].
  eapply Rle_trans; [exact B|]. unfold u_ro. change (/ 2) with (bpow radix2 (-1)). rewrite <- bpow_plus. change (-1 + (- (24) + 1))%Z with (-24)%Z.
  generalize (bpow_gt_0 radix2 (-24)). generalize (bpow radix2 (-24)). intros u P. apply (Rmult_le_reg_r (1 + u)); [lra|]. unfold Rdiv. rewrite Rmult_assoc, Rinv_l by lra. nra.
Qed.

(** A point moved by a translation and then by its inverse comes back to
    within 2^-22 of the distances in each coordinate, and its fourth
    coordinate is exactly 1. *)
Theorem C94_there_and_back x y z T T1 a b c q0 q1 q2 q3 r0 r1 r2 r3 :
  transMatrix x y z = Some (T, T1) -> fits x -> fits y -> fits z ->
  is_finite a = true -> is_finite b = true -> is_finite c = true ->
  (forall j, (j < 3)%nat -> Rabs (B2R (vec a b c I j)) <= bpow radix2 124 /\ Rabs (B2R (T 3%nat j)) <= bpow radix2 124) ->
  (forall j, (j < 4)%nat -> moved (vec a b c I) T j (vec q0 q1 q2 q3 j)) ->
  (forall j, (j < 4)%nat -> moved (vec q0 q1 q2 q3) T1 j (vec r0 r1 r2 r3 j)) ->
  is_real r3 1 /\
  forall j, (j < 3)%nat -> is_finite (vec r0 r1 r2 r3 j) = true /\
    Rabs (B2R (vec r0 r1 r2 r3 j) - B2R (vec a b c I j)) <= bpow radix2 (-22) * (Rabs (B2R (vec a b c I j)) + Rabs (B2R (T 3%nat j))).
Proof.
  unfold transMatrix. destruct (eq64 x y && eq64 y z && eq64 z zero64); [discriminate|]. intros E0; destruct (some_pair E0) as (<- & <-); clear E0; intros Fx Fy Fz Fa Fb Fc HB H1 H2.
  destruct (to32_opp x Fx) as (Fx' & Ex). destruct (to32_opp y Fy) as (Fy' & Ey). destruct (to32_opp z Fz) as (Fz' & Ez).
  unfold fits in *. revert Fx Fy Fz Fx' Fy' Fz' Ex Ey Ez HB H1 H2. generalize (to32 x) (to32 y) (to32 z) (to32 (Bopp x)) (to32 (Bopp y)) (to32 (Bopp z)). clear x y z.
  intros t u w t' u' w' Ft Fu Fw Ft' Fu' Fw' Et Eu Ew HB H1 H2.
  assert (VT : forall j, (j < 3)%nat -> at4 [[I; O; O; O]; [O; I; O; O]; [O; O; I; O]; [t; u; w; I]] 3 j = vec t u w I j) by (intros j Hj; cases3 j; try lia; reflexivity).
  assert (M1 : is_real I 1) by (split; [reflexivity|apply one32_1]).
  assert (B4 : bpow radix2 126 = 4 * bpow radix2 124) by (change 126%Z with (2 + 124)%Z; rewrite bpow_plus; reflexivity).
  assert (B5 : bpow radix2 125 = 2 * bpow radix2 124) by (change 125%Z with (1 + 124)%Z; rewrite bpow_plus; reflexivity).
  assert (BP : 0 < bpow radix2 124) by apply bpow_gt_0.
  assert (Q : forall j, (j < 4)%nat -> is_real (vec q0 q1 q2 q3 j) (if Nat.ltb j 3 then rnd32 (B2R (vec a b c I j) + B2R (vec t u w I j)) else 1)).
  { intros j Hj. apply (move_item a b c t u w I); auto. intros k Hk. destruct (HB k Hk) as (A & B). rewrite (VT k Hk) in B. lra. }
  assert (E' : forall j, (j < 3)%nat -> B2R (vec t' u' w' I j) = - B2R (vec t u w I j)) by (intros j Hj; cases3 j; try lia; assumption).
  assert (R : forall j, (j < 4)%nat -> is_real (vec r0 r1 r2 r3 j) (if Nat.ltb j 3 then rnd32 (B2R (vec q0 q1 q2 q3 j) + B2R (vec t' u' w' q3 j)) else 1)).
  { intros j Hj. apply (move_item q0 q1 q2 t' u' w' q3); auto; try (apply (Q 0%nat); lia); try (apply (Q 1%nat); lia); try (apply (Q 2%nat); lia); try (apply (Q 3%nat); lia).
    intros k Hk. destruct (HB k Hk) as (A & B). rewrite (VT k Hk) in B. assert (K4 : (k < 4)%nat) by lia. destruct (Q k K4) as (_ & E). destruct (Nat.ltb_spec k 3); [|lia]. split.
    - rewrite E. apply rnd_bound; [lia|]. eapply Rle_trans; [apply Rabs_triang|]. lra.
    - replace (vec t' u' w' q3 k) with (vec t' u' w' I k) by (cases3 k; try lia; reflexivity). rewrite (E' k Hk), Rabs_Ropp. lra. }
  split; [apply (R 3%nat); lia|]. intros j Hj. assert (J4 : (j < 4)%nat) by lia. destruct (Q j J4) as (_ & EQ). destruct (R j J4) as (FR & ER). destruct (Nat.ltb_spec j 3); [|lia]. split; [exact FR|].
  rewrite ER. replace (vec t' u' w' q3 j) with (vec t' u' w' I j) by (cases3 j; try lia; reflexivity). rewrite (VT j Hj).
  destruct (plus32 (B2R (vec q0 q1 q2 q3 j)) (B2R (vec t' u' w' I j)) (fmt_B2R _) (fmt_B2R _)) as (e2 & B2 & ->).
  rewrite EQ, (E' j Hj). destruct (plus32 (B2R (vec a b c I j)) (B2R (vec t u w I j)) (fmt_B2R _) (fmt_B2R _)) as (e1 & B1 & ->).
  generalize (B2R (vec a b c I j)) (B2R (vec t u w I j)). intros p s. change (bpow radix2 (-24)) with (/ 16777216) in *. change (bpow radix2 (-22)) with (/ 4194304).
  replace (((p + s) * (1 + e1) + - s) * (1 + e2) - p) with (p * e2 + (p + s) * (e1 * (1 + e2))) by ring.
  assert (T1 : Rabs (p * e2) <= Rabs p * / 16777216) by (rewrite Rabs_mult; apply Rmult_le_compat_l; [apply Rabs_pos|exact B2]).
  assert (T2 : Rabs (e1 * (1 + e2)) <= / 16777216 * 2) by (rewrite Rabs_mult; apply Rmult_le_compat; [apply Rabs_pos|apply Rabs_pos|exact B1|apply Rabs_le; apply Rabs_le_inv in B2; lra]).
  assert (T3 : Rabs ((p + s) * (e1 * (1 + e2))) <= (Rabs p + Rabs s) * (/ 16777216 * 2)) by (rewrite Rabs_mult; apply Rmult_le_compat; [apply Rabs_pos|apply Rabs_pos|apply Rabs_triang|exact T2]).
  eapply Rle_trans; [apply Rabs_triang|]. pose proof (Rabs_pos p). pose proof (Rabs_pos s). lra.
Qed.

(** *** what does not hold *)
Lemma nan_sum a b k v : (k < 4)%nat -> (exists s s', a k = B754_zero s /\ b k = B754_infinity s' \/ a k = B754_infinity s /\ b k = B754_zero s') -> dot4 a b v -> v = B754_nan.
Proof.
  intros Hk HN (l & P & H). assert (L : In k l) by (apply (Permutation_in _ (Permutation_sym P)); cases4 k; try lia; cbn; tauto). clear P.
  assert (M : mul32 (a k) (b k) = B754_nan) by (destruct HN as (s & s' & [(-> & ->) | (-> & ->)]); reflexivity).
  assert (Q : forall c, fma32 (a k) (b k) c = B754_nan) by (intros c; destruct HN as (s & s' & [(-> & ->) | (-> & ->)]); reflexivity).
  induction H as [|k'|l1 l2 u w H1 I1 H2 I2|k' l u H1 I1].
  - destruct L.
  - destruct L as [->|[]]. exact M.
  - apply in_app_or in L. destruct L as [L|L]; [rewrite (I1 L); reflexivity|rewrite (I2 L)]. destruct u; reflexivity.
  - destruct L as [->|L]; [apply Q|]. rewrite (I1 L). unfold fma32, Bfma. destruct (a k'), (b k'); reflexivity.
Qed.
(** A scale with a zero component: the item on the diagonal is NaN. *)
Theorem C94_zero_scale_refuted x y z S0 S1 k s : scaleMatrix x y z = Some (S0, S1) -> (k < 3)%nat -> nth k [x; y; z] one64 = B754_zero s ->
  forall v, product S0 S1 k k v \/ product S1 S0 k k v -> v = B754_nan.
Proof.
  unfold scaleMatrix. destruct (eq64 x y && eq64 y z && eq64 z one64); [discriminate|]. intros E0; destruct (some_pair E0) as (<- & <-); clear E0. intros Hk HZ v H.
  assert (V : to32 (div64 one64 (or_small (B754_zero s))) = B754_infinity false) by (vm_compute; reflexivity).
  assert (Z : forall x', x' = B754_zero s -> to32 x' = B754_zero s /\ to32 (div64 one64 (or_small x')) = B754_infinity false) by (intros x' ->; split; [reflexivity|exact V]).
  destruct H as [H|H]; unfold product in H; (eapply (nan_sum _ _ k) in H; [exact H | lia | ]); [exists s, false; left | exists false, s; right];
  (cases3 k; try lia; cbn [nth] in HZ; destruct (Z _ HZ) as (E1 & E2); unfold at4; cbn [nth]; split; assumption).
Qed.

(** A translation further than binary32 can hold: an item of the last row is NaN. *)
Lemma nodup_app (l1 l2 : list nat) : NoDup (l1 ++ l2) -> NoDup l1 /\ NoDup l2 /\ forall x, In x l1 -> ~ In x l2.
Proof.
  induction l1 as [|h t IH]; cbn; intros D; [split; [constructor|split; [exact D|intros x []]]|]. inversion D as [|? ? N D']; subst. destruct (IH D') as (A & B & C). split; [|split; [exact B|]].
  - constructor; [intros X; apply N; apply in_or_app; left; exact X|exact A].
  - intros x [->|X]; [intros Y; apply N; apply in_or_app; right; exact Y|apply C; exact X].
Qed.
Lemma over_norm z e s : z <> 0%Z -> ~ small32 (rnd32 (F2R (Float radix2 z e))) -> binary_normalize 24 128 p24 l128 mode_NE z e s = B754_infinity (Z.ltb z 0).
Proof.
  intros N S. pose proof (binary_normalize_correct 24 128 p24 l128 mode_NE z e s) as H. cbv zeta in H. change (round_mode mode_NE) with ZnearestE in H.
  fold (rnd32 (F2R (Float radix2 z e))) in H. rewrite Rlt_bool_false in H by (apply Rnot_lt_le; exact S).
  replace (Rlt_bool (F2R (Float radix2 z e)) 0) with (Z.ltb z 0) in H.
  - destruct (binary_normalize 24 128 p24 l128 mode_NE z e s); try discriminate H. cbn in H. congruence.
  - symmetry. destruct (Z.ltb_spec z 0) as [L|L].
    + apply Rlt_bool_true. apply F2R_lt_0. exact L.
    + apply Rlt_bool_false. apply F2R_ge_0. exact L.
Qed.
Lemma to32_over (x : b64) : is_finite x = true -> ~ fits x -> exists s, to32 x = B754_infinity s /\ to32 (Bopp x) = B754_infinity (negb s).
Proof.
  intros F N. assert (S : ~ small32 (rnd32 (B2R x))) by (intros S; apply N; apply (to32_correct x F S)).
  destruct x as [s|s| |s m e B]; try discriminate; [exfalso; apply N; reflexivity|]. exists s. cbn [to32 Bopp]. split.
  - rewrite over_norm; [destruct s; reflexivity|destruct s; discriminate|exact S].
  - rewrite over_norm; [destruct s; reflexivity|destruct s; discriminate|]. intros S'. apply S. clear S. unfold small32 in *.
    replace (F2R {| Fnum := cond_Zopp (negb s) (Zpos m); Fexp := e |}) with (- B2R (@B754_finite 53 1024 s m e B)) in S'; [rewrite rnd32_opp, Rabs_Ropp in S'; exact S'|].
    unfold B2R. rewrite <- F2R_Zopp. f_equal. f_equal. destruct s; reflexivity.
Qed.
Lemma inf_sum a b k1 k2 s v : (k1 < 4)%nat -> (k2 < 4)%nat -> k1 <> k2 ->
  a k1 = B754_infinity s -> b k1 = one32 -> a k2 = one32 -> b k2 = B754_infinity (negb s) ->
  (forall k, (k < 4)%nat -> k <> k1 -> k <> k2 -> is_finite (a k) = true /\ b k = zero32) -> dot4 a b v -> v = B754_nan.
Proof.
  intros L1 L2 N A1 B1 A2 B2 Z (l & P & H).
  set (inv := fun (m1 m2 : bool) (v : b32) => match m1, m2 with true, true => v = B754_nan | true, false => v = B754_infinity s | false, true => v = B754_infinity (negb s) | false, false => exists z, v = B754_zero z end).
  assert (G : NoDup l -> (forall k, In k l -> (k < 4)%nat) -> inv (has l k1) (has l k2) v).
  { clear P. induction H as [|k|l1 l2 u w H1 I1 H2 I2|k l u H1 I1]; intros D B.
    - exists false. reflexivity.
    - cbn [has existsb]. rewrite !orb_false_r. assert (Hk : (k < 4)%nat) by (apply B; left; reflexivity).
      destruct (Nat.eqb_spec k1 k) as [<-|N1]; [replace (Nat.eqb k2 k1) with false by (symmetry; apply Nat.eqb_neq; auto); cbn; rewrite A1, B1; destruct s; reflexivity|].
      destruct (Nat.eqb_spec k2 k) as [<-|N2]; [cbn; rewrite A2, B2; destruct s; reflexivity|].
      destruct (Z k Hk (not_eq_sym N1) (not_eq_sym N2)) as (F & E). cbn. rewrite E. destruct (a k); try discriminate; eexists; reflexivity.
    - destruct (nodup_app _ _ D) as (D1 & D2 & D3).
      specialize (I1 D1 (fun k Hk => B k (in_or_app _ _ _ (or_introl Hk)))). specialize (I2 D2 (fun k Hk => B k (in_or_app _ _ _ (or_intror Hk)))).
      assert (DJ : forall k, has l1 k && has l2 k = false).
      { intros k. destruct (has l1 k) eqn:X1; [|reflexivity]. destruct (has l2 k) eqn:X2; [|reflexivity]. exfalso. apply has_in in X1. apply has_in in X2. exact (D3 _ X1 X2). }
      rewrite !has_app. pose proof (DJ k1) as J1. pose proof (DJ k2) as J2. unfold inv in *. destruct (has l1 k1), (has l2 k1), (has l1 k2), (has l2 k2); try discriminate; cbn [orb]; try (destruct I1 as (z1 & ->)); try (destruct I2 as (z2 & ->)); try subst; try (destruct s; reflexivity); try (destruct s, z1; reflexivity); try (destruct s, z2; reflexivity); try (destruct z1, z2; eexists; reflexivity).
    - assert (Hk : (k < 4)%nat) by (apply B; left; reflexivity). inversion D as [|? ? NI D']; subst. specialize (I1 D' (fun k Hk => B k (or_intror Hk))). cbn [has existsb]. fold (has l k1) (has l k2).
      destruct (has l k) eqn:X; [apply has_in in X; contradiction|].
      destruct (Nat.eqb_spec k1 k) as [<-|N1]; [replace (Nat.eqb k2 k1) with false by (symmetry; apply Nat.eqb_neq; auto); rewrite X in *; cbn [orb]; unfold inv in *; destruct (has l k2); [subst u|destruct I1 as (z1 & ->)]; unfold fma32; rewrite A1, B1; destruct s; try reflexivity; destruct z1; reflexivity|].
      destruct (Nat.eqb_spec k2 k) as [<-|N2]; [rewrite X in *; cbn [orb]; unfold inv in *; destruct (has l k1); [subst u|destruct I1 as (z1 & ->)]; unfold fma32; rewrite A2, B2; destruct s; try reflexivity; destruct z1; reflexivity|].
      destruct (Z k Hk (not_eq_sym N1) (not_eq_sym N2)) as (F & E). cbn [orb]. unfold fma32. rewrite E. unfold inv in *. destruct (a k) as [za| | |za ? ? ?]; try discriminate; destruct (has l k1), (has l k2); try subst u; try reflexivity; destruct I1 as (z1 & ->); destruct za, z1; eexists; reflexivity. }
  assert (NL : NoDup l) by (apply (Permutation_NoDup (Permutation_sym P)); repeat constructor; cbn; intuition lia).
  assert (BL : forall k, In k l -> (k < 4)%nat) by (intros k Hk; apply (Permutation_in _ P) in Hk; cbn in Hk; intuition lia).
  specialize (G NL BL). replace (has l k1) with true in G; [replace (has l k2) with true in G; [exact G|]|]; symmetry; apply has_in; apply (Permutation_in _ (Permutation_sym P)); [clear - L2; cases4 k2|clear - L1; cases4 k1]; try lia; cbn; tauto.
Qed.
Theorem C94_far_translation_refuted x y z T T1 k : transMatrix x y z = Some (T, T1) -> is_finite x = true -> is_finite y = true -> is_finite z = true ->
  (k < 3)%nat -> ~ fits (nth k [x; y; z] zero64) ->
  forall v, product T T1 3 k v \/ product T1 T 3 k v -> v = B754_nan.
Proof.
  unfold transMatrix. destruct (eq64 x y && eq64 y z && eq64 z zero64); [discriminate|]. intros E0; destruct (some_pair E0) as (<- & <-); clear E0. intros Fx Fy Fz Hk HN v H.
  assert (C : forall c : b64, is_finite c = true -> is_finite (to32 c) = true /\ is_finite (to32 (Bopp c)) = true \/ exists s, to32 c = B754_infinity s /\ to32 (Bopp c) = B754_infinity (negb s)).
  { intros c Fc. destruct (is_finite (to32 c)) eqn:X; [left; split; [reflexivity|apply to32_opp; exact X]|right; apply to32_over; [exact Fc|unfold fits; congruence]]. }
  assert (HK : exists s, to32 (nth k [x; y; z] zero64) = B754_infinity s /\ to32 (Bopp (nth k [x; y; z] zero64)) = B754_infinity (negb s)) by (apply to32_over; [cases3 k; try lia; assumption|exact HN]).
  clear HN. revert HK H. pose proof (C x Fx) as Cx. pose proof (C y Fy) as Cy. pose proof (C z Fz) as Cz. clear C.
  assert (G : forall t u w t' u' w' : b32, (is_finite t = true /\ is_finite t' = true \/ exists s, t = B754_infinity s /\ t' = B754_infinity (negb s)) ->
    (is_finite u = true /\ is_finite u' = true \/ exists s, u = B754_infinity s /\ u' = B754_infinity (negb s)) -> (is_finite w = true /\ is_finite w' = true \/ exists s, w = B754_infinity s /\ w' = B754_infinity (negb s)) ->
    (exists s, nth k [t; u; w] zero32 = B754_infinity s /\ nth k [t'; u'; w'] zero32 = B754_infinity (negb s)) ->
    product (at4 [[I; O; O; O]; [O; I; O; O]; [O; O; I; O]; [t; u; w; I]]) (at4 [[I; O; O; O]; [O; I; O; O]; [O; O; I; O]; [t'; u'; w'; I]]) 3 k v -> v = B754_nan).
  { clear - Hk. intros t u w t' u' w' Ct Cu Cw (s & E1 & E2) H. unfold product in H.
    set (A := at4 [[I; O; O; O]; [O; I; O; O]; [O; O; I; O]; [t; u; w; I]] 3) in *. set (B := fun k0 => at4 [[I; O; O; O]; [O; I; O; O]; [O; O; I; O]; [t'; u'; w'; I]] k0 k) in *.
    assert (D : (forall k', (k' < 4)%nat -> k' <> k -> k' <> 3%nat -> is_finite (A k') = true /\ B k' = zero32) \/ exists k' s', (k' < 4)%nat /\ A k' = B754_infinity s' /\ B k' = B754_zero false).
    { assert (OK : forall k' (c c' : b32) (C : is_finite c = true /\ is_finite c' = true \/ exists s, c = B754_infinity s /\ c' = B754_infinity (negb s)), (k' < 3)%nat -> k' <> k -> A k' = c -> is_finite (A k') = true /\ B k' = zero32 \/ exists k' s', (k' < 4)%nat /\ A k' = B754_infinity s' /\ B k' = B754_zero false).
      { intros k' c c' C L N E. assert (BZ : B k' = zero32) by (unfold B; cases3 k; try lia; cases3 k'; try lia; reflexivity).
        destruct C as [(F1 & _)|(s' & E1' & _)]; [left; split; [rewrite E; exact F1|exact BZ]|right; exists k', s'; repeat split; [lia|rewrite E; exact E1'|exact BZ]]. }
      destruct (Nat.eq_dec 0 k) as [K0|K0]; destruct (Nat.eq_dec 1 k) as [K1|K1]; try lia; destruct (Nat.eq_dec 2 k) as [K2|K2]; try lia.
      - destruct (OK 1%nat u u' Cu) as [R1|R1]; try lia; try reflexivity; [|right; exact R1]. destruct (OK 2%nat w w' Cw) as [R2|R2]; try lia; try reflexivity; [|right; exact R2]. left. intros k' L N1 N2. cases4 k'; try lia; assumption.
      - destruct (OK 0%nat t t' Ct) as [R1|R1]; try lia; try reflexivity; [|right; exact R1]. destruct (OK 2%nat w w' Cw) as [R2|R2]; try lia; try reflexivity; [|right; exact R2]. left. intros k' L N1 N2. cases4 k'; try lia; assumption.
      - destruct (OK 0%nat t t' Ct) as [R1|R1]; try lia; try reflexivity; [|right; exact R1]. destruct (OK 1%nat u u' Cu) as [R2|R2]; try lia; try reflexivity; [|right; exact R2]. left. intros k' L N1 N2. cases4 k'; try lia; assumption. }
    destruct D as [D|(k' & s' & L & E1' & E2')].
    - apply (inf_sum A B k 3 s); try lia; try assumption; try reflexivity; unfold A, B; cases3 k; try lia; try reflexivity; assumption.
    - apply (nan_sum A B k'); [exact L|exists s', false; right; split; assumption|exact H]. }
  intros (s & E1 & E2) [H|H]; (eapply G in H; [exact H| | | | ]); auto.
  - exists s. cases3 k; try lia; split; assumption.
  - destruct Cx as [(? & ?)|(s0 & ? & ?)]; [left; split; assumption|right; exists (negb s0); rewrite negb_involutive; split; assumption].
  - destruct Cy as [(? & ?)|(s0 & ? & ?)]; [left; split; assumption|right; exists (negb s0); rewrite negb_involutive; split; assumption].
  - destruct Cz as [(? & ?)|(s0 & ? & ?)]; [left; split; assumption|right; exists (negb s0); rewrite negb_involutive; split; assumption].
  - exists (negb s). rewrite negb_involutive. cases3 k; try lia; split; assumption.
Qed.

(** 41.0 *)
Definition f41 : b64 := @B754_finite 53 1024 false 5770237022568448 (-47) eq_refl.
Lemma f41_is : B2R f41 = 41.
Proof. cbn. unfold F2R. cbn. lra. Qed.
(** A scale and its inverse do not always multiply to exactly the identity:
    scaling by 41 does not, in any order of the additions. *)
Theorem C94_scale_exact_refuted : exists x S0 S1, moderate x /\ scaleMatrix x x x = Some (S0, S1) /\ forall k v, (k < 3)%nat -> product S0 S1 k k v -> B2R v <> 1.
Proof.
  exists f41. assert (M : moderate f41).
  { split; [reflexivity|]. rewrite f41_is, Rabs_pos_eq by lra. split.
    - apply Rle_trans with (bpow radix2 0); [apply bpow_le; lia|cbn; lra].
    - apply Rle_trans with (bpow radix2 10); [cbn; lra|apply bpow_le; lia]. }
  destruct (scale_item f41 M) as (F & F' & S & _). revert F F' S.
  assert (V : B2R (mul32 (to32 f41) (to32 (div64 one64 (or_small f41)))) <> 1).
  { replace (B2R (mul32 (to32 f41) (to32 (div64 one64 (or_small f41))))) with (SF2R radix2 (B2SF (mul32 (to32 f41) (to32 (div64 one64 (or_small f41)))))) by apply SF2R_B2SF.
    replace (B2SF (mul32 (to32 f41) (to32 (div64 one64 (or_small f41))))) with (SpecFloat.S754_finite false 16777215 (-24)) by (vm_compute; reflexivity). cbn. unfold F2R. cbn. lra. }
  unfold scaleMatrix. replace (eq64 f41 f41 && eq64 f41 f41 && eq64 f41 one64) with false by (vm_compute; reflexivity).
  do 2 eexists. split; [exact M|]. split; [reflexivity|]. revert F F' S V. generalize (to32 f41) (to32 (div64 one64 (or_small f41))). clear. intros a a' F F' S V k v Hk H. unfold product in H.
  assert (FA : forall i j, is_finite (at4 [[a; O; O; O]; [O; a; O; O]; [O; O; a; O]; [O; O; O; I]] i j) = true) by (apply fin_at4; repeat (constructor; auto)).
  assert (FB : forall i j, is_finite (at4 [[a'; O; O; O]; [O; a'; O; O]; [O; O; a'; O]; [O; O; O; I]] i j) = true) by (apply fin_at4; repeat (constructor; auto)).
  destruct (mul_ok a a' _ F F' eq_refl S) as (_ & E). rewrite E in V.
  apply (one_is _ _ (FA k) (fun k0 => FB k0 k) k) in H; [| lia | | ].
  - destruct H as (_ & ->). cases3 k; try lia; exact V.
  - intros k0 Hk0 N. cases3 k; try lia; cases4 k0; try lia; cbn -[B2R one32 zero32]; rewrite ?zero32_0; lra.
  - cases3 k; try lia; exact S.
Qed.

(** two numbers of the format this close are the same *)
Lemma fmt_apart r t : fmt32 r -> fmt32 t -> t <> 0 -> Rabs (r - t) <= bpow radix2 (-25) * Rabs t -> r = t.
Proof.
  intros Fr Ft N H. set (e := (cexp radix2 (SpecFloat.fexp 24 128) t - 1)%Z).
  assert (Ht : Rabs t < bpow radix2 (e + 25)).
  { eapply Rlt_le_trans; [apply (bpow_mag_gt radix2 t)|]. apply bpow_le. unfold e, cexp, SpecFloat.fexp. lia. }
  assert (Hr : Rabs t / 2 <= Rabs r).
  { assert (Q : Rabs (r - t) <= / 2 * Rabs t) by (eapply Rle_trans; [exact H|]; apply Rmult_le_compat_r; [apply Rabs_pos|change (/ 2) with (bpow radix2 (-1)); apply bpow_le; lia]).
    pose proof (Rabs_triang_inv t r) as Q'. rewrite Rabs_minus_sym in Q'. lra. }
  assert (Nr : r <> 0) by (intros ->; rewrite Rabs_R0 in Hr; pose proof (Rabs_pos_lt t N); lra).
  assert (Er : (e <= cexp radix2 (SpecFloat.fexp 24 128) r)%Z).
  { assert (MM : (mag radix2 t - 1 <= mag radix2 r)%Z).
    { replace (mag radix2 t - 1)%Z with (mag radix2 t + -1)%Z by lia. rewrite <- (mag_mult_bpow radix2 t (-1) N). apply mag_le_abs; [apply Rmult_integral_contrapositive_currified; [exact N|apply Rgt_not_eq, bpow_gt_0]|].
      rewrite Rabs_mult, (Rabs_pos_eq (bpow radix2 (-1))) by apply bpow_ge_0. exact Hr. }
    unfold e, cexp, SpecFloat.fexp in *. lia. }
  assert (MZ : forall u, fmt32 u -> (e <= cexp radix2 (SpecFloat.fexp 24 128) u)%Z -> exists n, u = IZR n * bpow radix2 e).
  { intros u Fu Eu. exists (Ztrunc (scaled_mantissa radix2 (SpecFloat.fexp 24 128) u) * 2 ^ (cexp radix2 (SpecFloat.fexp 24 128) u - e))%Z.
    rewrite mult_IZR. change 2%Z with (radix_val radix2). rewrite IZR_Zpower by lia. rewrite Rmult_assoc, <- bpow_plus. replace (cexp radix2 (SpecFloat.fexp 24 128) u - e + e)%Z with (cexp radix2 (SpecFloat.fexp 24 128) u) by lia. exact Fu. }
  destruct (MZ r Fr Er) as (n & En). destruct (MZ t Ft) as (m & Em); [unfold e; lia|].
  assert (P : 0 < bpow radix2 e) by apply bpow_gt_0.
  assert (L : Rabs (r - t) < bpow radix2 e).
  { eapply Rle_lt_trans; [exact H|]. replace (bpow radix2 e) with (bpow radix2 (-25) * bpow radix2 (e + 25)) by (rewrite <- bpow_plus; f_equal; lia). apply Rmult_lt_compat_l; [apply bpow_gt_0|exact Ht]. }
  rewrite En, Em in L. replace (IZR n * bpow radix2 e - IZR m * bpow radix2 e) with (IZR (n - m) * bpow radix2 e) in L by (rewrite minus_IZR; ring).
  rewrite Rabs_mult, (Rabs_pos_eq (bpow radix2 e)) in L by lra. assert (L1 : Rabs (IZR (n - m)) < 1) by nra. rewrite <- abs_IZR in L1. apply lt_IZR in L1. rewrite En, Em. f_equal. f_equal. lia.
Qed.
Lemma lost p t : fmt32 p -> fmt32 t -> t <> 0 -> Rabs p <= bpow radix2 (-26) * Rabs t -> rnd32 (p + t) = t.
Proof.
  intros Fp Ft N H. apply fmt_apart; [apply fmt32_rnd|exact Ft|exact N|].
  destruct (round_N_pt radix2 (SpecFloat.fexp 24 128) (fun n => negb (Z.even n)) (p + t)) as (_ & Q). specialize (Q t Ft). fold (rnd32 (p + t)) in Q.
  replace (t - (p + t)) with (- p) in Q by ring. rewrite Rabs_Ropp in Q.
  replace (rnd32 (p + t) - t) with ((rnd32 (p + t) - (p + t)) + p) by ring. eapply Rle_trans; [apply Rabs_triang|].
  replace (bpow radix2 (-25)) with (2 * bpow radix2 (-26)) by (change 2 with (bpow radix2 1); rewrite <- bpow_plus; reflexivity). lra.
Qed.
(** A point nearer the origin than 2^-26 of the distance comes back as 0. *)
Theorem C94_near_points_lost_refuted x y z T T1 a b c q0 q1 q2 q3 r0 r1 r2 r3 k :
  transMatrix x y z = Some (T, T1) -> fits x -> fits y -> fits z ->
  is_finite a = true -> is_finite b = true -> is_finite c = true ->
  (forall j, (j < 3)%nat -> Rabs (B2R (vec a b c I j)) <= bpow radix2 124 /\ Rabs (B2R (T 3%nat j)) <= bpow radix2 124) ->
  (forall j, (j < 4)%nat -> moved (vec a b c I) T j (vec q0 q1 q2 q3 j)) ->
  (forall j, (j < 4)%nat -> moved (vec q0 q1 q2 q3) T1 j (vec r0 r1 r2 r3 j)) ->
  (k < 3)%nat -> B2R (T 3%nat k) <> 0 -> Rabs (B2R (vec a b c I k)) <= bpow radix2 (-26) * Rabs (B2R (T 3%nat k)) ->
  B2R (vec r0 r1 r2 r3 k) = 0.
Proof.
  unfold transMatrix. destruct (eq64 x y && eq64 y z && eq64 z zero64); [discriminate|]. intros E0; destruct (some_pair E0) as (<- & <-); clear E0; intros Fx Fy Fz Fa Fb Fc HB H1 H2 Hk NZ HL.
  destruct (to32_opp x Fx) as (Fx' & Ex). destruct (to32_opp y Fy) as (Fy' & Ey). destruct (to32_opp z Fz) as (Fz' & Ez).
  unfold fits in *. revert Fx Fy Fz Fx' Fy' Fz' Ex Ey Ez HB H1 H2 NZ HL. generalize (to32 x) (to32 y) (to32 z) (to32 (Bopp x)) (to32 (Bopp y)) (to32 (Bopp z)). clear x y z.
  intros t u w t' u' w' Ft Fu Fw Ft' Fu' Fw' Et Eu Ew HB H1 H2 NZ HL.
  assert (VT : forall j, (j < 3)%nat -> at4 [[I; O; O; O]; [O; I; O; O]; [O; O; I; O]; [t; u; w; I]] 3 j = vec t u w I j) by (intros j Hj; cases3 j; try lia; reflexivity).
  assert (M1 : is_real I 1) by (split; [reflexivity|apply one32_1]).
  assert (B4 : bpow radix2 126 = 4 * bpow radix2 124) by (change 126%Z with (2 + 124)%Z; rewrite bpow_plus; reflexivity).
  assert (B5 : bpow radix2 125 = 2 * bpow radix2 124) by (change 125%Z with (1 + 124)%Z; rewrite bpow_plus; reflexivity).
  assert (BP : 0 < bpow radix2 124) by apply bpow_gt_0.
  assert (Q : forall j, (j < 4)%nat -> is_real (vec q0 q1 q2 q3 j) (if Nat.ltb j 3 then rnd32 (B2R (vec a b c I j) + B2R (vec t u w I j)) else 1)).
  { intros j Hj. apply (move_item a b c t u w I); auto. intros i Hi. destruct (HB i Hi) as (A & B). rewrite (VT i Hi) in B. lra. }
  assert (E' : forall j, (j < 3)%nat -> B2R (vec t' u' w' I j) = - B2R (vec t u w I j)) by (intros j Hj; cases3 j; try lia; assumption).
  assert (R : forall j, (j < 4)%nat -> is_real (vec r0 r1 r2 r3 j) (if Nat.ltb j 3 then rnd32 (B2R (vec q0 q1 q2 q3 j) + B2R (vec t' u' w' q3 j)) else 1)).
  { intros j Hj. apply (move_item q0 q1 q2 t' u' w' q3); auto; try (apply (Q 0%nat); lia); try (apply (Q 1%nat); lia); try (apply (Q 2%nat); lia); try (apply (Q 3%nat); lia).
    intros i Hi. destruct (HB i Hi) as (A & B). rewrite (VT i Hi) in B. assert (K4 : (i < 4)%nat) by lia. destruct (Q i K4) as (_ & E). destruct (Nat.ltb_spec i 3); [|lia]. split.
    - rewrite E. apply rnd_bound; [lia|]. eapply Rle_trans; [apply Rabs_triang|]. lra.
    - replace (vec t' u' w' q3 i) with (vec t' u' w' I i) by (cases3 i; try lia; reflexivity). rewrite (E' i Hi), Rabs_Ropp. lra. }
  assert (J4 : (k < 4)%nat) by lia. destruct (Q k J4) as (_ & EQ). destruct (R k J4) as (_ & ->). destruct (Nat.ltb_spec k 3); [|lia].
  replace (vec t' u' w' q3 k) with (vec t' u' w' I k) by (cases3 k; try lia; reflexivity). rewrite (VT k Hk) in *. rewrite (E' k Hk), EQ, (lost _ _ (fmt_B2R _) (fmt_B2R _) NZ HL).
  rewrite Rplus_opp_r. apply rnd32_id, fmt32_0.
Qed.

(** *** the hypotheses can be met *)
(** 2^30 and 2.0 *)
Definition f2_30 : b64 := @B754_finite 53 1024 false 4503599627370496 (-22) eq_refl.
Definition f2 : b64 := @B754_finite 53 1024 false 4503599627370496 (-51) eq_refl.
(** 1e300 *)
Definition f1e300 : b64 := @B754_finite 53 1024 false 6724873095825916 944 eq_refl.
Example translation_demo : (exists T T1, transMatrix f2_30 f41 f2 = Some (T, T1)) /\ fits f2_30 /\ fits f41 /\ fits f2 /\ ~ fits f1e300 /\ is_finite f1e300 = true.
Proof. unfold fits. repeat split; try (vm_compute; reflexivity); [|vm_compute; discriminate]. unfold transMatrix. replace (eq64 f2_30 f41 && eq64 f41 f2 && eq64 f2 zero64) with false by (vm_compute; reflexivity). do 2 eexists. reflexivity. Qed.
Lemma prod_ex a b : exists v, dot4 a b v.
Proof.
  eexists. exists [0; 1; 2; 3]%nat. split; [apply Permutation_refl|]. change [0; 1; 2; 3]%nat with (([0] ++ [1]) ++ ([2] ++ [3]))%nat. repeat apply pt_add; apply pt_mul.
Qed.
(** every product has a result *)
Example product_demo A B i j : exists v, product A B i j v.
Proof. apply prod_ex. Qed.
Example scale_demo : (exists S0 S1, scaleMatrix f2 f41 f2 = Some (S0, S1)) /\ moderate f2 /\ moderate f41 /\
  (exists S0 S1, scaleMatrix f2 zero64 f2 = Some (S0, S1)) /\ nth 1 [f2; zero64; f2] one64 = B754_zero false.
Proof.
  split; [|split; [|split; [|split; [|reflexivity]]]].
  - unfold scaleMatrix. replace (eq64 f2 f41 && eq64 f41 f2 && eq64 f2 one64) with false by (vm_compute; reflexivity). do 2 eexists. reflexivity.
  - assert (E : B2R f2 = 2) by (cbn; unfold F2R; cbn; lra). split; [reflexivity|]. rewrite E, Rabs_pos_eq by lra. change 2 with (bpow radix2 1). split; apply bpow_le; lia.
  - split; [reflexivity|]. rewrite f41_is, Rabs_pos_eq by lra. split.
    + apply Rle_trans with (bpow radix2 0); [apply bpow_le; lia|cbn; lra].
    + apply Rle_trans with (bpow radix2 10); [cbn; lra|apply bpow_le; lia].
  - unfold scaleMatrix. replace (eq64 f2 zero64 && eq64 zero64 f2 && eq64 f2 one64) with false by (vm_compute; reflexivity). do 2 eexists. reflexivity.
Qed.
(** the point (1, 1, 1) moved by 2^30 along x and back *)
Example points_demo : exists T T1 q0 q1 q2 q3 r0 r1 r2 r3, transMatrix f2_30 zero64 f2 = Some (T, T1) /\
  (forall j, (j < 3)%nat -> Rabs (B2R (vec I I I I j)) <= bpow radix2 124 /\ Rabs (B2R (T 3%nat j)) <= bpow radix2 124) /\
  (forall j, (j < 4)%nat -> moved (vec I I I I) T j (vec q0 q1 q2 q3 j)) /\ (forall j, (j < 4)%nat -> moved (vec q0 q1 q2 q3) T1 j (vec r0 r1 r2 r3 j)) /\
  B2R (T 3%nat 0%nat) <> 0 /\ Rabs (B2R (vec I I I I 0)) <= bpow radix2 (-26) * Rabs (B2R (T 3%nat 0%nat)).
Proof.
  unfold transMatrix. replace (eq64 f2_30 zero64 && eq64 zero64 f2 && eq64 f2 zero64) with false by (vm_compute; reflexivity). do 2 eexists.
  match goal with |- exists _ _ _ _ _ _ _ _, Some (?A, ?B) = _ /\ _ => set (T := A); set (T1 := B) end.
  assert (X : forall (p : nat -> b32) (A : mat), exists q0 q1 q2 q3, forall j, (j < 4)%nat -> moved p A j (vec q0 q1 q2 q3 j)).
  { intros p A. destruct (prod_ex p (fun k => A k 0%nat)) as (q0 & D0). destruct (prod_ex p (fun k => A k 1%nat)) as (q1 & D1). destruct (prod_ex p (fun k => A k 2%nat)) as (q2 & D2). destruct (prod_ex p (fun k => A k 3%nat)) as (q3 & D3).
    exists q0, q1, q2, q3. intros j Hj. cases4 j; try lia; assumption. }
  destruct (X (vec I I I I) T) as (q0 & q1 & q2 & q3 & HQ). destruct (X (vec q0 q1 q2 q3) T1) as (r0 & r1 & r2 & r3 & HR). exists q0, q1, q2, q3, r0, r1, r2, r3.
  assert (ET : B2R (to32 f2_30) = bpow radix2 30).
  { rewrite <- SF2R_B2SF. replace (B2SF (to32 f2_30)) with (SpecFloat.S754_finite false 8388608 7) by (vm_compute; reflexivity). cbn. unfold F2R. cbn. lra. }
  assert (E2 : B2R (to32 f2) = bpow radix2 1).
  { rewrite <- SF2R_B2SF. replace (B2SF (to32 f2)) with (SpecFloat.S754_finite false 8388608 (-22)) by (vm_compute; reflexivity). cbn. unfold F2R. cbn. lra. }
  split; [reflexivity|]. split; [|split; [exact HQ|split; [exact HR|]]].
  - intros j Hj. split.
    + replace (vec I I I I j) with I by (cases3 j; try lia; reflexivity). rewrite one32_1, Rabs_R1. change 1 with (bpow radix2 0). apply bpow_le. lia.
    + unfold T, at4. cases3 j; try lia; cbn [nth].
      * rewrite ET, Rabs_pos_eq by apply bpow_ge_0. apply bpow_le. lia.
      * change (to32 zero64) with zero32. rewrite zero32_0, Rabs_R0. apply bpow_ge_0.
      * rewrite E2, Rabs_pos_eq by apply bpow_ge_0. apply bpow_le. lia.
  - unfold T, at4. cbn [nth]. rewrite ET. split; [apply Rgt_not_eq, bpow_gt_0|]. unfold vec. cbn [nth]. rewrite one32_1, Rabs_R1, Rabs_pos_eq by apply bpow_ge_0. rewrite <- bpow_plus. change 1 with (bpow radix2 0). apply bpow_le. lia.
Qed.

Print Assumptions C94_translation_exact.
Print Assumptions C94_scale_near.
Print Assumptions C94_there_and_back.
Print Assumptions C94_zero_scale_refuted.
Print Assumptions C94_far_translation_refuted.
Print Assumptions C94_scale_exact_refuted.
Print Assumptions C94_near_points_lost_refuted.
