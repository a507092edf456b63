(** Proofs for C104: Transforms in floating point. *)
From Coq Require Import Reals ZArith List Bool Permutation Lia Lra Psatz.
From Flocq Require Import Core.Core IEEE754.BinarySingleNaN.
From Verif Require Import Rounded_Model Turn_Model Turn_Spec Turn32_Model Turn32_Spec Matrix_Model Matrix_Spec Combined_Model Combined_Spec Combined_Proofs Placed_Model Placed_Spec.
From Verif Require Rounded_Proofs Turn_Proofs Turn32_Proofs TurnWide_Proofs.
Import ListNotations.
Local Open Scope list_scope.
Local Open Scope R_scope.
Definition norm := Combined_Spec.norm.

Ltac cases4 i := destruct i as [|[|[|[|i]]]]; [| | | |lia].
(** ** matrices that carry points *)
Definition hom4 (p : vec3) (k : nat) : R := let '(x, y, z) := p in match k with 0%nat => x | 1%nat => y | 2%nat => z | _ => 1 end.
Definition carries (x : rmat) (f : vec3 -> vec3) : Prop := forall p j, (j < 4)%nat -> sum4 (fun k => hom4 p k * x k j) = hom4 (f p) j.
Lemma carries_eqm x y f : eqm x y -> carries x f -> carries y f.
Proof. intros E H p j J. rewrite <- (H p j J). apply sum4_ext. intros k K. rewrite (E k j K J). reflexivity. Qed.
Lemma carries_times x y f g : carries x f -> carries y g -> carries (times x y) (fun p => g (f p)).
Proof.
  intros F G p j J. rewrite <- (G (f p) j J). rewrite <- (sum4_ext (fun k => sum4 (fun l => hom4 p l * x l k) * y k j) (fun k => hom4 (f p) k * y k j)) by (intros k K; rewrite (F p k K); reflexivity).
  unfold times, sum4. ring.
Qed.
Lemma carries_unit : carries unit4 (fun p => p).
Proof. intros [[x y] z] j J. cases4 j; unfold sum4, unit4, hom4; cbn; ring. Qed.
Definition shiftm (v : vec3) : rmat := fun i j => match i with 3%nat => hom4 v j | _ => unit4 i j end.
Lemma carries_shift v : carries (shiftm v) (fun p => add3 p v).
Proof. destruct v as [[a b] c]. intros [[x y] z] j J. cases4 j; unfold sum4, shiftm, unit4, hom4, add3; cbn; ring. Qed.
Definition diagm (v : vec3) : rmat := fun i j => if Nat.eqb i j then hom4 v i else 0.
Lemma carries_diag v : carries (diagm v) (fun p => stretch v p).
Proof. destruct v as [[a b] c]. intros [[x y] z] j J. cases4 j; unfold sum4, diagm, hom4, stretch; cbn; ring. Qed.
Lemma carries_rows k a : carries (rows (rodrigues k a)) (rodrigues k a).
Proof.
  destruct k as [[kx ky] kz]. intros [[x y] z] j J. cases4 j; unfold sum4, rows, unit3, hom4, rodrigues, comp3, add3, scal3, cross, dot3, same; cbn; ring.
Qed.
Lemma hom4_inj p q : (forall j, (j < 4)%nat -> hom4 p j = hom4 q j) -> p = q.
Proof.
  destruct p as [[a b] c], q as [[x y] z]. intros H. pose proof (H 0%nat ltac:(lia)) as H0. pose proof (H 1%nat ltac:(lia)) as H1. pose proof (H 2%nat ltac:(lia)) as H2. cbn in H0, H1, H2. congruence.
Qed.

(** ** the matrices of the parts *)
Lemma hom4_len v j : (j < 3)%nat -> Rabs (hom4 v j) <= len1 v.
Proof. destruct v as [[x y] z]. intros J. unfold len1. pose proof (Rabs_pos x). pose proof (Rabs_pos y). pose proof (Rabs_pos z). destruct j as [|[|[|j]]]; cbn; try lra; lia. Qed.
Lemma size_shift v : size (shiftm v) (1 + len1 v).
Proof.
  destruct v as [[x y] z]. intros i I. pose proof (Rabs_pos x). pose proof (Rabs_pos y). pose proof (Rabs_pos z).
  cases4 i; unfold row, sum4, shiftm, unit4, hom4, len1; cbn; rewrite ?Rabs_R0, ?Rabs_R1; lra.
Qed.
Lemma big_1 v : 1 <= big v. Proof. destruct v as [[x y] z]. unfold big. eapply Rle_trans; [|apply Rmax_l]. apply Rmax_l. Qed.
Lemma big_hom v i : Rabs (hom4 v i) <= big v.
Proof.
  destruct v as [[x y] z]. unfold big. destruct i as [|[|[|i]]]; cbn [hom4].
  - eapply Rle_trans; [|apply Rmax_l]. apply Rmax_r.
  - eapply Rle_trans; [|apply Rmax_r]. apply Rmax_l.
  - eapply Rle_trans; [|apply Rmax_r]. apply Rmax_r.
  - rewrite Rabs_R1. eapply Rle_trans; [|apply Rmax_l]. apply Rmax_l.
Qed.
Lemma size_diag v : size (diagm v) (big v).
Proof. intros i I. pose proof (big_hom v i) as H. cases4 i; unfold row, sum4, diagm; cbn [Nat.eqb]; rewrite !Rabs_R0; lra. Qed.
Lemma len1_pos v : 0 <= len1 v. Proof. destruct v as [[x y] z]. unfold len1. pose proof (Rabs_pos x). pose proof (Rabs_pos y). pose proof (Rabs_pos z). lra. Qed.

Lemma same_size n r m x : finite m -> eqm (val m) x -> size x r -> 1 <= r -> near n r m x.
Proof.
  intros F E S R1. apply near_mono with 0%nat r; [lia|lra|]. split; [exact F|]. split; [exact S|].
  apply size_eqm with (diff x x); [intros i j I J; unfold diff; rewrite (E i j I J); reflexivity|].
  intros i I. unfold row, sum4, diff, growth. cbn [pow]. rewrite !Rminus_diag_eq by reflexivity. rewrite Rabs_R0. lra.
Qed.
Lemma eq32_eq x y : is_finite x = true -> is_finite y = true -> eq32 x y = true -> B2R x = B2R y.
Proof. intros X Y. unfold eq32. rewrite (Beqb_correct _ _ x y X Y). apply Req_bool_true_iff || (intros H; destruct (Req_bool_spec (B2R x) (B2R y)); [assumption|discriminate]). Qed.

Lemma trans_fits v : fin3 v ->
  fits (fst (trans32 v)) (0%nat, 1 + len1 (vec_of v), shiftm (vec_of v)) /\
  fits (snd (trans32 v)) (0%nat, 1 + len1 (vec_of v), shiftm (neg3 (vec_of v))).
Proof.
  destruct v as [[x y] z]. intros (X & Y & Z). cbn [vec_of trans32]. pose proof (len1_pos (B2R x, B2R y, B2R z)) as LP.
  destruct (eq32 x y && eq32 y z && eq32 z zero32) eqn:E; cbn [fst snd fits desc].
  - apply andb_true_iff in E as (E & E3). apply andb_true_iff in E as (E1 & E2).
    apply (eq32_eq x y X Y) in E1. apply (eq32_eq y z Y Z) in E2. apply (eq32_eq z zero32 Z eq_refl) in E3. cbn in E3. rewrite E1, E2, E3.
    split; (split; [rewrite E1, E2, E3 in LP; lra|]); intros i j I J; cases4 i; cases4 j; unfold shiftm, unit4, neg3, scal3, hom4; cbn; ring.
  - split; (split; [lra|]).
    + apply same_size; [|intros i j I J|apply size_shift|lra].
      * intros i j I J. cases4 i; cases4 j; try reflexivity; assumption.
      * unfold val, shiftm, at4, unit4, hom4. cases4 i; cases4 j; cbn [nth Nat.eqb]; try reflexivity; apply Rounded_Proofs.one32_1.
    + apply same_size; [|intros i j I J|apply size_mono with (1 + len1 (neg3 (B2R x, B2R y, B2R z))); [|apply size_shift]|lra].
      * intros i j I J. cases4 i; cases4 j; try reflexivity; cbn [at4 nth]; unfold at4; cbn [nth]; rewrite is_finite_Bopp; assumption.
      * unfold val, shiftm, at4, unit4, hom4, neg3, scal3. cases4 i; cases4 j; cbn [nth Nat.eqb]; rewrite ?B2R_Bopp; try reflexivity; try ring; apply Rounded_Proofs.one32_1.
      * unfold neg3, scal3, len1. rewrite !Rabs_mult. replace (Rabs (-1)) with 1 by (rewrite Rabs_left; lra). lra.
Qed.
Lemma scale_fits v : fin3 v -> fits (fst (scale32 v)) (0%nat, big (vec_of v), diagm (vec_of v)).
Proof.
  destruct v as [[x y] z]. intros (X & Y & Z). cbn [vec_of scale32]. pose proof (big_1 (B2R x, B2R y, B2R z)) as LP.
  destruct (eq32 x y && eq32 y z && eq32 z one32) eqn:E; cbn [fst snd fits desc]; (split; [exact LP|]).
  - apply andb_true_iff in E as (E & E3). apply andb_true_iff in E as (E1 & E2).
    apply (eq32_eq x y X Y) in E1. apply (eq32_eq y z Y Z) in E2. apply (eq32_eq z one32 Z eq_refl) in E3. rewrite Rounded_Proofs.one32_1 in E3. rewrite E1, E2, E3.
    intros i j I J; cases4 i; cases4 j; unfold diagm, unit4, hom4; cbn; ring.
  - apply same_size; [|intros i j I J|apply size_diag|exact LP].
    + intros i j I J. cases4 i; cases4 j; try reflexivity; assumption.
    + unfold val, diagm, at4, hom4. cases4 i; cases4 j; cbn [nth Nat.eqb]; try reflexivity; apply Rounded_Proofs.one32_1.
Qed.
Lemma growth_ge n : 1 + INR n * bpow radix2 (-20) <= growth n.
Proof. unfold growth. pose proof (bpow_gt_0 radix2 (-20)). apply (poly n). exact H. Qed.

Section Library.
Variables turns pow_half cos_ sin_ : b32 -> b32.
Hypothesis Hpow : accurate_root32 pow_half.
Hypothesis Hcos : accurate32 cos_ cos.
Hypothesis Hsin : accurate32 sin_ sin.
Lemma turn_items x y z a : ordinary32 x y z a -> forall i j, (i < 4)%nat -> (j < 4)%nat ->
  Rabs (rows (rotate (rot_of (x, y, z, a))) i j) <= 1 /\ Rabs (rows (unrotate (rot_of (x, y, z, a))) i j) <= 1.
Proof.
  intros ((_ & _ & _ & _) & L & _) i j I J. cbn [rot_of]. unfold norm3, dot3 in L.
  set (n := sqrt (B2R x * B2R x + B2R y * B2R y + B2R z * B2R z)) in *. pose proof (bpow_gt_0 radix2 (-50)). assert (N : n <> 0) by lra.
  destruct (Turn_Proofs.exact_rows (B2R x) (B2R y) (B2R z) (B2R a) N i j I J) as (E1 & E2). fold n in E1, E2. rewrite <- E1, <- E2.
  apply Turn_Proofs.exact_1; [|pose proof (sin2_cos2 (B2R a)) as Q; unfold Rsqr in Q; lra|exact I|exact J].
  assert (Q : n * n = B2R x * B2R x + B2R y * B2R y + B2R z * B2R z).
  { apply sqrt_sqrt. pose proof (Rle_0_sqr (B2R x)). pose proof (Rle_0_sqr (B2R y)). pose proof (Rle_0_sqr (B2R z)). unfold Rsqr in *. lra. }
  replace (B2R x / n * (B2R x / n) + B2R y / n * (B2R y / n) + B2R z / n * (B2R z / n)) with ((B2R x * B2R x + B2R y * B2R y + B2R z * B2R z) / (n * n)) by (field; exact N).
  rewrite Q. apply Rinv_r. rewrite <- Q. intros K. apply Rmult_integral in K. tauto.
Qed.
Lemma size_rows f : (forall i j, (i < 4)%nat -> (j < 4)%nat -> Rabs (rows f i j) <= 1) -> size (rows f) 3.
Proof.
  intros H i I. unfold row, sum4. pose proof (H i 0%nat I ltac:(lia)). pose proof (H i 1%nat I ltac:(lia)). pose proof (H i 2%nat I ltac:(lia)).
  assert (K : (i < 3)%nat \/ i = 3%nat) by lia. destruct K as [K| ->].
  - replace (rows f i 3) with 0; [rewrite Rabs_R0; lra|]. destruct i as [|[|[|i]]]; try lia; reflexivity.
  - change (rows f 3 0) with 0. change (rows f 3 1) with 0. change (rows f 3 2) with 0. change (rows f 3 3) with 1. rewrite Rabs_R0, Rabs_R1. lra.
Qed.
Lemma near_rot (m : mat64) f : (forall i j, (i < 4)%nat -> (j < 4)%nat -> is_finite (m i j) = true /\ Rabs (B2R (m i j) - rows f i j) <= bpow radix2 (-18)) ->
  (forall i j, (i < 4)%nat -> (j < 4)%nat -> Rabs (rows f i j) <= 1) -> near 6 3 (F64 m) (rows f).
Proof.
  intros H1 H2. split; [intros i j I J; apply (H1 i j I J)|]. split; [apply size_rows; exact H2|].
  intros i I. apply Rle_trans with (4 * bpow radix2 (-18)).
  - unfold row, sum4, diff. pose proof (proj2 (H1 i 0%nat I ltac:(lia))). pose proof (proj2 (H1 i 1%nat I ltac:(lia))). pose proof (proj2 (H1 i 2%nat I ltac:(lia))). pose proof (proj2 (H1 i 3%nat I ltac:(lia))).
    cbn [val] in *. lra.
  - pose proof (growth_ge 6) as G. rewrite INR_IZR_INZ in G. cbn [Z.of_nat Pos.of_succ_nat Pos.succ] in G.
    assert (E : bpow radix2 (-18) = 4 * bpow radix2 (-20)) by (change 4 with (bpow radix2 2); rewrite <- bpow_plus; reflexivity). rewrite E. pose proof (bpow_gt_0 radix2 (-20)). lra.
Qed.
Lemma rodrigues_0 k p : rodrigues k 0 p = p.
Proof. destruct k as [[kx ky] kz], p as [[x y] z]. unfold rodrigues. rewrite cos_0, sin_0. unfold add3, scal3, cross, dot3. f_equal; [f_equal|]; ring. Qed.
Lemma rows_id f : (forall p, f p = p) -> eqm (rows f) unit4.
Proof. intros H i j I J. unfold rows. rewrite H. cases4 i; cases4 j; reflexivity. Qed.
Lemma turn_fits r : good_rotation turns r ->
  fits (fst (turn32 turns pow_half cos_ sin_ r)) (6%nat, 3, rows (rotate (rot_of r))) /\
  fits (snd (turn32 turns pow_half cos_ sin_ r)) (6%nat, 3, rows (unrotate (rot_of r))).
Proof.
  destruct r as [[[x y] z] a]. intros (Od & Z). cbn [turn32]. pose proof (turn_items x y z a Od) as B.
  destruct (rotMatrix32 turns pow_half cos_ sin_ x y z a) as [[m m']|] eqn:E; cbn [fst snd fits desc].
  - pose proof (TurnWide_Proofs.wide_items turns pow_half cos_ sin_ Hpow Hcos Hsin x y z a m m' E Od) as W.
    split; (split; [lra|]); apply near_rot; intros i j I J; try apply (W i j I J); apply (B i j I J).
  - assert (A0 : B2R a = 0).
    { apply Z. unfold rotMatrix32 in E. destruct (nonzero32 (turns a)); [|reflexivity]. destruct (eq32 _ _); discriminate E. }
    split; (split; [lra|]); apply rows_id; intros p; unfold rotate, unrotate; cbn [rot_of angle]; rewrite A0, ?Ropp_0; apply rodrigues_0.
Qed.

(** the inverse scale *)
Lemma inv_ok x : bpow radix2 (-100) <= Rabs (B2R x) <= bpow radix2 100 -> is_finite (inv32 x) = true /\ Rabs (B2R (inv32 x) - / B2R x) <= bpow radix2 (-20) * Rabs (/ B2R x).
Proof.
  intros [L H]. pose proof (bpow_gt_0 radix2 (-100)) as P. assert (N : B2R x <> 0) by (intros K; rewrite K, Rabs_R0 in L; lra).
  assert (NZ : nonzero32 x = true).
  { clear - N. destruct x as [s| | |s m e He]; try reflexivity. exfalso. apply N. reflexivity. }
  unfold inv32. rewrite NZ.
  assert (A : Rabs (/ B2R x) <= bpow radix2 100). { rewrite Rabs_inv. replace (bpow radix2 100) with (/ bpow radix2 (-100)) by (rewrite (bpow_opp radix2 100 : bpow radix2 (-100) = _); apply Rinv_inv). apply Rinv_le_contravar; lra. }
  assert (B : bpow radix2 (-100) <= Rabs (/ B2R x)). { rewrite Rabs_inv. rewrite (bpow_opp radix2 100 : bpow radix2 (-100) = _). apply Rinv_le_contravar; lra. }
  assert (E1 : B2R one32 / B2R x = / B2R x) by (rewrite Rounded_Proofs.one32_1; unfold Rdiv; ring).
  destruct (Turn32_Proofs.div32_r one32 x eq_refl N) as (F & E); [rewrite E1; eapply Rle_trans; [exact A|apply bpow_le; lia]|].
  split; [exact F|]. rewrite E, E1. eapply Rle_trans; [apply Turn32_Proofs.err32|]. unfold Turn32_Proofs.u, Turn32_Proofs.eta.
  assert (T : eta <= w * Rabs (/ B2R x)). { apply Rle_trans with (w * bpow radix2 (-100)); [rewrite <- bpow_plus; apply bpow_le; lia|apply Rmult_le_compat_l; [pose proof w_pos; lra|exact B]]. }
  rewrite d_w. pose proof w_pos. assert (0 <= w * Rabs (/ B2R x)) by (apply Rmult_le_pos; [lra|apply Rabs_pos]). lra.
Qed.
Lemma scale_fits' v : fin3 v -> (let '(x, y, z) := vec_of v in bpow radix2 (-100) <= Rabs x <= bpow radix2 100 /\ bpow radix2 (-100) <= Rabs y <= bpow radix2 100 /\ bpow radix2 (-100) <= Rabs z <= bpow radix2 100) ->
  fits (snd (scale32 v)) (1%nat, big (inv3 (vec_of v)), diagm (inv3 (vec_of v))).
Proof.
  destruct v as [[x y] z]. intros (X & Y & Z) (HX & HY & HZ). cbn [vec_of scale32 inv3]. pose proof (big_1 (/ B2R x, / B2R y, / B2R z)) as LP.
  destruct (eq32 x y && eq32 y z && eq32 z one32) eqn:E; cbn [fst snd fits desc]; (split; [exact LP|]).
  - apply andb_true_iff in E as (E & E3). apply andb_true_iff in E as (E1 & E2).
    apply (eq32_eq x y X Y) in E1. apply (eq32_eq y z Y Z) in E2. apply (eq32_eq z one32 Z eq_refl) in E3. rewrite Rounded_Proofs.one32_1 in E3. rewrite E1, E2, E3, Rinv_1.
    intros i j I J; cases4 i; cases4 j; unfold diagm, unit4, hom4; cbn; ring.
  - destruct (inv_ok x HX) as (FX & DX). destruct (inv_ok y HY) as (FY & DY). destruct (inv_ok z HZ) as (FZ & DZ).
    pose proof (bpow_gt_0 radix2 (-20)) as DP.
    split; [|split; [apply size_diag|]].
    + intros i j I J. cases4 i; cases4 j; try reflexivity; assumption.
    + replace (growth 1 - 1) with (bpow radix2 (-20)) by (unfold growth; cbn [pow]; ring).
      assert (G : forall i, Rabs (hom4 (/ B2R x, / B2R y, / B2R z) i) <= big (/ B2R x, / B2R y, / B2R z)) by (intros i; apply big_hom).
      pose proof (G 0%nat) as G0. pose proof (G 1%nat) as G1. pose proof (G 2%nat) as G2. cbn [hom4] in G0, G1, G2.
      set (b := big _) in *.
      assert (K : forall t, t <= b -> bpow radix2 (-20) * t <= bpow radix2 (-20) * b) by (intros t Ht; apply Rmult_le_compat_l; lra).
      intros i I. unfold row, sum4, diff, val, diagm, at4. cases4 i; cbn [nth Nat.eqb hom4]; rewrite ?Rounded_Proofs.one32_1; change (B2R O) with 0; rewrite ?Rminus_0_r, ?(Rminus_diag_eq 1 1 eq_refl); rewrite !Rabs_R0.
      * pose proof (K _ G0). lra.
      * pose proof (K _ G1). lra.
      * pose proof (K _ G2). lra.
      * pose proof (K 0 ltac:(lra)). lra.
Qed.

(** ** one Transform *)
Notation parts_of := (parts_of turns pow_half cos_ sin_).
Definition ahead (n : node) : list entry :=
  let t := vec_of (n_translation n) in let c := vec_of (n_center n) in let s := vec_of (n_scale n) in
  [(0%nat, 1 + len1 t, shiftm t); (0%nat, 1 + len1 c, shiftm c); (6%nat, 3, rows (rotate (rot_of (n_rotation n))));
   (6%nat, 3, rows (rotate (rot_of (n_scaleOrientation n)))); (0%nat, big s, diagm s);
   (6%nat, 3, rows (unrotate (rot_of (n_scaleOrientation n)))); (0%nat, 1 + len1 c, shiftm (neg3 c))].
Definition back (n : node) : list entry :=
  let t := vec_of (n_translation n) in let c := vec_of (n_center n) in let s := inv3 (vec_of (n_scale n)) in
  [(0%nat, 1 + len1 c, shiftm c); (6%nat, 3, rows (rotate (rot_of (n_scaleOrientation n)))); (1%nat, big s, diagm s);
   (6%nat, 3, rows (unrotate (rot_of (n_scaleOrientation n)))); (6%nat, 3, rows (unrotate (rot_of (n_rotation n))));
   (0%nat, 1 + len1 c, shiftm (neg3 c)); (0%nat, 1 + len1 t, shiftm (neg3 t))].
Lemma ahead_fits n : good_node turns n -> Forall2 fits (forward (parts_of n)) (ahead n).
Proof.
  intros (H1 & H2 & H3 & H4 & H5). unfold forward, ahead. cbv zeta. repeat match goal with |- Forall2 _ (_ :: _) _ => apply Forall2_cons | |- Forall2 _ [] _ => apply Forall2_nil end; cbn [T C Ro SO Sc SO1 C1 Placed_Model.parts_of];
    first [apply trans_fits; assumption|apply turn_fits; assumption|apply scale_fits; assumption].
Qed.
Lemma back_fits n : good_node turns n -> can_undo n -> Forall2 fits (backward (parts_of n)) (back n).
Proof.
  intros (H1 & H2 & H3 & H4 & H5) U. unfold backward, back. cbv zeta. repeat match goal with |- Forall2 _ (_ :: _) _ => apply Forall2_cons | |- Forall2 _ [] _ => apply Forall2_nil end; cbn [T1 C Ro1 SO Sc1 SO1 C1 Placed_Model.parts_of];
    first [apply trans_fits; assumption|apply turn_fits; assumption|apply scale_fits'; assumption].
Qed.
Definition undo (d : params) (p : vec3) : vec3 :=
  let p := add3 p (neg3 (p_translation d)) in
  let p := add3 p (neg3 (p_center d)) in
  let p := unrotate (p_rotation d) p in
  let p := unrotate (p_scaleOrientation d) p in
  let p := stretch (inv3 (p_scale d)) p in
  let p := rotate (p_scaleOrientation d) p in
  add3 p (p_center d).
Lemma carries_rotate r : carries (rows (rotate r)) (rotate r). Proof. exact (carries_rows _ _). Qed.
Lemma carries_unrotate r : carries (rows (unrotate r)) (unrotate r). Proof. exact (carries_rows _ _). Qed.
Lemma ahead_carries n : carries (prodx (ahead n)) (vrml_transform (params_of n)).
Proof.
  unfold ahead. cbv zeta. cbn [prodx]. unfold vrml_transform, params_of. cbn [p_translation p_center p_rotation p_scale p_scaleOrientation].
  apply (carries_times _ _ (fun p => add3 (rotate (rot_of (n_rotation n)) _) _) (fun p => add3 p _)); [|apply carries_shift].
  apply (carries_times _ _ (fun p => rotate (rot_of (n_rotation n)) _) (fun p => add3 p _)); [|apply carries_shift].
  apply (carries_times _ _ (fun p => rotate (rot_of (n_scaleOrientation n)) _) (rotate (rot_of (n_rotation n)))); [|apply carries_rotate].
  apply (carries_times _ _ (fun p => stretch _ _) (rotate (rot_of (n_scaleOrientation n)))); [|apply carries_rotate].
  apply (carries_times _ _ (fun p => unrotate (rot_of (n_scaleOrientation n)) _) (stretch _)); [|apply carries_diag].
  apply (carries_times _ _ (fun p => add3 p _) (unrotate (rot_of (n_scaleOrientation n)))); [|apply carries_unrotate].
  apply (carries_times _ _ (fun p => p) (fun p => add3 p _)); [apply carries_unit|apply carries_shift].
Qed.
Lemma back_carries n : carries (prodx (back n)) (undo (params_of n)).
Proof.
  unfold back. cbv zeta. cbn [prodx]. unfold undo, params_of. cbn [p_translation p_center p_rotation p_scale p_scaleOrientation].
  apply (carries_times _ _ (fun p => rotate (rot_of (n_scaleOrientation n)) _) (fun p => add3 p _)); [|apply carries_shift].
  apply (carries_times _ _ (fun p => stretch _ _) (rotate (rot_of (n_scaleOrientation n)))); [|apply carries_rotate].
  apply (carries_times _ _ (fun p => unrotate (rot_of (n_scaleOrientation n)) _) (stretch _)); [|apply carries_diag].
  apply (carries_times _ _ (fun p => unrotate (rot_of (n_rotation n)) _) (unrotate (rot_of (n_scaleOrientation n)))); [|apply carries_unrotate].
  apply (carries_times _ _ (fun p => add3 (add3 p _) _) (unrotate (rot_of (n_rotation n)))); [|apply carries_unrotate].
  apply (carries_times _ _ (fun p => add3 p _) (fun p => add3 p _)); [|apply carries_shift].
  apply (carries_times _ _ (fun p => p) (fun p => add3 p _)); [apply carries_unit|apply carries_shift].
Qed.
Lemma ahead_weight n : prodr (ahead n) = weight (params_of n) /\ cost (ahead n) = 25%nat.
Proof. split; [|reflexivity]. unfold ahead, weight, params_of. cbv zeta. cbn [prodr p_translation p_center p_scale]. ring. Qed.
Lemma back_weight n : prodr (back n) = weight' (params_of n) /\ cost (back n) = 26%nat.
Proof. split; [|reflexivity]. unfold back, weight', params_of. cbv zeta. cbn [prodr p_translation p_center p_scale]. ring. Qed.

(** ** undoing *)
Lemma inverse_turn x y z a : ordinary32 x y z a -> (forall p, unrotate (rot_of (x, y, z, a)) (rotate (rot_of (x, y, z, a)) p) = p) /\
  (forall p, rotate (rot_of (x, y, z, a)) (unrotate (rot_of (x, y, z, a)) p) = p).
Proof.
  intros ((_ & _ & _ & _) & L & _). set (r := rot_of (x, y, z, a)).
  unfold norm3, dot3 in L. set (n := sqrt (B2R x * B2R x + B2R y * B2R y + B2R z * B2R z)) in *. pose proof (bpow_gt_0 radix2 (-50)). assert (N : n <> 0) by lra.
  pose proof (Turn_Proofs.exact_rows (B2R x) (B2R y) (B2R z) (B2R a) N) as E. fold n in E. change (B2R x, B2R y, B2R z, B2R a) with r in E.
  assert (Q : n * n = B2R x * B2R x + B2R y * B2R y + B2R z * B2R z).
  { apply sqrt_sqrt. pose proof (Rle_0_sqr (B2R x)). pose proof (Rle_0_sqr (B2R y)). pose proof (Rle_0_sqr (B2R z)). unfold Rsqr in *. lra. }
  assert (U1 : B2R x / n * (B2R x / n) + B2R y / n * (B2R y / n) + B2R z / n * (B2R z / n) = 1).
  { replace (B2R x / n * (B2R x / n) + B2R y / n * (B2R y / n) + B2R z / n * (B2R z / n)) with ((B2R x * B2R x + B2R y * B2R y + B2R z * B2R z) / (n * n)) by (field; exact N).
    rewrite Q. apply Rinv_r. rewrite <- Q. intros K. apply Rmult_integral in K. tauto. }
  assert (U2 : cos (B2R a) * cos (B2R a) + sin (B2R a) * sin (B2R a) = 1) by (pose proof (sin2_cos2 (B2R a)) as K; unfold Rsqr in K; lra).
  assert (U2' : cos (B2R a) * cos (B2R a) + - sin (B2R a) * - sin (B2R a) = 1) by lra.
  assert (I1 : eqm (times (rows (rotate r)) (rows (unrotate r))) unit4).
  { intros i j I J. pose proof (proj1 (Turn_Proofs.exact_inverse _ _ _ _ _ U1 U2 i j I J)) as K. cbv zeta in K.
    unfold times, sum4. destruct (E i 0%nat I ltac:(lia)) as (<- & _). destruct (E i 1%nat I ltac:(lia)) as (<- & _). destruct (E i 2%nat I ltac:(lia)) as (<- & _). destruct (E i 3%nat I ltac:(lia)) as (<- & _).
    destruct (E 0%nat j ltac:(lia) J) as (_ & <-). destruct (E 1%nat j ltac:(lia) J) as (_ & <-). destruct (E 2%nat j ltac:(lia) J) as (_ & <-). destruct (E 3%nat j ltac:(lia) J) as (_ & <-). exact K. }
  assert (I2 : eqm (times (rows (unrotate r)) (rows (rotate r))) unit4).
  { intros i j I J. pose proof (proj1 (Turn_Proofs.exact_inverse _ _ _ _ _ U1 U2' i j I J)) as K. cbv zeta in K. rewrite Ropp_involutive in K.
    unfold times, sum4. destruct (E i 0%nat I ltac:(lia)) as (_ & <-). destruct (E i 1%nat I ltac:(lia)) as (_ & <-). destruct (E i 2%nat I ltac:(lia)) as (_ & <-). destruct (E i 3%nat I ltac:(lia)) as (_ & <-).
    destruct (E 0%nat j ltac:(lia) J) as (<- & _). destruct (E 1%nat j ltac:(lia) J) as (<- & _). destruct (E 2%nat j ltac:(lia) J) as (<- & _). destruct (E 3%nat j ltac:(lia) J) as (<- & _). exact K. }
  split; intros p; apply hom4_inj; intros j J.
  - rewrite <- (carries_times _ _ _ _ (carries_rotate r) (carries_unrotate r) p j J). apply (carries_eqm _ _ _ (eqm_sym _ _ I1) carries_unit p j J).
  - rewrite <- (carries_times _ _ _ _ (carries_unrotate r) (carries_rotate r) p j J). apply (carries_eqm _ _ _ (eqm_sym _ _ I2) carries_unit p j J).
Qed.
Lemma add3_neg p v : add3 (add3 p v) (neg3 v) = p.
Proof. destruct p as [[a b] c], v as [[x y] z]. unfold add3, neg3, scal3. f_equal; [f_equal|]; ring. Qed.
Lemma add3_neg' p v : add3 (add3 p (neg3 v)) v = p.
Proof. destruct p as [[a b] c], v as [[x y] z]. unfold add3, neg3, scal3. f_equal; [f_equal|]; ring. Qed.
Lemma undo_ok n p : good_node turns n -> can_undo n -> undo (params_of n) (vrml_transform (params_of n) p) = p.
Proof.
  intros (_ & _ & _ & R1 & R2) U. unfold undo, vrml_transform. rewrite !add3_neg. unfold params_of in *. cbn [p_translation p_center p_rotation p_scale p_scaleOrientation].
  destruct (n_rotation n) as [[[x y] z] a], (n_scaleOrientation n) as [[[x' y'] z'] a']. destruct R1 as (R1 & _), R2 as (R2 & _).
  destruct (inverse_turn _ _ _ _ R1) as (T1 & _). destruct (inverse_turn _ _ _ _ R2) as (T2 & T3). rewrite T1, T2.
  set (q := unrotate _ _). assert (E : stretch (inv3 (vec_of (n_scale n))) (stretch (vec_of (n_scale n)) q) = q).
  { unfold can_undo in U. destruct (vec_of (n_scale n)) as [[a1 b1] c1], q as [[a2 b2] c2]. pose proof (bpow_gt_0 radix2 (-100)).
    assert (NZ : forall t, bpow radix2 (-100) <= Rabs t -> t <> 0) by (intros t Ht ->; rewrite Rabs_R0 in Ht; lra).
    destruct U as ((A & _) & (B & _) & (C0 & _)). apply NZ in A, B, C0. unfold stretch, inv3. f_equal; [f_equal|]; field; assumption. }
  rewrite E. unfold q. rewrite T3. apply add3_neg'.
Qed.

(** ** paths *)
Section Path.
Variable comp : node -> list (option fmat).
Variable es : node -> list entry.
Variable k : nat.
Variable wt : params -> R.
Variable act : params -> vec3 -> vec3.
Variable l : list node.
Hypothesis E : forall n, In n l -> Forall2 fits (comp n) (es n) /\ cost (es n) = S k /\ prodr (es n) = wt (params_of n) /\ carries (prodx (es n)) (act (params_of n)).
Definition one (n : node) : entry := (k, wt (params_of n), prodx (es n)).
Lemma one_1 n : In n l -> 1 <= wt (params_of n).
Proof. intros H. destruct (E n H) as (F & _ & <- & _). exact (prodr_1 _ _ F). Qed.
Lemma one_cost : cost (map one l) = (S k * length l)%nat.
Proof. clear E. induction l as [|n l' IH]; [cbn; lia|]. cbn [map one cost length]. rewrite IH. lia. Qed.
Lemma one_prod : prodr (map one l) = weights wt (map params_of l).
Proof. clear E. induction l as [|n l' IH]; [reflexivity|]. cbn [map one prodr weights fold_right]. rewrite IH. reflexivity. Qed.
Lemma one_carries : carries (prodx (map one l)) (fun p => fold_right act p (map params_of l)).
Proof.
  induction l as [|n l' IH]; [exact carries_unit|]. cbn [map one prodx fold_right].
  apply (carries_times _ _ (fun p => fold_right act p (map params_of l')) (act (params_of n))); [apply IH; intros m H; apply E; right; exact H|apply E; left; reflexivity].
Qed.
Lemma weights_1 : 1 <= weights wt (map params_of l).
Proof.
  pose proof one_1 as O1. clear E. induction l as [|n l' IH]; [cbn; lra|]. cbn [map weights fold_right]. pose proof (O1 n (or_introl eq_refl)) as H.
  assert (H' : 1 <= weights wt (map params_of l')) by (apply IH; intros m Hm; apply O1; right; exact Hm). unfold weights in *. nra.
Qed.
Lemma weight_in n : In n l -> wt (params_of n) <= weights wt (map params_of l).
Proof.
  pose proof weights_1 as W1. pose proof one_1 as O1. clear E. revert W1 O1. induction l as [|m l' IH]; [intros _ _ []|]. intros W1 O1 H. cbn [map weights fold_right] in *.
  assert (O1' : forall n, In n l' -> 1 <= wt (params_of n)) by (intros q Hq; apply O1; right; exact Hq).
  assert (W' : 1 <= weights wt (map params_of l')).
  { clear - O1'. induction l' as [|q l' IH]; [cbn; lra|]. cbn [map weights fold_right]. pose proof (O1' q (or_introl eq_refl)).
    assert (1 <= weights wt (map params_of l')) by (apply IH; intros m Hm; apply O1'; right; exact Hm). unfold weights in *. nra. }
  pose proof (O1 m (or_introl eq_refl)) as M1. unfold weights in *. destruct H as [->|H]; [nra|]. pose proof (IH W' O1' H). nra.
Qed.
Lemma path_desc locals m : Forall2 compress (map comp l) locals -> compress locals m ->
  growth (S k * length l) * weights wt (map params_of l) <= bpow radix2 100 ->
  near (S k * length l) (weights wt (map params_of l)) (match m with Some x => x | None => F32 identity32 end) (prodx (map one l)).
Proof.
  intros H Cm G. pose proof weights_1 as W1.
  assert (F : Forall2 fits locals (map one l)).
  { assert (K : forall n o, In n l -> compress (comp n) o -> fits o (one n)).
    { intros n o Hn Ho. destruct (E n Hn) as (F & C1' & P1 & _). unfold one, fits. rewrite <- P1. replace k with (cost (es n) - 1)%nat by (rewrite C1'; lia).
      apply (compress_near_all _ _ _ Ho F). rewrite C1', P1. eapply Rle_trans; [|exact G]. apply Rmult_le_compat.
      - pose proof (growth_1 (S k - 1)). lra.
      - pose proof (one_1 n Hn). lra.
      - apply growth_mono. destruct l; [destruct Hn|cbn [length]; lia].
      - apply weight_in. exact Hn. }
    revert K H. generalize locals. clear. intros locals K H. revert K. remember (map comp l) as cs eqn:Q. revert l Q. induction H as [|c o cs locals Hc _ IH]; intros l Q K.
    - destruct l; [constructor|discriminate Q].
    - destruct l as [|n l']; [discriminate Q|]. injection Q as -> Q. cbn [map]. constructor; [apply K; [left; reflexivity|exact Hc]|]. apply IH; [exact Q|]. intros m q Hm. apply K. right. exact Hm. }
  assert (D : desc m (cost (map one l) - 1) (prodr (map one l)) (prodx (map one l))).
  { apply (compress_near_all locals m _ Cm F). rewrite one_cost, one_prod. eapply Rle_trans; [|exact G]. apply Rmult_le_compat_r; [lra|apply growth_mono; lia]. }
  rewrite one_cost, one_prod in D. destruct D as (_ & D). destruct m as [m|].
  - eapply near_mono; [| |exact D]; [lia|lra].
  - eapply near_mono; [| |apply identity_near; exact D]; [lia|lra].
Qed.
End Path.

Lemma homogenous_ok p : fin3' p -> (forall q, (q < 4)%nat -> is_finite (homogenous p q) = true) /\
  (forall q, B2R (homogenous p q) = hom4 (point_of p) q) /\ sum4 (fun q => Rabs (B2R (homogenous p q))) = 1 + len1 (point_of p).
Proof.
  destruct p as [[x y] z]. intros (X & Y & Z). split; [|split].
  - intros q Q. cases4 q; try assumption; reflexivity.
  - intros q. destruct q as [|[|[|q]]]; try reflexivity. apply Rounded_Proofs.one64_1.
  - unfold sum4, len1, point_of. cbn [homogenous]. rewrite Rounded_Proofs.one64_1, Rabs_R1. ring.
Qed.
Lemma moved_near n r m x f p j v : near n r m x -> 1 <= r -> carries x f -> fin3' p -> (j < 4)%nat -> moves (homogenous p) m j v ->
  growth n * ((1 + len1 (point_of p)) * r) <= bpow radix2 100 ->
  is_finite v = true /\ Rabs (B2R v - hom4 (f (point_of p)) j) <= (growth (n + 1) - 1) * ((1 + len1 (point_of p)) * r).
Proof.
  intros NM R1 CR FP J M G. destruct (homogenous_ok p FP) as (H1 & H2 & H3). pose proof (len1_pos (point_of p)) as L.
  pose proof (point_near (homogenous p) n r m x j v NM R1 H1 J M) as Q. cbv zeta in Q. rewrite H3 in Q. specialize (Q ltac:(lra) G).
  rewrite <- (CR (point_of p) j J). rewrite <- (sum4_ext (fun q => B2R (homogenous p q) * x q j) (fun q => hom4 (point_of p) q * x q j)) by (intros q _; rewrite H2; reflexivity). exact Q.
Qed.

Lemma placed path r p j v : (forall n, In n path -> good_node turns n) -> node_matrix turns pow_half cos_ sin_ path false r -> fin3' p -> (j < 4)%nat -> moves (homogenous p) r j v ->
  let far := (1 + len1 (point_of p)) * weights weight (map params_of path) in
  growth (25 * length path) * far <= bpow radix2 100 ->
  is_finite v = true /\ Rabs (B2R v - hom4 (path_transform (map params_of path) (point_of p)) j) <= (growth (25 * length path + 1) - 1) * far.
Proof.
  intros GN (locals & m & H & Cm & ->) FP J M far G. rewrite map_map in H.
  assert (E : forall n, In n path -> Forall2 fits (forward (parts_of n)) (ahead n) /\ cost (ahead n) = 25%nat /\ prodr (ahead n) = weight (params_of n) /\ carries (prodx (ahead n)) (vrml_transform (params_of n))).
  { intros n Hn. split; [apply ahead_fits, GN; exact Hn|]. destruct (ahead_weight n) as (A1 & A2). split; [exact A2|]. split; [exact A1|apply ahead_carries]. }
  pose proof (weights_1 _ _ _ _ _ _ E) as W1. pose proof (len1_pos (point_of p)) as LP. pose proof (growth_1 (25 * length path)) as G1.
  pose proof (path_desc _ _ _ _ _ _ E locals m H Cm) as D. pose proof (one_carries _ _ _ _ _ _ E) as K.
  apply (moved_near _ _ _ _ _ p j v (D ltac:(eapply Rle_trans; [|exact G]; unfold far; apply Rmult_le_compat_l; nra)) W1 K FP J M G).
Qed.
Lemma undo_path path q : (forall n, In n path -> good_node turns n /\ can_undo n) ->
  fold_right undo (path_transform (map params_of path) q) (map params_of (rev path)) = q.
Proof.
  induction path as [|n path IH]; intros H; [reflexivity|]. cbn [rev map path_transform fold_right]. rewrite map_app, fold_right_app. cbn [map fold_right].
  destruct (H n (or_introl eq_refl)) as (H1 & H2). rewrite (undo_ok n _ H1 H2). apply IH. intros m Hm. apply H. right. exact Hm.
Qed.
Lemma weights_rev wt ds : weights wt (rev ds) = weights wt ds.
Proof.
  assert (A : forall l1 l2, weights wt (l1 ++ l2) = weights wt l1 * weights wt l2).
  { intros l1 l2. induction l1 as [|x l1 IH]; [change (weights wt l2 = 1 * weights wt l2); ring|]. change (wt x * weights wt (l1 ++ l2) = wt x * weights wt l1 * weights wt l2). rewrite IH. ring. }
  induction ds as [|x ds IH]; [reflexivity|]. cbn [rev]. rewrite A, IH. change (weights wt ds * (wt x * 1) = wt x * weights wt ds). ring.
Qed.
Lemma taken_back path r p j v q : (forall n, In n path -> good_node turns n /\ can_undo n) -> node_matrix turns pow_half cos_ sin_ path true r -> fin3' p -> (j < 4)%nat -> moves (homogenous p) r j v ->
  path_transform (map params_of path) q = point_of p ->
  let far := (1 + len1 (point_of p)) * weights weight' (map params_of path) in
  growth (26 * length path) * far <= bpow radix2 100 ->
  is_finite v = true /\ Rabs (B2R v - hom4 q j) <= (growth (26 * length path + 1) - 1) * far.
Proof.
  intros GN (locals & m & H & Cm & ->) FP J M PQ far G. rewrite <- map_rev, map_map in H.
  assert (E : forall n, In n (rev path) -> Forall2 fits (backward (parts_of n)) (back n) /\ cost (back n) = 26%nat /\ prodr (back n) = weight' (params_of n) /\ carries (prodx (back n)) (undo (params_of n))).
  { intros n Hn. apply in_rev in Hn. destruct (GN n Hn) as (N1 & N2). split; [apply back_fits; assumption|]. destruct (back_weight n) as (A1 & A2). split; [exact A2|]. split; [exact A1|apply back_carries]. }
  pose proof (weights_1 _ _ _ _ _ _ E) as W1. pose proof (path_desc _ _ _ _ _ _ E locals m H Cm) as D. pose proof (one_carries _ _ _ _ _ _ E) as K.
  rewrite rev_length, map_rev, weights_rev in D. rewrite map_rev, weights_rev in W1. pose proof (len1_pos (point_of p)) as LP. pose proof (growth_1 (26 * length path)) as G1.
  rewrite <- (undo_path path q GN) at 1. rewrite PQ.
  apply (moved_near _ _ _ _ _ p j v (D ltac:(eapply Rle_trans; [|exact G]; unfold far; apply Rmult_le_compat_l; nra)) W1 K FP J M G).
Qed.

(** ** there and back *)
Lemma there_and_back path f b p v j u : (forall n, In n path -> good_node turns n /\ can_undo n) ->
  node_matrix turns pow_half cos_ sin_ path false f -> node_matrix turns pow_half cos_ sin_ path true b ->
  fin3' p -> (forall k, (k < 3)%nat -> moves (homogenous p) f k (homogenous v k)) -> (j < 3)%nat -> moves (homogenous v) b j u ->
  let there := (1 + len1 (point_of p)) * weights weight (map params_of path) in
  let back := (1 + len1 (point_of v)) * weights weight' (map params_of path) in
  growth (25 * length path) * there <= bpow radix2 100 -> growth (26 * length path) * back <= bpow radix2 100 ->
  is_finite u = true /\ Rabs (B2R u - hom4 (point_of p) j) <= (growth (26 * length path + 1) - 1) * back + 3 * weights weight' (map params_of path) * ((growth (25 * length path + 1) - 1) * there).
Proof.
  intros GN MF (locals & m & H & Cm & ->) FP MV J MU there back0 G1 G2.
  assert (P : forall k, (k < 3)%nat -> is_finite (homogenous v k) = true /\ Rabs (B2R (homogenous v k) - hom4 (path_transform (map params_of path) (point_of p)) k) <= (growth (25 * length path + 1) - 1) * there).
  { intros k K. apply (placed path f p k (homogenous v k)); auto; intros n Hn; apply (GN n Hn). }
  assert (FV : fin3' v). { destruct v as [[x y] z]. split; [apply (P 0%nat); lia|split; [apply (P 1%nat); lia|apply (P 2%nat); lia]]. }
  set (Q := path_transform (map params_of path) (point_of p)) in *. set (e := (growth (25 * length path + 1) - 1) * there) in *.
  rewrite <- map_rev, map_map in H.
  assert (E : forall n, In n (rev path) -> Forall2 fits (backward (parts_of n)) (back n) /\ cost (back n) = 26%nat /\ prodr (back n) = weight' (params_of n) /\ carries (prodx (back n)) (undo (params_of n))).
  { intros n Hn. apply in_rev in Hn. destruct (GN n Hn) as (N1 & N2). split; [apply back_fits; assumption|]. destruct (back_weight n) as (A1 & A2). split; [exact A2|]. split; [exact A1|apply back_carries]. }
  pose proof (weights_1 _ _ _ _ _ _ E) as W1. pose proof (path_desc _ _ _ _ _ _ E locals m H Cm) as D. pose proof (one_carries _ _ _ _ _ _ E) as K.
  rewrite rev_length, map_rev, weights_rev in D. rewrite map_rev, weights_rev in W1. pose proof (len1_pos (point_of v)) as LP. pose proof (growth_1 (26 * length path)) as GG.
  specialize (D ltac:(eapply Rle_trans; [|exact G2]; unfold back0; apply Rmult_le_compat_l; nra)).
  destruct (moved_near _ _ _ _ _ v j u D W1 K FV ltac:(lia) MU G2) as (F & B). split; [exact F|].
  pose proof (undo_path path (point_of p) GN) as U. fold Q in U.
  set (X := prodx _) in *. set (w' := weights weight' (map params_of path)) in *. fold back0 in B.
  assert (L : Rabs (hom4 (fold_right undo (point_of v) (map params_of (rev path))) j - hom4 (point_of p) j) <= 3 * w' * e).
  { rewrite <- U. rewrite <- (K (point_of v) j ltac:(lia)), <- (K Q j ltac:(lia)).
    destruct D as (_ & S & _).
    assert (I : forall k, (k < 3)%nat -> Rabs ((hom4 (point_of v) k - hom4 Q k) * X k j) <= e * w').
    { intros k Hk. rewrite Rabs_mult. apply Rmult_le_compat; try apply Rabs_pos.
      - destruct (P k Hk) as (_ & Pk). destruct (homogenous_ok v FV) as (_ & Hv & _). rewrite Hv in Pk. exact Pk.
      - eapply Rle_trans; [|apply (S k); lia]. unfold row, sum4. pose proof (Rabs_pos (X k 0%nat)). pose proof (Rabs_pos (X k 1%nat)). pose proof (Rabs_pos (X k 2%nat)). pose proof (Rabs_pos (X k 3%nat)).
        destruct j as [|[|[|j]]]; [lra|lra|lra|lia]. }
    pose proof (I 0%nat ltac:(lia)) as I0. pose proof (I 1%nat ltac:(lia)) as I1. pose proof (I 2%nat ltac:(lia)) as I2.
    assert (H3 : hom4 (point_of v) 3 = hom4 Q 3) by (destruct (point_of v) as [[? ?] ?], Q as [[? ?] ?]; reflexivity).
    unfold sum4. rewrite H3.
    replace (_ - _) with ((hom4 (point_of v) 0 - hom4 Q 0) * X 0%nat j + (hom4 (point_of v) 1 - hom4 Q 1) * X 1%nat j + (hom4 (point_of v) 2 - hom4 Q 2) * X 2%nat j) by ring.
    eapply Rle_trans; [apply Rabs_triang|]. eapply Rle_trans; [apply Rplus_le_compat_r, Rabs_triang|]. lra. }
  replace (B2R u - hom4 (point_of p) j) with ((B2R u - hom4 (fold_right undo (point_of v) (map params_of (rev path))) j) + (hom4 (fold_right undo (point_of v) (map params_of (rev path))) j - hom4 (point_of p) j)) by ring.
  eapply Rle_trans; [apply Rabs_triang|]. apply Rplus_le_compat; [exact B|exact L].
Qed.
End Library.
