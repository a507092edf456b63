(** * C103: transformation matrices combined in floating point *)
From Coq Require Import Reals ZArith List Bool Permutation Lia Lra.
From Flocq Require Import Core.Core IEEE754.BinarySingleNaN.
From Verif Require Import Rounded_Model Turn_Model Combined_Model Combined_Spec.
From Verif Require Rounded_Proofs Combined_Proofs.
Import ListNotations.
Local Open Scope list_scope.
Local Open Scope R_scope.

(** compressMatrices of any number of finite matrices whose sizes do not
    multiply to more than about 2^100 is their product, the last leftmost, up to
    ((1 + 2^-20)^n - 1) times the product of the sizes, however numpy arranges
    the additions and whichever of the arrays are of float32.  It is None only
    if all of them are. *)
Theorem C103_combined_is_accurate : forall ms r,
  all_finite ms -> compress ms r -> growth (length ms) * bound ms <= bpow radix2 100 ->
  match r with
  | None => forall o, In o ms -> o = None
  | Some m => (exists x, In (Some x) ms) /\ finite m /\
      forall i j, (i < 4)%nat -> (j < 4)%nat -> Rabs (val m i j - exact ms i j) <= (growth (length ms) - 1) * bound ms
  end.
Proof.
  intros ms r A H G. pose proof (Combined_Proofs.desc_items _ _ _ _ (Combined_Proofs.compress_desc ms r A H G)) as D.
  assert (Z : r = None <-> (forall o, In o ms -> o = None)).
  { destruct ms as [|f ms]; [cbn in H; subst r; split; [intros _ o []|reflexivity]|]. cbn [compress] in H.
    rewrite (Combined_Proofs.compress_from_none _ _ _ H). split; [intros (H1 & H2) o [<-|Ho]; auto|intros H1; split; [apply H1; left; reflexivity|intros o Ho; apply H1; right; exact Ho]]. }
  destruct r as [m|]; [|apply Z; reflexivity]. destruct D as (F & E). split; [|split; [exact F|]].
  - clear - Z. induction ms as [|[x|] ms IH]; [exfalso; assert (Some m = None) by (apply Z; intros o []); discriminate|exists x; left; reflexivity|].
    destruct IH as (x & Hx); [|exists x; right; exact Hx]. rewrite Z. split; [intros H o Ho; apply H; right; exact Ho|intros H o [<-|Ho]; auto].
  - intros i j I J. eapply Rle_trans; [apply E; assumption|]. apply Rmult_le_compat_r; [pose proof (Combined_Proofs.bound_1 ms); lra|].
    pose proof (Combined_Proofs.growth_mono (length ms - 1) (length ms) ltac:(lia)). lra.
Qed.

(** The matrix of a path is the product of the matrices of all parts of all its
    Transforms, and the inverse matrix that of the inverse parts in the opposite
    order, whatever the depth. *)
Theorem C103_path_is_accurate : forall (path : list parts) (inverse : bool) (r : fmat),
  let ms := concat (if inverse then map backward (rev path) else map forward path) in
  all_finite ms -> path_matrix path inverse r -> growth (7 * length path) * bound ms <= bpow radix2 100 ->
  finite r /\ forall i j, (i < 4)%nat -> (j < 4)%nat -> Rabs (val r i j - exact ms i j) <= (growth (7 * length path) - 1) * bound ms.
Proof.
  intros path inverse r ms A H G. pose proof (Combined_Proofs.path_near path inverse r A H G) as N.
  exact (Combined_Proofs.desc_items (Some r) _ _ _ (conj (Combined_Proofs.bound_1 ms) N)).
Qed.

(** A point moved by the matrix of a path lands where the exact product takes it,
    up to the same relative error and one more product. *)
Theorem C103_points_land : forall (path : list parts) (inverse : bool) (r : fmat) (p : nat -> b64) (j : nat) (v : b64),
  let ms := concat (if inverse then map backward (rev path) else map forward path) in
  let far := sum4 (fun k => Rabs (B2R (p k))) in
  all_finite ms -> path_matrix path inverse r -> growth (7 * length path) * (far * bound ms) <= bpow radix2 100 ->
  (forall k, (k < 4)%nat -> is_finite (p k) = true) -> 1 <= far -> (j < 4)%nat -> moves p r j v ->
  is_finite v = true /\ Rabs (B2R v - sum4 (fun k => B2R (p k) * exact ms k j)) <= (growth (7 * length path + 1) - 1) * (far * bound ms).
Proof.
  intros path inverse r p j v ms far A H G F P J M. pose proof (Combined_Proofs.bound_1 ms) as B1.
  pose proof (Combined_Proofs.growth_1 (7 * length path)) as G1.
  assert (G' : growth (7 * length path) * bound ms <= bpow radix2 100).
  { eapply Rle_trans; [|exact G]. apply Rmult_le_compat_l; [lra|]. assert (1 * bound ms <= far * bound ms) by (apply Rmult_le_compat_r; lra). lra. }
  apply (Combined_Proofs.point_near p (7 * length path) (bound ms) r (exact ms) j v); auto. exact (Combined_Proofs.path_near path inverse r A H G').
Qed.

(** For up to 2^19 products the growth is at most 2^-19 for each. *)
Theorem C103_growth : forall n, INR n <= bpow radix2 19 -> growth n - 1 <= INR n * bpow radix2 (-19).
Proof.
  intros n L. set (d := bpow radix2 (-20)). assert (D : 0 < d) by apply bpow_gt_0.
  assert (E : bpow radix2 (-19) = 2 * d) by (unfold d; change 2 with (bpow radix2 1); rewrite <- bpow_plus; reflexivity).
  assert (H : INR n * d <= / 2). { replace (/ 2) with (bpow radix2 19 * d) by (unfold d; rewrite <- bpow_plus; reflexivity). apply Rmult_le_compat_r; lra. }
  assert (K : forall k, growth k * (1 - INR k * d) <= 1).
  { induction k as [|k IH]; [unfold growth; cbn; lra|]. unfold growth in *. cbn [pow]. change (bpow radix2 (-20)) with d in IH |- *. rewrite S_INR. pose proof (pos_INR k).
    assert (0 <= (1 + d) ^ k) by (apply pow_le; lra).
    replace ((1 + d) * (1 + d) ^ k * (1 - (INR k + 1) * d)) with ((1 + d) ^ k * (1 - INR k * d) - (1 + d) ^ k * ((INR k + 1) * d * d)) by ring.
    assert (0 <= (1 + d) ^ k * ((INR k + 1) * d * d)) by (repeat apply Rmult_le_pos; lra). lra. }
  specialize (K n). pose proof (Combined_Proofs.growth_1 n). rewrite E. set (x := INR n * d) in *. replace (INR n * (2 * d)) with (2 * x) by (unfold x; ring).
  assert (0 <= x) by (apply Rmult_le_pos; [apply pos_INR|lra]). assert (growth n <= 2) by nra. nra.
Qed.

(** There always is a result. *)
Theorem C103_always_defined : (forall ms, exists r, compress ms r) /\ (forall path inverse, exists r, path_matrix path inverse r).
Proof. split; [exact Combined_Proofs.compress_defined|exact Combined_Proofs.path_defined]. Qed.

(** Beyond: two finite scales whose product is too large give an infinite item,
    however the additions are arranged. *)
Definition two100 : b32 := @B754_finite 24 128 false 8388608 77 eq_refl.
Definition scale100 : fmat := F32 (at4 [[two100; O; O; O]; [O; I; O; O]; [O; O; I; O]; [O; O; O; I]]).
Theorem C103_large_scales_refuted : finite scale100 /\ forall r, compress [Some scale100; Some scale100] r -> exists m, r = Some m /\ ~ finite m.
Proof.
  split.
  - intros i j I J. destruct i as [|[|[|[|i]]]]; try lia; destruct j as [|[|[|[|j]]]]; try lia; reflexivity.
  - intros r H. cbn [compress] in H. inversion H as [| | |? ? z ? ? D C]; subst. inversion C; subst. exists z. split; [reflexivity|]. intros F.
    unfold scale100 in D. inversion D as [a b c P|x y c N P]; subst; [|exact N]. specialize (F 0%nat 0%nat ltac:(lia) ltac:(lia)). cbn in F.
    destruct (P 0%nat 0%nat ltac:(lia) ltac:(lia)) as (l & Pm & Q). clear D C H P.
    assert (B : forall k, In k l -> (k < 4)%nat) by (intros k K; apply (Permutation_in _ Pm) in K as [<-|[<-|[<-|[<-|[]]]]]; lia).
    assert (Z : In 0%nat l) by (apply (Permutation_in _ (Permutation_sym Pm)); left; reflexivity). clear Pm.
    assert (W : (In 0%nat l -> c 0%nat 0%nat = B754_infinity false) /\ (~ In 0%nat l -> exists s, c 0%nat 0%nat = B754_zero s)).
    { clear Z F. revert B Q. generalize (c 0%nat 0%nat) as v. intros v B Q. induction Q as [|k|l1 l2 x y _ IH1 _ IH2|k l x _ IH].
      - split; [intros []|intros _; exists false; reflexivity].
      - assert (K : (k < 4)%nat) by (apply B; left; reflexivity). destruct k as [|[|[|[|k]]]]; [| | | |lia];
          (split; [intros [E|[]]; try discriminate E; vm_compute; reflexivity|intros E; try (exfalso; apply E; left; reflexivity); exists false; vm_compute; reflexivity]).
      - destruct IH1 as (A1 & A2); [intros k K; apply B, in_or_app; auto|]. destruct IH2 as (B1 & B2); [intros k K; apply B, in_or_app; auto|].
        destruct (in_dec Nat.eq_dec 0%nat l1) as [I1|I1], (in_dec Nat.eq_dec 0%nat l2) as [I2|I2].
        + rewrite (A1 I1), (B1 I2). split; [reflexivity|intros E; exfalso; apply E, in_or_app; auto].
        + destruct (B2 I2) as (s & ->). rewrite (A1 I1). split; [reflexivity|intros E; exfalso; apply E, in_or_app; auto].
        + destruct (A2 I1) as (s & ->). rewrite (B1 I2). split; [reflexivity|intros E; exfalso; apply E, in_or_app; auto].
        + destruct (A2 I1) as (s & ->). destruct (B2 I2) as (s' & ->). split; [intros E; apply in_app_or in E; tauto|intros _; destruct s, s'; eexists; reflexivity].
      - assert (K : (k < 4)%nat) by (apply B; left; reflexivity). destruct IH as (A1 & A2); [intros j J; apply B; right; exact J|].
        destruct (in_dec Nat.eq_dec 0%nat l) as [I1|I1].
        + rewrite (A1 I1). split; [intros _|intros E; exfalso; apply E; right; exact I1]. destruct k as [|[|[|[|k]]]]; [| | | |lia]; vm_compute; reflexivity.
        + destruct (A2 I1) as (s & ->). destruct k as [|[|[|[|k]]]]; [| | | |lia]; destruct s;
            (split; [intros [E|E]; try discriminate E; try contradiction; vm_compute; reflexivity|intros E; try (exfalso; apply E; left; reflexivity); eexists; vm_compute; reflexivity]). }
    rewrite (proj1 W Z) in F. discriminate F.
Qed.

(** The hypotheses are met: a translation and a scale. *)
Definition two32 : b32 := @B754_finite 24 128 false 8388608 (-22) eq_refl.
Definition move1 : fmat := F32 (at4 [[I; O; O; O]; [O; I; O; O]; [O; O; I; O]; [two32; I; O; I]]).
Definition grow2 : fmat := F32 (at4 [[two32; O; O; O]; [O; two32; O; O]; [O; O; two32; O]; [O; O; O; I]]).
Definition node : parts := {| T := Some move1; T1 := None; C := None; C1 := None; Ro := None; Ro1 := None; SO := None; SO1 := None; Sc := Some grow2; Sc1 := None |}.
Lemma two32_2 : B2R two32 = 2. Proof. unfold two32, B2R, F2R. cbn. lra. Qed.
Lemma one32_1 : B2R I = 1. Proof. apply Rounded_Proofs.one32_1. Qed.
Example C103_case : all_finite (concat (map forward [node; node])) /\ growth (7 * length [node; node]) * bound (concat (map forward [node; node])) <= bpow radix2 100 /\
  exact (concat (map forward [node; node])) 3%nat 0%nat = 6 /\ exact (concat (map forward [node; node])) 0%nat 0%nat = 4.
Proof.
  split; [|split].
  - intros m H. cbn in H. repeat destruct H as [H|H]; try discriminate H; try contradiction; injection H as <-;
      intros i j II J; destruct i as [|[|[|[|i]]]]; try lia; destruct j as [|[|[|[|j]]]]; try lia; reflexivity.
  - assert (N1 : norm (val move1) <= 4).
    { unfold norm, row, sum4, val, move1, at4. cbn [nth]. change (B2R O) with 0. rewrite two32_2, one32_1, ?Rabs_R0, ?Rabs_R1, (Rabs_pos_eq 2) by lra. repeat apply Rmax_lub; lra. }
    assert (N2 : norm (val grow2) <= 4).
    { unfold norm, row, sum4, val, grow2, at4. cbn [nth]. change (B2R O) with 0. rewrite two32_2, one32_1, ?Rabs_R0, ?Rabs_R1, (Rabs_pos_eq 2) by lra. repeat apply Rmax_lub; lra. }
    cbn [map forward concat app node T C Ro SO Sc SO1 C1 bound length Nat.mul Nat.add].
    set (a := Rmax 1 (norm (val move1))). set (b := Rmax 1 (norm (val grow2))).
    assert (A : 1 <= a <= 4) by (split; [apply Rmax_l|apply Rmax_lub; lra]). assert (B : 1 <= b <= 4) by (split; [apply Rmax_l|apply Rmax_lub; lra]).
    assert (G : growth 14 <= 2).
    { assert (L : INR 14 <= bpow radix2 19) by (rewrite INR_IZR_INZ; cbn; lra). pose proof (C103_growth 14 L) as G. rewrite INR_IZR_INZ in G.
      assert (bpow radix2 (-19) <= / 16) by (change (/ 16) with (bpow radix2 (-4)); apply bpow_le; lia). cbn [Z.of_nat Pos.of_succ_nat Pos.succ] in G. lra. }
    assert (AB : a * b <= 16) by (apply Rle_trans with (4 * 4); [apply Rmult_le_compat; lra|lra]). assert (AB0 : 1 <= a * b) by nra.
    replace (a * (b * (a * (b * 1)))) with ((a * b) * (a * b)) by ring. pose proof (Combined_Proofs.growth_1 14).
    apply Rle_trans with (2 * (16 * 16)); [apply Rmult_le_compat; [lra|nra|exact G|apply Rmult_le_compat; lra]|]. apply Rle_trans with (bpow radix2 9); [cbn; lra|apply bpow_le; lia].
  - split; unfold node; cbn [map forward concat app T C Ro SO Sc SO1 C1 exact]; unfold times, sum4, unit4, val, move1, grow2, at4; cbn [nth Nat.eqb]; change (B2R O) with 0; rewrite two32_2, one32_1; ring.
Qed.

Print Assumptions C103_combined_is_accurate.
Print Assumptions C103_path_is_accurate.
Print Assumptions C103_points_land.
Print Assumptions C103_growth.
Print Assumptions C103_always_defined.
Print Assumptions C103_large_scales_refuted.
