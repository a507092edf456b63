(** Forward error analysis of rotMatrix. *)
From Coq Require Import Reals ZArith List Bool Permutation Lia Lra Psatz.
From Flocq Require Import Core.Core IEEE754.BinarySingleNaN.
Require Import Flocq.Prop.Relative.
From Verif Require Import Rounded_Model Rounded_Proofs Turn_Model Matrix_Model Matrix_Spec Matrix_Proofs Turn_Spec.
Import ListNotations.
Local Open Scope list_scope.
Local Open Scope R_scope.

Definition u : R := bpow radix2 (-53).
Definition eta : R := bpow radix2 (-1075).
Lemma u_pos : 0 < u. Proof. apply bpow_gt_0. Qed.
Lemma eta_pos : 0 < eta. Proof. apply bpow_gt_0. Qed.
Lemma u_small : u <= / 1000000000. Proof. unfold u. change (bpow radix2 (-53)) with (/ IZR 9007199254740992). apply Rinv_le_contravar; [lra|]. apply IZR_le. lia. Qed.
Lemma err64 v : Rabs (rnd64 v - v) <= u * Rabs v + eta.
Proof.
  destruct (error_N_FLT radix2 (-1074) 53 eq_refl (fun n => negb (Z.even n)) v) as (e & t & E & T & _ & H).
  change (rnd64 v) with (round radix2 (FLT_exp (-1074) 53) ZnearestE v). rewrite H.
  replace (v * (1 + e) + t - v) with (v * e + t) by ring. eapply Rle_trans; [apply Rabs_triang|]. rewrite Rabs_mult.
  assert (Rabs e <= u). { eapply Rle_trans; [exact E|]. unfold u. change (/ 2) with (bpow radix2 (-1)). rewrite <- bpow_plus. apply bpow_le. lia. }
  assert (Rabs t <= eta). { eapply Rle_trans; [exact T|]. unfold eta. change (/ 2) with (bpow radix2 (-1)). rewrite <- bpow_plus. apply bpow_le. lia. }
  pose proof (Rabs_pos v). nra.
Qed.
Lemma rnd64_lt v : Rabs v <= bpow radix2 1010 -> Rabs (rnd64 v) < bpow radix2 1024.
Proof.
  intros H. apply Rle_lt_trans with (bpow radix2 1010); [|apply bpow_lt; lia].
  apply abs_round_le_generic; [apply v64|apply valid_rnd_N| |exact H]. apply generic_format_bpow. unfold SpecFloat.fexp, SpecFloat.emin. lia.
Qed.
Lemma mul64_r a b : is_finite a = true -> is_finite b = true -> Rabs (B2R a * B2R b) <= bpow radix2 1010 ->
  is_finite (mul64 a b) = true /\ B2R (mul64 a b) = rnd64 (B2R a * B2R b).
Proof.
  intros A B L. pose proof (Bmult_correct 53 1024 p53 l1024 mode_NE a b) as H. change (round_mode mode_NE) with ZnearestE in H. fold (rnd64 (B2R a * B2R b)) in H.
  rewrite Rlt_bool_true in H by (apply rnd64_lt; exact L). destruct H as (H1 & H2 & _). rewrite A, B in H2. split; assumption.
Qed.
Lemma add64_r a b : is_finite a = true -> is_finite b = true -> Rabs (B2R a + B2R b) <= bpow radix2 1010 ->
  is_finite (add64 a b) = true /\ B2R (add64 a b) = rnd64 (B2R a + B2R b).
Proof.
  intros A B L. pose proof (Bplus_correct 53 1024 p53 l1024 mode_NE a b A B) as H. cbv zeta in H. change (round_mode mode_NE) with ZnearestE in H. fold (rnd64 (B2R a + B2R b)) in H.
  rewrite Rlt_bool_true in H by (apply rnd64_lt; exact L). destruct H as (H1 & H2 & _). split; assumption.
Qed.
Lemma sub64_r a b : is_finite a = true -> is_finite b = true -> Rabs (B2R a - B2R b) <= bpow radix2 1010 ->
  is_finite (sub64 a b) = true /\ B2R (sub64 a b) = rnd64 (B2R a - B2R b).
Proof.
  intros A B L. pose proof (Bminus_correct 53 1024 p53 l1024 mode_NE a b A B) as H. cbv zeta in H. change (round_mode mode_NE) with ZnearestE in H. fold (rnd64 (B2R a - B2R b)) in H.
  rewrite Rlt_bool_true in H by (apply rnd64_lt; exact L). destruct H as (H1 & H2 & _). split; assumption.
Qed.
Lemma fma64_r a b c : is_finite a = true -> is_finite b = true -> is_finite c = true -> Rabs (B2R a * B2R b + B2R c) <= bpow radix2 1010 ->
  is_finite (fma64 a b c) = true /\ B2R (fma64 a b c) = rnd64 (B2R a * B2R b + B2R c).
Proof.
  intros A B C L. pose proof (Bfma_correct 53 1024 p53 l1024 mode_NE a b c A B C) as H. cbv zeta in H. change (round_mode mode_NE) with ZnearestE in H. fold (rnd64 (B2R a * B2R b + B2R c)) in H.
  rewrite Rlt_bool_true in H by (apply rnd64_lt; exact L). destruct H as (H1 & H2 & _). split; assumption.
Qed.
Lemma div64_r a b : is_finite a = true -> B2R b <> 0 -> Rabs (B2R a / B2R b) <= bpow radix2 1010 ->
  is_finite (div64 a b) = true /\ B2R (div64 a b) = rnd64 (B2R a / B2R b).
Proof.
  intros A N L. pose proof (Bdiv_correct 53 1024 p53 l1024 mode_NE a b N) as H. change (round_mode mode_NE) with ZnearestE in H. fold (rnd64 (B2R a / B2R b)) in H.
  rewrite Rlt_bool_true in H by (apply rnd64_lt; exact L). destruct H as (H1 & H2 & _). rewrite A in H2. split; assumption.
Qed.

(** ** numbers known up to some units *)
Section Scale.
(** the size of the numbers at hand *)
Variable M : R.
Hypothesis M_lo : bpow radix2 (-1001) <= M.
Hypothesis M_hi : M <= bpow radix2 1001.
Definition ok (v : b64) (r k : R) : Prop := is_finite v = true /\ Rabs (B2R v - r) <= k * u * M.
Lemma M_pos : 0 < M. Proof. eapply Rlt_le_trans; [apply bpow_gt_0|exact M_lo]. Qed.
Lemma eta_M : eta <= u * M / 1000.
Proof.
  assert (H : eta * 1000 <= u * bpow radix2 (-1001)).
  { unfold eta, u. rewrite <- bpow_plus. apply Rle_trans with (bpow radix2 (-1075) * bpow radix2 10); [|rewrite <- bpow_plus; apply bpow_le; lia].
    apply Rmult_le_compat_l; [apply bpow_ge_0|]. change (bpow radix2 10) with 1024. lra. }
  pose proof u_pos. assert (u * bpow radix2 (-1001) <= u * M) by (apply Rmult_le_compat_l; lra). lra.
Qed.
Lemma M_big k : 0 <= k <= 300 -> k * M <= bpow radix2 1010.
Proof.
  intros K. apply Rle_trans with (bpow radix2 9 * bpow radix2 1001); [|rewrite <- bpow_plus; apply bpow_le; lia].
  change (bpow radix2 9) with 512. pose proof M_pos. pose proof (bpow_gt_0 radix2 1001). nra.
Qed.
(** rounding a number of known size *)
Lemma rounded v w r k C : is_finite w = true -> B2R w = rnd64 v -> Rabs (v - r) <= k * u * M -> Rabs r <= C * M -> 0 <= k <= 2000 -> 0 <= C <= 16 -> ok w r (k + C + / 16).
Proof.
  intros F E H R1 K HC. split; [exact F|]. rewrite E. pose proof (err64 v) as R2. pose proof eta_M as T. pose proof u_pos as U. pose proof u_small as U1. pose proof M_pos as P.
  assert (V : Rabs v <= C * M + k * u * M). { replace v with (r + (v - r)) by ring. eapply Rle_trans; [apply Rabs_triang|]. lra. }
  replace (rnd64 v - r) with ((rnd64 v - v) + (v - r)) by ring. eapply Rle_trans; [apply Rabs_triang|].
  assert (u * Rabs v <= u * (C * M + k * u * M)) by (apply Rmult_le_compat_l; lra).
  assert (X : k * u <= / 500) by nra. assert (0 < u * M) by nra. assert (Y : u * (k * u * M) <= / 500 * (u * M)) by nra. lra.
Qed.
Lemma add_near a b ra rb ka kb C : ok a ra ka -> ok b rb kb -> Rabs (ra + rb) <= C * M -> 0 <= ka -> 0 <= kb -> ka + kb <= 2000 -> 0 <= C <= 16 ->
  ok (add64 a b) (ra + rb) (ka + kb + C + / 16).
Proof.
  intros (Fa & A) (Fb & B) HC Ka Kb K C16. pose proof u_pos as U. pose proof u_small as U1. pose proof M_pos as P. assert (UM : 0 < u * M) by nra.
  assert (H : Rabs (B2R a + B2R b - (ra + rb)) <= (ka + kb) * u * M). { replace (B2R a + B2R b - (ra + rb)) with ((B2R a - ra) + (B2R b - rb)) by ring. eapply Rle_trans; [apply Rabs_triang|]. lra. }
  destruct (add64_r a b Fa Fb) as (F & E).
  - eapply Rle_trans; [|apply (M_big 17); lra]. replace (B2R a + B2R b) with ((ra + rb) + (B2R a + B2R b - (ra + rb))) by ring. eapply Rle_trans; [apply Rabs_triang|].
    assert ((ka + kb) * u <= 1) by nra. assert ((ka + kb) * u * M <= 1 * M) by (apply Rmult_le_compat_r; lra). nra.
  - eapply rounded; eauto. lra.
Qed.
Lemma sub_near a b ra rb ka kb C : ok a ra ka -> ok b rb kb -> Rabs (ra - rb) <= C * M -> 0 <= ka -> 0 <= kb -> ka + kb <= 2000 -> 0 <= C <= 16 ->
  ok (sub64 a b) (ra - rb) (ka + kb + C + / 16).
Proof.
  intros (Fa & A) (Fb & B) HC Ka Kb K C16. pose proof u_pos as U. pose proof u_small as U1. pose proof M_pos as P. assert (UM : 0 < u * M) by nra.
  assert (H : Rabs (B2R a - B2R b - (ra - rb)) <= (ka + kb) * u * M). { replace (B2R a - B2R b - (ra - rb)) with ((B2R a - ra) + - (B2R b - rb)) by ring. eapply Rle_trans; [apply Rabs_triang|]. rewrite Rabs_Ropp. lra. }
  destruct (sub64_r a b Fa Fb) as (F & E).
  - eapply Rle_trans; [|apply (M_big 17); lra]. replace (B2R a - B2R b) with ((ra - rb) + (B2R a - B2R b - (ra - rb))) by ring. eapply Rle_trans; [apply Rabs_triang|].
    assert ((ka + kb) * u <= 1) by nra. assert ((ka + kb) * u * M <= 1 * M) by (apply Rmult_le_compat_r; lra). nra.
  - eapply rounded; eauto. lra.
Qed.
Lemma ok_le v r k k' : ok v r k -> k <= k' -> ok v r k'.
Proof. intros (F & A) H. split; [exact F|]. eapply Rle_trans; [exact A|]. pose proof u_pos. pose proof M_pos. assert (0 < u * M) by nra. nra. Qed.
End Scale.

(** ** numbers of the size of 1 *)
Notation near1 := (ok 1).
Lemma one_lo : bpow radix2 (-1001) <= 1. Proof. change 1 with (bpow radix2 0). apply bpow_le. lia. Qed.
Lemma one_hi : 1 <= bpow radix2 1001. Proof. change 1 with (bpow radix2 0). apply bpow_le. lia. Qed.
Lemma near_diff a ra ka b rb kb A B : Rabs (a - ra) <= ka * u * 1 -> Rabs (b - rb) <= kb * u * 1 -> Rabs ra <= A -> Rabs rb <= B ->
  0 <= ka <= 500 -> 0 <= kb <= 500 -> Rabs (a * b - ra * rb) <= (A * kb + B * ka + / 16) * u * 1.
Proof.
  intros HA HB RA RB KA KB. pose proof u_pos as U. pose proof u_small as U1.
  replace (a * b - ra * rb) with (ra * (b - rb) + (rb * (a - ra) + (a - ra) * (b - rb))) by ring.
  eapply Rle_trans; [apply Rabs_triang|]. eapply Rle_trans; [apply Rplus_le_compat_l, Rabs_triang|]. rewrite !Rabs_mult.
  pose proof (Rabs_pos ra). pose proof (Rabs_pos rb). pose proof (Rabs_pos (a - ra)). pose proof (Rabs_pos (b - rb)).
  assert (Rabs ra * Rabs (b - rb) <= A * (kb * u)) by (apply Rmult_le_compat; lra).
  assert (Rabs rb * Rabs (a - ra) <= B * (ka * u)) by (apply Rmult_le_compat; lra).
  assert (Rabs (a - ra) * Rabs (b - rb) <= (ka * u) * (kb * u)) by (apply Rmult_le_compat; lra).
  assert (ka * u * (kb * u) <= / 16 * u). { assert (ka * kb <= 500 * 500) by (apply Rmult_le_compat; lra). assert (ka * kb * u <= 500 * 500 * / 1000000000) by (apply Rmult_le_compat; nra). nra. }
  lra.
Qed.
Lemma mul_near a b ra rb ka kb A B : near1 a ra ka -> near1 b rb kb -> Rabs ra <= A -> Rabs rb <= B -> A <= 4 -> B <= 4 -> 0 <= ka <= 200 -> 0 <= kb <= 200 ->
  near1 (mul64 a b) (ra * rb) (A * kb + B * ka + A * B + / 8).
Proof.
  intros (Fa & HA) (Fb & HB) RA RB A4 B4 KA KB. pose proof u_pos as U. pose proof u_small as U1.
  assert (A0 : 0 <= A) by (pose proof (Rabs_pos ra); lra). assert (B0 : 0 <= B) by (pose proof (Rabs_pos rb); lra).
  assert (H : Rabs (B2R a * B2R b - ra * rb) <= (A * kb + B * ka + / 16) * u * 1) by (apply near_diff; try lra; assumption).
  assert (C : Rabs (ra * rb) <= A * B * 1) by (rewrite Rabs_mult, Rmult_1_r; apply Rmult_le_compat; auto using Rabs_pos).
  assert (K : 0 <= A * kb + B * ka + / 16 <= 2000) by nra.
  assert (AB : 0 <= A * B <= 16) by nra.
  destruct (mul64_r a b Fa Fb) as (F & E).
  - apply Rle_trans with (17 * 1); [|apply (M_big 1 one_lo one_hi 17); lra]. replace (B2R a * B2R b) with (ra * rb + (B2R a * B2R b - ra * rb)) by ring. eapply Rle_trans; [apply Rabs_triang|].
    assert ((A * kb + B * ka + / 16) * u <= 1) by nra. lra.
  - apply ok_le with (A * kb + B * ka + / 16 + A * B + / 16); [exact one_lo| |lra].
    eapply rounded; eauto using one_lo, one_hi.
Qed.
Definition addn := add_near 1 one_lo one_hi.
Definition subn := sub_near 1 one_lo one_hi.

(** ** the axis *)
Lemma near_half th : Rabs th <= / 2 -> Rabs (sqrt (1 + th) - 1) <= 3 / 5 * Rabs th.
Proof.
  intros H. apply Rabs_le_inv in H. assert (P : 0 <= sqrt (1 + th)) by apply sqrt_pos. assert (Q : sqrt (1 + th) * sqrt (1 + th) = 1 + th) by (apply sqrt_sqrt; lra).
  set (s := sqrt (1 + th)) in *. replace th with ((s - 1) * (s + 1)) by lra. rewrite Rabs_mult. rewrite (Rabs_pos_eq (s + 1)) by lra.
  pose proof (Rabs_pos (s - 1)). assert (2 / 3 <= s) by nra. nra.
Qed.
Lemma ok_square M v : bpow radix2 (-1001) <= M -> M <= bpow radix2 1001 -> is_finite v = true -> B2R v * B2R v <= M -> ok M (mul64 v v) (B2R v * B2R v) (1 + / 16).
Proof.
  intros L H F B. assert (0 <= B2R v * B2R v) by apply Rle_0_sqr. destruct (mul64_r v v F F) as (F' & E).
  - rewrite Rabs_pos_eq by assumption. eapply Rle_trans; [exact B|]. eapply Rle_trans; [exact H|]. apply bpow_le. lia.
  - apply ok_le with (0 + 1 + / 16); [exact L| |lra]. eapply (rounded M L (B2R v * B2R v)); eauto; try lra.
    + replace (B2R v * B2R v - B2R v * B2R v) with 0 by ring. rewrite Rabs_R0. lra.
    + rewrite Rabs_pos_eq; lra.
Qed.
Section Axis.
Variables x y z : b64.
Hypothesis Fx : is_finite x = true.
Hypothesis Fy : is_finite y = true.
Hypothesis Fz : is_finite z = true.
Notation X := (B2R x).
Notation Y := (B2R y).
Notation Z := (B2R z).
Definition sq : R := X * X + Y * Y + Z * Z.
Definition ln : R := sqrt sq.
Hypothesis Llo : bpow radix2 (-500) <= ln.
Hypothesis Lhi : ln <= bpow radix2 500.
Lemma sq_ge : 0 <= X * X /\ 0 <= Y * Y /\ 0 <= Z * Z. Proof. repeat split; apply Rle_0_sqr. Qed.
Lemma ln_pos : 0 < ln. Proof. eapply Rlt_le_trans; [apply bpow_gt_0|exact Llo]. Qed.
Lemma ln_sq : ln * ln = sq. Proof. apply sqrt_sqrt. unfold sq. destruct sq_ge as (? & ? & ?). lra. Qed.
Lemma sq_pos : 0 < sq. Proof. rewrite <- ln_sq. pose proof ln_pos. nra. Qed.
Lemma sq_lo : bpow radix2 (-1001) <= sq.
Proof. rewrite <- ln_sq. apply Rle_trans with (bpow radix2 (-500) * bpow radix2 (-500)); [rewrite <- bpow_plus; apply bpow_le; lia|]. pose proof (bpow_gt_0 radix2 (-500)). apply Rmult_le_compat; lra. Qed.
Lemma sq_hi : sq <= bpow radix2 1001.
Proof. rewrite <- ln_sq. pose proof ln_pos. apply Rle_trans with (bpow radix2 500 * bpow radix2 500); [apply Rmult_le_compat; lra|]. rewrite <- bpow_plus. apply bpow_le. lia. Qed.
Definition squared : b64 := add64 (add64 (mul64 x x) (mul64 y y)) (mul64 z z).
Lemma squared_ok : ok sq squared sq (11 / 2).
Proof.
  destruct sq_ge as (A & B & C). pose proof sq_lo as L. pose proof sq_hi as H. unfold sq in L, H |- *. fold sq in L, H |- *.
  assert (OX : ok sq (mul64 x x) (X * X) (1 + / 16)) by (apply ok_square; try assumption; unfold sq; lra).
  assert (OY : ok sq (mul64 y y) (Y * Y) (1 + / 16)) by (apply ok_square; try assumption; unfold sq; lra).
  assert (OZ : ok sq (mul64 z z) (Z * Z) (1 + / 16)) by (apply ok_square; try assumption; unfold sq; lra).
  pose proof (add_near sq L H _ _ _ _ _ _ 1 OX OY) as S1. specialize (S1 ltac:(rewrite Rabs_pos_eq; unfold sq; lra)). specialize (S1 ltac:(lra) ltac:(lra) ltac:(lra) ltac:(lra)).
  pose proof (add_near sq L H _ _ _ _ _ _ 1 S1 OZ) as S2. specialize (S2 ltac:(rewrite Rabs_pos_eq; unfold sq; lra)). specialize (S2 ltac:(lra) ltac:(lra) ltac:(lra) ltac:(lra)).
  eapply ok_le; [exact L|exact S2|lra].
Qed.
Lemma part_1 v : v * v <= sq -> Rabs (v / ln) <= 1.
Proof.
  intros H. pose proof ln_pos as P. unfold Rdiv. rewrite Rabs_mult, Rabs_inv, (Rabs_pos_eq ln) by lra.
  assert (Rabs v <= ln). { rewrite <- ln_sq in H. pose proof (Rabs_pos v). assert (Rabs v * Rabs v = v * v) by (rewrite <- Rabs_mult; apply Rabs_pos_eq, Rle_0_sqr). nra. }
  apply (Rmult_le_reg_r ln); [exact P|]. rewrite Rmult_assoc, Rinv_l, Rmult_1_r, Rmult_1_l by lra. assumption.
Qed.
Variable pow_half : b64 -> b64.
Hypothesis Hpow : accurate_root pow_half.
Definition unit_ok (w v : b64) : Prop := ok 1 w (B2R v / ln) 7.
Lemma length_ok : is_finite (pow_half squared) = true /\ exists e, Rabs e <= (11 / 2) * u /\ B2R (pow_half squared) = ln * (1 + e).
Proof.
  destruct squared_ok as (F & E). pose proof sq_pos as P. pose proof u_pos as U. pose proof u_small as U1. pose proof ln_pos as LP.
  set (th := (B2R squared - sq) / sq).
  assert (T : B2R squared = sq * (1 + th)) by (unfold th; field; lra).
  assert (TH : Rabs th <= 11 / 2 * u).
  { unfold th, Rdiv. rewrite Rabs_mult, Rabs_inv, (Rabs_pos_eq sq) by lra. apply (Rmult_le_reg_r sq); [exact P|]. rewrite Rmult_assoc, Rinv_l by lra. lra. }
  assert (T5 : Rabs th <= / 2) by lra. pose proof (near_half th T5) as N. apply Rabs_le_inv in T5.
  destruct (Hpow squared F) as (F' & E'); [rewrite T; nra|]. split; [exact F'|].
  assert (SQ : sqrt (B2R squared) = ln * sqrt (1 + th)) by (rewrite T; apply sqrt_mult; lra). rewrite SQ in E'.
  set (s := sqrt (1 + th)) in *. exists (B2R (pow_half squared) / ln - 1). split; [|field; lra].
  assert (S1 : Rabs (s - 1) <= 33 / 10 * u) by lra. assert (S0 : 0 <= s <= 2) by (apply Rabs_le_inv in S1; split; lra).
  assert (S2 : s <= 1 + 33 / 10 * u) by (apply Rabs_le_inv in S1; lra).
  replace (B2R (pow_half squared) / ln - 1) with ((B2R (pow_half squared) - ln * s) / ln + (s - 1)) by (field; lra).
  eapply Rle_trans; [apply Rabs_triang|].
  assert (Rabs ((B2R (pow_half squared) - ln * s) / ln) <= 2 * u * s).
  { unfold Rdiv. rewrite Rabs_mult, Rabs_inv, (Rabs_pos_eq ln) by lra. apply (Rmult_le_reg_r ln); [exact LP|]. rewrite Rmult_assoc, Rinv_l, Rmult_1_r by lra.
    assert (B : bpow radix2 (-52) = 2 * u) by (unfold u; change 2 with (bpow radix2 1); rewrite <- bpow_plus; reflexivity). rewrite B in E'. lra. }
  assert (2 * u * s <= 2 * u * (1 + 33 / 10 * u)) by (apply Rmult_le_compat_l; lra). nra.
Qed.
Lemma divided v : is_finite v = true -> B2R v * B2R v <= sq -> unit_ok (div64 v (pow_half squared)) v.
Proof.
  intros F V. destruct length_ok as (FL & e & E & L). pose proof u_pos as U. pose proof u_small as U1. pose proof ln_pos as LP. pose proof (part_1 _ V) as P1.
  assert (E1 : - / 1000 <= e <= / 1000) by (apply Rabs_le_inv in E; lra).
  assert (N : B2R (pow_half squared) <> 0) by (rewrite L; nra).
  set (q := B2R v / ln) in *.
  assert (Q : B2R v / B2R (pow_half squared) = q / (1 + e)) by (rewrite L; unfold q; field; lra).
  assert (D : Rabs (B2R v / B2R (pow_half squared) - q) <= 28 / 5 * u * 1).
  { rewrite Q. replace (q / (1 + e) - q) with (- (q * (e / (1 + e)))) by (field; lra). rewrite Rabs_Ropp, Rabs_mult. unfold Rdiv. rewrite Rabs_mult, Rabs_inv, (Rabs_pos_eq (1 + e)) by lra.
    assert (/ (1 + e) <= 1002 / 1000). { apply (Rmult_le_reg_r (1 + e)); [lra|]. rewrite Rinv_l by lra. nra. }
    assert (0 < / (1 + e)) by (apply Rinv_0_lt_compat; lra).
    assert (A : Rabs e * / (1 + e) <= 11 / 2 * u * (1002 / 1000)) by (apply Rmult_le_compat; try lra; apply Rabs_pos).
    assert (0 <= Rabs e * / (1 + e)) by (pose proof (Rabs_pos e); nra). pose proof (Rabs_pos q).
    assert (Rabs q * (Rabs e * / (1 + e)) <= 1 * (11 / 2 * u * (1002 / 1000))) by (apply Rmult_le_compat; lra). lra. }
  destruct (div64_r v (pow_half squared) F N) as (F' & E').
  - replace (B2R v / B2R (pow_half squared)) with (q + (B2R v / B2R (pow_half squared) - q)) by ring. eapply Rle_trans; [apply Rabs_triang|].
    apply Rle_trans with (2 * 1); [lra|]. apply (M_big 1 one_lo one_hi 2). lra.
  - apply (ok_le 1 one_lo) with (28 / 5 + 1 + / 16); [|lra]. apply (rounded 1 one_lo _ _ _ _ _ F' E' D); [rewrite Rmult_1_r; exact P1|lra|lra].
Qed.
Lemma undivided v : is_finite v = true -> B2R v * B2R v <= sq -> B2R squared = 1 -> unit_ok v v.
Proof.
  intros F V E. split; [exact F|]. destruct squared_ok as (_ & H). rewrite E in H. pose proof u_pos as U. pose proof u_small as U1. pose proof ln_pos as LP. pose proof (part_1 _ V) as P1. pose proof sq_pos as SP.
  assert (US : u * sq <= / 1000000000 * sq) by (apply Rmult_le_compat_r; lra). assert (S2 : sq <= 2) by (apply Rabs_le_inv in H; lra).
  assert (H' : Rabs (1 - sq) <= 11 * u) by nra.
  assert (S9 : Rabs (1 - sq) <= 6 * u). { apply Rabs_le_inv in H'. assert (sq <= 1 + 11 * u) by lra. eapply Rle_trans; [exact H|]. nra. }
  assert (L1 : Rabs (ln - 1) <= 6 * u).
  { replace (1 - sq) with ((1 - ln) * (1 + ln)) in S9 by (rewrite <- ln_sq; ring). rewrite Rabs_mult, (Rabs_pos_eq (1 + ln)) in S9 by lra. rewrite Rabs_minus_sym. pose proof (Rabs_pos (1 - ln)). nra. }
  replace (B2R v - B2R v / ln) with (B2R v / ln * (ln - 1)) by (field; lra). rewrite Rabs_mult. pose proof (Rabs_pos (B2R v / ln)). pose proof (Rabs_pos (ln - 1)). nra.
Qed.
End Axis.

(** ** the items *)
Definition at_R (r : list (list R)) (i j : nat) : R := nth j (nth i r []) 0.
Definition exact_items (x y z c s t : R) : nat -> nat -> R :=
  at_R [[t*x*x+c;   t*x*y+s*z; t*x*z-s*y; 0];
        [t*x*y-s*z; t*y*y+c;   t*y*z+s*x; 0];
        [t*x*z+s*y; t*y*z-s*x; t*z*z+c;   0];
        [0;         0;         0;         1]].
Lemma ok_exact v r : is_finite v = true -> B2R v = r -> forall k, 0 <= k -> ok 1 v r k.
Proof. intros F E k K. split; [exact F|]. rewrite E. replace (r - r) with 0 by ring. rewrite Rabs_R0. pose proof u_pos. nra. Qed.
Section Items.
Variables x y z c s t : b64.
Variables X Y Z C S0 T : R.
Hypothesis Ox : ok 1 x X 7.
Hypothesis Oy : ok 1 y Y 7.
Hypothesis Oz : ok 1 z Z 7.
Hypothesis Oc : ok 1 c C 2.
Hypothesis Os : ok 1 s S0 2.
Hypothesis Ot : ok 1 t T (33 / 8).
Hypothesis Bx : Rabs X <= 1.
Hypothesis By : Rabs Y <= 1.
Hypothesis Bz : Rabs Z <= 1.
Hypothesis Bc : Rabs C <= 1.
Hypothesis Bs : Rabs S0 <= 1.
Hypothesis Bt : Rabs T <= 2.
Lemma abs_mul_le a b A B : Rabs a <= A -> Rabs b <= B -> Rabs (a * b) <= A * B.
Proof. intros HA HB. rewrite Rabs_mult. apply Rmult_le_compat; auto using Rabs_pos. Qed.
Lemma pair_ok v w V W : ok 1 v V 7 -> ok 1 w W 7 -> Rabs V <= 1 -> Rabs W <= 1 -> ok 1 (mul64 (mul64 t v) w) (T * V * W) 38 /\ Rabs (T * V * W) <= 2.
Proof.
  intros OV OW BV BW. assert (TV : ok 1 (mul64 t v) (T * V) 21).
  { eapply ok_le; [exact one_lo|eapply (mul_near t v T V _ _ 2 1 Ot OV); lra|lra]. }
  assert (B : Rabs (T * V) <= 2) by (replace 2 with (2 * 1) by ring; apply abs_mul_le; assumption).
  split.
  - eapply ok_le; [exact one_lo|eapply (mul_near _ w _ W _ _ 2 1 TV OW); lra|lra].
  - replace 2 with (2 * 1) by ring. apply abs_mul_le; assumption.
Qed.
Lemma one_ok v V : ok 1 v V 7 -> Rabs V <= 1 -> ok 1 (mul64 s v) (S0 * V) 11 /\ Rabs (S0 * V) <= 1.
Proof.
  intros OV BV. split; [eapply ok_le; [exact one_lo|eapply (mul_near s v S0 V _ _ 1 1 Os OV); lra|lra]|].
  replace 1 with (1 * 1) by ring. apply abs_mul_le; assumption.
Qed.
Lemma abs_3 a b : Rabs a <= 2 -> Rabs b <= 1 -> Rabs (a + b) <= 3 * 1 /\ Rabs (a - b) <= 3 * 1.
Proof. intros A B. apply Rabs_le_inv in A, B. split; apply Rabs_le; lra. Qed.
Lemma plus_ok a b A B : ok 1 a A 38 -> Rabs A <= 2 -> ok 1 b B 11 -> Rabs B <= 1 -> ok 1 (add64 a b) (A + B) 53 /\ ok 1 (sub64 a b) (A - B) 53.
Proof.
  intros OA BA OB BB. destruct (abs_3 A B BA BB) as (P & Q). split.
  - eapply ok_le; [exact one_lo|eapply (addn a b A B _ _ 3 OA OB); lra|lra].
  - eapply ok_le; [exact one_lo|eapply (subn a b A B _ _ 3 OA OB); lra|lra].
Qed.
Lemma items_ok i j : (i < 4)%nat -> (j < 4)%nat -> ok 1 (rot_items x y z c s t i j) (exact_items X Y Z C S0 T i j) 53.
Proof.
  assert (Oc' : ok 1 c C 11) by (apply (ok_le 1 one_lo) with 2; [exact Oc|lra]).
  intros Hi Hj. unfold rot_items, exact_items, at64, at_R.
  destruct i as [|[|[|[|i]]]]; try lia; destruct j as [|[|[|[|j]]]]; try lia; cbn [nth];
  first [ apply ok_exact; [reflexivity|first [apply one64_1|reflexivity]|lra]
        | match goal with |- ok 1 (add64 (mul64 (mul64 t ?v) ?w) c) _ _ =>
            destruct (pair_ok v w _ _ ltac:(eassumption) ltac:(eassumption) ltac:(eassumption) ltac:(eassumption)) as (P1 & P2);
            apply (plus_ok _ _ _ _ P1 P2 Oc' Bc) end
        | match goal with |- ok 1 (_ (mul64 (mul64 t ?v) ?w) (mul64 s ?q)) _ _ =>
            destruct (pair_ok v w _ _ ltac:(eassumption) ltac:(eassumption) ltac:(eassumption) ltac:(eassumption)) as (P1 & P2);
            destruct (one_ok q _ ltac:(eassumption) ltac:(eassumption)) as (P3 & P4);
            apply (plus_ok _ _ _ _ P1 P2 P3 P4) end ].
Qed.
End Items.

(** ** the exact matrix *)
Lemma exact_rows X Y Z a : let n := sqrt (X * X + Y * Y + Z * Z) in n <> 0 ->
  forall i j, (i < 4)%nat -> (j < 4)%nat ->
  exact_items (X / n) (Y / n) (Z / n) (cos a) (sin a) (1 - cos a) i j = rows (rotate (X, Y, Z, a)) i j /\
  exact_items (X / n) (Y / n) (Z / n) (cos a) (- sin a) (1 - cos a) i j = rows (unrotate (X, Y, Z, a)) i j.
Proof.
  intros n N i j Hi Hj. unfold rows, rotate, unrotate, rodrigues, axis, angle, norm3, dot3. fold n. rewrite cos_neg, sin_neg.
  destruct i as [|[|[|[|i]]]]; try lia; destruct j as [|[|[|[|j]]]]; try lia;
  cbn [Nat.ltb Nat.leb andb unit3 comp3 scal3 add3 cross same Nat.eqb exact_items at_R nth]; unfold exact_items, at_R; cbn [nth]; unfold Rdiv; split; ring.
Qed.
Lemma exact_inverse X Y Z C S0 : X * X + Y * Y + Z * Z = 1 -> C * C + S0 * S0 = 1 ->
  forall i j, (i < 4)%nat -> (j < 4)%nat ->
  let E := exact_items X Y Z C S0 (1 - C) in let E1 := exact_items X Y Z C (- S0) (1 - C) in
  E i 0%nat * E1 0%nat j + E i 1%nat * E1 1%nat j + E i 2%nat * E1 2%nat j + E i 3%nat * E1 3%nat j = same i j /\
  E1 i j = E j i.
Proof.
  intros U1 U2 i j Hi Hj. cbv zeta. unfold exact_items, at_R, same. pose proof (rot_array_orth X Y Z C S0 U1 U2) as H. unfold mdot, vdot, rot_array, ident4 in H; cbn in H.
  injection H as H00 H01 H02 H03 H10 H11 H12 H13 H20 H21 H22 H23 H30 H31 H32 H33.
  destruct i as [|[|[|[|i]]]]; try lia; destruct j as [|[|[|[|j]]]]; try lia; cbn [nth Nat.eqb]; (split; [|ring]); lra.
Qed.
Lemma exact_1 X Y Z C S0 : X * X + Y * Y + Z * Z = 1 -> C * C + S0 * S0 = 1 ->
  forall i j, (i < 4)%nat -> (j < 4)%nat -> Rabs (exact_items X Y Z C S0 (1 - C) i j) <= 1 /\ Rabs (exact_items X Y Z C (- S0) (1 - C) i j) <= 1.
Proof.
  intros U1 U2. set (E := exact_items X Y Z C S0 (1 - C)). set (E1 := exact_items X Y Z C (- S0) (1 - C)).
  assert (B : forall i j, (i < 4)%nat -> (j < 4)%nat -> Rabs (E i j) <= 1).
  { intros i j Hi Hj. destruct (exact_inverse X Y Z C S0 U1 U2 i i Hi Hi) as (H & _). fold E E1 in H.
    pose proof (fun k Hk => proj2 (exact_inverse X Y Z C S0 U1 U2 k i Hk Hi)) as T. cbv beta in T. fold E E1 in T.
    rewrite !T in H by lia. unfold same in H. rewrite Nat.eqb_refl in H.
    assert (Q : forall v : R, v * v <= 1 -> Rabs v <= 1) by (intros v V; apply Rabs_le; split; nra). apply Q.
    pose proof (Rle_0_sqr (E i 0%nat)) as P0. pose proof (Rle_0_sqr (E i 1%nat)) as P1. pose proof (Rle_0_sqr (E i 2%nat)) as P2. pose proof (Rle_0_sqr (E i 3%nat)) as P3. unfold Rsqr in *.
    destruct j as [|[|[|[|j]]]]; try lia; lra. }
  intros i j Hi Hj. split; [apply B; assumption|]. unfold E1. rewrite (proj2 (exact_inverse X Y Z C S0 U1 U2 i j Hi Hj)). apply B; assumption.
Qed.

(** ** sums of products in any order *)
Section Sums.
Variables a b : nat -> b64.
Variables A B : nat -> R.
Hypothesis OA : forall k, (k < 4)%nat -> ok 1 (a k) (A k) 53 /\ Rabs (A k) <= 1.
Hypothesis OB : forall k, (k < 4)%nat -> ok 1 (b k) (B k) 53 /\ Rabs (B k) <= 1.
Definition sum (l : list nat) : R := fold_right (fun k r => A k * B k + r) 0 l.
Lemma sum_app l1 l2 : sum (l1 ++ l2) = sum l1 + sum l2.
Proof. unfold sum. induction l1 as [|k l1 IH]; cbn [fold_right app]; [ring|]. rewrite IH. ring. Qed.
Lemma sum_perm l1 l2 : Permutation l1 l2 -> sum l1 = sum l2.
Proof. unfold sum. induction 1; cbn [fold_right]; lra. Qed.
Lemma prod_1 k : (k < 4)%nat -> Rabs (A k * B k) <= 1.
Proof. intros K. destruct (OA k K) as (_ & P). destruct (OB k K) as (_ & Q). replace 1 with (1 * 1) by ring. apply abs_mul_le; assumption. Qed.
Lemma sum_le l : (forall k, In k l -> (k < 4)%nat) -> Rabs (sum l) <= INR (length l).
Proof.
  induction l as [|k l IH]; intros L; cbn [sum fold_right length]; [rewrite Rabs_R0; cbn; lra|]. rewrite S_INR. eapply Rle_trans; [apply Rabs_triang|].
  pose proof (prod_1 k (L k (or_introl eq_refl))). specialize (IH (fun j H => L j (or_intror H))). unfold sum in IH. lra.
Qed.
Definition budget (n : nat) : R := 116 * INR n - 41 / 10.
Lemma rnd64_B2R (v : b64) : rnd64 (B2R v) = B2R v.
Proof. apply round_generic; [apply valid_rnd_N|]. apply generic_format_B2R. Qed.
Lemma B2R_le (v : b64) r k : ok 1 v r k -> 0 <= k <= 2000 -> Rabs r <= 4 -> Rabs (B2R v) <= 5.
Proof.
  intros (_ & H) K R4. pose proof u_pos. pose proof u_small. replace (B2R v) with (r + (B2R v - r)) by ring. eapply Rle_trans; [apply Rabs_triang|].
  assert (k * u <= 1) by nra. lra.
Qed.
Lemma five_big : 5 <= bpow radix2 1010. Proof. apply Rle_trans with (5 * 1); [lra|]. apply (M_big 1 one_lo one_hi 5). lra. Qed.
Lemma len_4 (n : nat) : (1 <= n <= 4)%nat -> 1 <= INR n <= 4.
Proof. intros (L & H). apply le_INR in L, H. cbn in L, H. lra. Qed.
Lemma partial_ok l v : partial64 a b l v -> (forall k, In k l -> (k < 4)%nat) -> (length l <= 4)%nat ->
  (l = [] -> is_finite v = true /\ B2R v = 0) /\ (l <> [] -> ok 1 v (sum l) (budget (length l))).
Proof.
  induction 1 as [|k|l1 l2 w v H1 IH1 H2 IH2|k l w H IH]; intros L N.
  - split; [intros _; split; reflexivity|congruence].
  - split; [discriminate|intros _]. assert (K : (k < 4)%nat) by (apply L; left; reflexivity). destruct (OA k K) as (Oa & Ba). destruct (OB k K) as (Ob & Bb).
    unfold budget. cbn [length INR sum fold_right]. rewrite Rplus_0_r. eapply ok_le; [exact one_lo|eapply (mul_near _ _ _ _ _ _ 1 1 Oa Ob); lra|lra].
  - rewrite app_length in N. destruct (IH1 ltac:(intros; apply L, in_or_app; auto) ltac:(lia)) as (E1 & O1). destruct (IH2 ltac:(intros; apply L, in_or_app; auto) ltac:(lia)) as (E2 & O2).
    rewrite sum_app, app_length.
    destruct l1 as [|k1 l1].
    + destruct (E1 eq_refl) as (F1 & R1). cbn [app sum fold_right length Nat.add]. rewrite Rplus_0_l. split.
      * intros ->. destruct (E2 eq_refl) as (F2 & R2). destruct (add64_r w v F1 F2) as (F & E); [rewrite R1, R2, Rplus_0_l, Rabs_R0; apply bpow_ge_0|]. split; [exact F|].
        rewrite E, R1, R2, Rplus_0_l. apply round_0. apply valid_rnd_N.
      * intros NE. specialize (O2 NE). pose proof O2 as (F2 & D2). assert (1 <= length l2)%nat by (destruct l2; [congruence|cbn; lia]). cbn [length] in N.
        pose proof (len_4 (length l2) ltac:(lia)) as P. pose proof (sum_le l2 ltac:(intros; apply L, in_or_app; auto)) as S2.
        assert (B5 : Rabs (B2R v) <= 5) by (eapply B2R_le; [exact O2|unfold budget; lra|lra]).
        destruct (add64_r w v F1 F2) as (F & E); [rewrite R1, Rplus_0_l; eapply Rle_trans; [exact B5|exact five_big]|]. split; [exact F|]. rewrite E, R1, Rplus_0_l, rnd64_B2R. exact D2.
    + split; [discriminate|intros _]. specialize (O1 ltac:(discriminate)). cbn [length] in *. set (n1 := S (length l1)) in *.
      assert (P1 := len_4 n1 ltac:(unfold n1; lia)). pose proof (sum_le (k1 :: l1) ltac:(intros; apply L, in_or_app; auto)) as S1. cbn [length] in S1. fold n1 in S1.
      destruct l2 as [|k2 l2].
      * destruct (E2 eq_refl) as (F2 & R2). pose proof O1 as (F1 & D1). cbn [length]. rewrite Nat.add_0_r. change (sum []) with 0. rewrite Rplus_0_r.
        assert (B5 : Rabs (B2R w) <= 5) by (eapply B2R_le; [exact O1|unfold budget; lra|lra]).
        destruct (add64_r w v F1 F2) as (F & E); [rewrite R2, Rplus_0_r; eapply Rle_trans; [exact B5|exact five_big]|]. split; [exact F|]. rewrite E, R2, Rplus_0_r, rnd64_B2R. exact D1.
      * specialize (O2 ltac:(discriminate)). pose proof (sum_le (k2 :: l2) ltac:(intros; apply L, in_or_app; auto)) as S2. cbn [length] in *. set (n2 := S (length l2)) in *.
        assert (P2 := len_4 n2 ltac:(unfold n1, n2 in *; lia)). assert (P3 := len_4 (n1 + n2) ltac:(unfold n1, n2 in *; lia)). rewrite plus_INR in P3.
        assert (S3 : Rabs (sum (k1 :: l1) + sum (k2 :: l2)) <= 4 * 1) by (eapply Rle_trans; [apply Rabs_triang|]; lra).
        eapply ok_le; [exact one_lo|eapply (addn _ _ _ _ _ _ 4 O1 O2 S3); unfold budget; lra|]. unfold budget. rewrite plus_INR. lra.
  - split; [discriminate|intros _]. cbn [length] in N. assert (K : (k < 4)%nat) by (apply L; left; reflexivity). destruct (OA k K) as ((Fa & Da) & Ba). destruct (OB k K) as ((Fb & Db) & Bb).
    destruct (IH ltac:(intros; apply L; right; assumption) ltac:(lia)) as (E0 & O0).
    assert (D : Rabs (B2R (a k) * B2R (b k) - A k * B k) <= (1 * 53 + 1 * 53 + / 16) * u * 1) by (apply near_diff; try assumption; lra).
    pose proof (prod_1 k K) as P1. pose proof u_pos as U. pose proof u_small as U1. cbn [sum fold_right]. fold (sum l).
    assert (W : exists kw, is_finite w = true /\ Rabs (B2R w - sum l) <= kw * u * 1 /\ Rabs (sum l) <= 3 /\ 0 <= kw <= 400 /\ kw + 1111 / 10 <= budget (S (length l))).
    { pose proof (sum_le l ltac:(intros; apply L; right; assumption)) as S1. assert (N3 : INR (length l) <= 3) by (replace 3 with (INR 3) by (cbn; lra); apply le_INR; lia).
      destruct l as [|k' l].
      - destruct (E0 eq_refl) as (F & ->). exists 0. split; [exact F|]. unfold budget. cbn. rewrite Rminus_0_r, Rabs_R0. repeat split; lra.
      - specialize (O0 ltac:(discriminate)). destruct O0 as (F & D0). exists (budget (length (k' :: l))). split; [exact F|]. split; [exact D0|].
        assert (1 <= INR (length (k' :: l))) by (apply (le_INR 1); cbn [length]; lia). unfold budget. rewrite S_INR. repeat split; lra. }
    destruct W as (kw & Fw & Dw & Sw & Kw & Bw).
    set (v := B2R (a k) * B2R (b k) + B2R w).
    assert (V : Rabs (v - (A k * B k + sum l)) <= (107 + kw) * u * 1).
    { unfold v. replace (B2R (a k) * B2R (b k) + B2R w - (A k * B k + sum l)) with ((B2R (a k) * B2R (b k) - A k * B k) + (B2R w - sum l)) by ring. eapply Rle_trans; [apply Rabs_triang|]. lra. }
    assert (S4 : Rabs (A k * B k + sum l) <= 4 * 1) by (eapply Rle_trans; [apply Rabs_triang|]; lra).
    destruct (fma64_r (a k) (b k) w Fa Fb Fw) as (F & E).
    { fold v. replace v with ((A k * B k + sum l) + (v - (A k * B k + sum l))) by ring. eapply Rle_trans; [apply Rabs_triang|]. apply Rle_trans with (5 * 1); [|apply (M_big 1 one_lo one_hi 5); lra].
      assert ((107 + kw) * u <= 1) by nra. lra. }
    fold v in E. apply (ok_le 1 one_lo) with (107 + kw + 4 + / 16); [|cbn [length]; lra]. apply (rounded 1 one_lo _ _ _ _ _ F E V S4); lra.
Qed.
End Sums.

(** ** the whole function *)
Lemma unit_sum a b c n : n <> 0 -> n * n = a * a + b * b + c * c -> a / n * (a / n) + b / n * (b / n) + c / n * (c / n) = 1.
Proof. intros N E. transitivity ((a * a + b * b + c * c) / (n * n)); [field; exact N|]. rewrite <- E. field. exact N. Qed.
Section Whole.
Variables turns pow_half cos_ sin_ : b64 -> b64.
Hypothesis Hpow : accurate_root pow_half.
Hypothesis Hcos : accurate cos_ cos.
Hypothesis Hsin : accurate sin_ sin.
Lemma bpow_52 : bpow radix2 (-52) = 2 * u * 1.
Proof. unfold u. rewrite Rmult_1_r. change 2 with (bpow radix2 1). rewrite <- bpow_plus. reflexivity. Qed.
Lemma whole x y z a R0 R1 : rotMatrix64 turns pow_half cos_ sin_ x y z a = Some (R0, R1) -> ordinary x y z a ->
  let n := sqrt (B2R x * B2R x + B2R y * B2R y + B2R z * B2R z) in
  let X := B2R x / n in let Y := B2R y / n in let Z := B2R z / n in let C := cos (B2R a) in let S0 := sin (B2R a) in
  n <> 0 /\ X * X + Y * Y + Z * Z = 1 /\ C * C + S0 * S0 = 1 /\
  forall i j, (i < 4)%nat -> (j < 4)%nat ->
    ok 1 (R0 i j) (exact_items X Y Z C S0 (1 - C) i j) 53 /\ ok 1 (R1 i j) (exact_items X Y Z C (- S0) (1 - C) i j) 53.
Proof.
  intros E ((Fx & Fy & Fz & Fa) & (Llo & Lhi)) n X Y Z C S0. unfold norm3, dot3 in Llo, Lhi. fold n in Llo, Lhi.
  assert (NP : 0 < n) by (eapply Rlt_le_trans; [apply bpow_gt_0|exact Llo]).
  assert (NN : n * n = B2R x * B2R x + B2R y * B2R y + B2R z * B2R z) by (apply (ln_sq x y z)).
  assert (N0 : n <> 0) by (apply Rgt_not_eq; exact NP). split; [exact N0|].
  split; [apply unit_sum; [exact N0|exact NN]|].
  assert (CS : C * C + S0 * S0 = 1) by (pose proof (sin2_cos2 (B2R a)) as T; unfold Rsqr in T; unfold C, S0; lra). split; [exact CS|].
  intros i j Hi Hj. unfold rotMatrix64 in E. destruct (nonzero64 (turns a)); [|discriminate].
  set (q := add64 _ (mul64 z z)) in E. change q with (squared x y z) in E.
  pose proof (squared_ok x y z Fx Fy Fz Llo Lhi) as (Fq & _).
  destruct (sq_ge x y z) as (PX & PY & PZ).
  assert (HU : exists x' y' z', (if eq64 (squared x y z) one64 then (x, y, z) else (div64 x (pow_half (squared x y z)), div64 y (pow_half (squared x y z)), div64 z (pow_half (squared x y z)))) = (x', y', z') /\
    unit_ok x y z x' x /\ unit_ok x y z y' y /\ unit_ok x y z z' z).
  { destruct (eq64 (squared x y z) one64) eqn:EQ.
    - unfold eq64 in EQ. rewrite Beqb_correct in EQ; [|exact Fq|reflexivity]. rewrite one64_1 in EQ. assert (EQ' : B2R (squared x y z) = 1) by (revert EQ; case Req_bool_spec; [auto|discriminate]).
      exists x, y, z. split; [reflexivity|]. repeat split; try assumption; apply (undivided x y z); try assumption; unfold sq; lra.
    - do 3 eexists. split; [reflexivity|]. split; [|split]; apply (divided x y z); try assumption; unfold sq; lra. }
  destruct HU as (x' & y' & z' & EU & Ox & Oy & Oz). rewrite EU in E. injection E as <- <-.
  unfold unit_ok in Ox, Oy, Oz. change (ln x y z) with n in Ox, Oy, Oz. fold X in Ox. fold Y in Oy. fold Z in Oz.
  destruct (Hcos a Fa) as (Fc & Dc). destruct (Hsin a Fa) as (Fs & Ds).
  assert (Fa' : is_finite (Bopp a) = true) by (rewrite is_finite_Bopp; exact Fa).
  destruct (Hcos (Bopp a) Fa') as (Fc' & Dc'). destruct (Hsin (Bopp a) Fa') as (Fs' & Ds'). rewrite B2R_Bopp in Dc', Ds'. rewrite cos_neg in Dc'. rewrite sin_neg in Ds'.
  rewrite bpow_52 in Dc, Ds, Dc', Ds'. fold C in Dc, Dc'. fold S0 in Ds, Ds'.
  assert (Q : forall v : R, v * v <= 1 -> Rabs v <= 1) by (intros v V; apply Rabs_le; split; nra).
  assert (BC : Rabs C <= 1) by (apply Q; nra). assert (BS : Rabs S0 <= 1) by (apply Q; nra).
  assert (BX : Rabs X <= 1) by (apply (part_1 x y z Llo); unfold sq; lra).
  assert (BY : Rabs Y <= 1) by (apply (part_1 x y z Llo); unfold sq; lra).
  assert (BZ : Rabs Z <= 1) by (apply (part_1 x y z Llo); unfold sq; lra).
  assert (BT : Rabs (1 - C) <= 2) by (apply Rabs_le_inv in BC; apply Rabs_le; lra).
  assert (Oc : ok 1 (cos_ a) C 2) by (split; assumption).
  assert (Ot : ok 1 (sub64 one64 (cos_ a)) (1 - C) (33 / 8)).
  { eapply ok_le; [exact one_lo|eapply (subn _ _ 1 C 0 2 2 (ok_exact one64 1 eq_refl one64_1 0 ltac:(lra)) Oc); lra|lra]. }
  split; apply items_ok; try assumption; try (split; assumption). rewrite Rabs_Ropp. exact BS.
Qed.
Lemma whole_items x y z a R0 R1 : rotMatrix64 turns pow_half cos_ sin_ x y z a = Some (R0, R1) -> ordinary x y z a ->
  forall i j, (i < 4)%nat -> (j < 4)%nat ->
  (is_finite (R0 i j) = true /\ Rabs (B2R (R0 i j) - rows (rotate (rotation_of x y z a)) i j) <= bpow radix2 (-47)) /\
  (is_finite (R1 i j) = true /\ Rabs (B2R (R1 i j) - rows (unrotate (rotation_of x y z a)) i j) <= bpow radix2 (-47)).
Proof.
  intros E O i j Hi Hj. pose proof (whole x y z a R0 R1 E O) as W. cbv zeta in W. destruct W as (N & _ & _ & W). specialize (W i j Hi Hj).
  destruct (exact_rows (B2R x) (B2R y) (B2R z) (B2R a) N i j Hi Hj) as (E1 & E2). rewrite E1, E2 in W. fold (rotation_of x y z a) in W.
  assert (B : 53 * u * 1 <= bpow radix2 (-47)).
  { apply Rle_trans with (bpow radix2 6 * u); [change (bpow radix2 6) with 64; pose proof u_pos; lra|]. unfold u. rewrite <- bpow_plus. apply bpow_le. lia. }
  destruct W as ((F & D) & (F1 & D1)). repeat split; try assumption; lra.
Qed.
Lemma whole_product x y z a R0 R1 : rotMatrix64 turns pow_half cos_ sin_ x y z a = Some (R0, R1) -> ordinary x y z a ->
  forall i j v, (i < 4)%nat -> (j < 4)%nat -> product64 R0 R1 i j v \/ product64 R1 R0 i j v ->
  is_finite v = true /\ Rabs (B2R v - same i j) <= bpow radix2 (-44).
Proof.
  intros E O i j v Hi Hj H. pose proof (whole x y z a R0 R1 E O) as W. cbv zeta in W. destruct W as (N & U1 & U2 & W).
  set (X := B2R x / _) in *. set (Y := B2R y / _) in *. set (Z := B2R z / _) in *. set (C := cos (B2R a)) in *. set (S0 := sin (B2R a)) in *.
  assert (B : budget 4 * u * 1 <= bpow radix2 (-44)).
  { apply Rle_trans with (bpow radix2 9 * u); [change (bpow radix2 9) with 512; unfold budget; cbn [INR]; pose proof u_pos; lra|]. unfold u. rewrite <- bpow_plus. apply bpow_le. lia. }
  assert (G : forall A B a b, (forall k, (k < 4)%nat -> ok 1 (a k) (A k) 53 /\ Rabs (A k) <= 1) -> (forall k, (k < 4)%nat -> ok 1 (b k) (B k) 53 /\ Rabs (B k) <= 1) ->
    forall l, Permutation l [0; 1; 2; 3]%nat -> partial64 a b l v -> A 0%nat * B 0%nat + A 1%nat * B 1%nat + A 2%nat * B 2%nat + A 3%nat * B 3%nat = same i j ->
    is_finite v = true /\ Rabs (B2R v - same i j) <= bpow radix2 (-44)).
  { intros A B' a0 b0 OA OB l P PV SE. pose proof (Permutation_length P) as LL. cbn [length] in LL.
    destruct (partial_ok a0 b0 A B' OA OB l v PV) as (_ & OK).
    - intros k K. apply (Permutation_in _ P) in K. cbn in K. lia.
    - lia.
    - specialize (OK ltac:(intros ->; discriminate)). rewrite LL, (sum_perm A B' _ _ P) in OK. unfold sum in OK. cbn [fold_right] in OK.
      destruct OK as (F & D). split; [exact F|]. rewrite <- SE. replace (A 0%nat * B' 0%nat + A 1%nat * B' 1%nat + A 2%nat * B' 2%nat + A 3%nat * B' 3%nat) with (A 0%nat * B' 0%nat + (A 1%nat * B' 1%nat + (A 2%nat * B' 2%nat + (A 3%nat * B' 3%nat + 0)))) by ring. lra. }
  pose proof (exact_1 X Y Z C S0 U1 U2) as B1.
  destruct H as [(l & P & H)|(l & P & H)].
  - eapply (G (exact_items X Y Z C S0 (1 - C) i) (fun k => exact_items X Y Z C (- S0) (1 - C) k j)); [| |exact P|exact H|].
    + intros k K. split; [apply W; assumption|apply B1; assumption].
    + intros k K. split; [apply W; assumption|apply B1; assumption].
    + apply (exact_inverse X Y Z C S0 U1 U2 i j Hi Hj).
  - eapply (G (exact_items X Y Z C (- S0) (1 - C) i) (fun k => exact_items X Y Z C S0 (1 - C) k j)); [| |exact P|exact H|].
    + intros k K. split; [apply W; assumption|apply B1; assumption].
    + intros k K. split; [apply W; assumption|apply B1; assumption].
    + assert (U2' : C * C + - S0 * - S0 = 1) by lra. pose proof (proj1 (exact_inverse X Y Z C (- S0) U1 U2' i j Hi Hj)) as T. cbv zeta in T. rewrite Ropp_involutive in T. exact T.
Qed.
End Whole.
