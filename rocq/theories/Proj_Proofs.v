From Coq Require Import Reals ZArith List Bool Permutation Lia Lra Psatz.
From Flocq Require Import Core.Core IEEE754.BinarySingleNaN.
Require Import Flocq.Prop.Relative Flocq.Prop.Mult_error.
From Verif Require Import Rounded_Model Rounded_Proofs Turn_Model Turn_Proofs Proj_Model Proj_Spec.
From Verif Require Turn32_Proofs.
Import ListNotations.
Local Open Scope list_scope.
Local Open Scope R_scope.

(** ** relative errors in binary64 *)
Definition near (v : b64) (r k : R) : Prop :=
  is_finite v = true /\ exists e, Rabs e <= k * u /\ B2R v = r * (1 + e).

Lemma rnd64_rel x : x = 0 \/ bpow radix2 (-1000) <= Rabs x -> exists e, Rabs e <= 101 / 100 * u /\ rnd64 x = x * (1 + e).
Proof.
  intros [->|H].
  - exists 0. rewrite Rabs_R0. split; [pose proof u_pos; lra|]. unfold rnd64. rewrite round_0 by apply valid_rnd_N. ring.
  - assert (P : 0 < Rabs x) by (eapply Rlt_le_trans; [apply bpow_gt_0|exact H]).
    assert (N : x <> 0) by (intros ->; rewrite Rabs_R0 in P; lra).
    exists ((rnd64 x - x) / x). split; [|field; exact N].
    unfold Rdiv. rewrite Rabs_mult, Rabs_inv. apply Rmult_le_reg_r with (Rabs x); [exact P|].
    rewrite Rmult_assoc, Rinv_l, Rmult_1_r by lra. eapply Rle_trans; [apply err64|].
    assert (E : eta * 100 <= u * bpow radix2 (-1000)).
    { unfold eta, u. rewrite <- bpow_plus. apply Rle_trans with (bpow radix2 (-1075) * bpow radix2 7); [|rewrite <- bpow_plus; apply bpow_le; lia].
      change (bpow radix2 7) with 128. pose proof (bpow_gt_0 radix2 (-1075)). lra. }
    pose proof u_pos. nra.
Qed.
Lemma inv1 e k : Rabs e <= k * u -> 0 <= k <= 20 -> exists e', / (1 + e) = 1 + e' /\ Rabs e' <= (k + / 100) * u.
Proof.
  intros H K. pose proof u_pos as U. pose proof u_small as U1. assert (D : k * u <= / 10000000) by nra.
  apply Rabs_le_inv in H. exists (- e / (1 + e)). split; [field; lra|].
  assert (Q : 0 < / (1 + e) <= 1 + / 5000000).
  { split; [apply Rinv_0_lt_compat; lra|]. apply Rmult_le_reg_r with (1 + e); [lra|]. rewrite Rinv_l by lra. nra. }
  apply Rabs_le. unfold Rdiv. set (q := / (1 + e)) in *. clearbody q. nra.
Qed.
Lemma three a b c ka kb : Rabs a <= ka * u -> Rabs b <= kb * u -> Rabs c <= 101 / 100 * u -> 0 <= ka <= 20 -> 0 <= kb <= 20 ->
  Rabs ((1 + a) * (1 + b) * (1 + c) - 1) <= (ka + kb + 11 / 10) * u.
Proof.
  intros A B C KA KB. pose proof u_pos as U. pose proof u_small as U1.
  assert (AB : Rabs (a * b) <= / 1000 * u).
  { rewrite Rabs_mult. apply Rle_trans with (ka * u * (kb * u)); [apply Rmult_le_compat; auto using Rabs_pos|].
    replace (ka * u * (kb * u)) with (ka * kb * u * u) by ring. assert (ka * kb <= 400) by nra. assert (ka * kb * u <= 400 * u) by nra. nra. }
  replace ((1 + a) * (1 + b) * (1 + c) - 1) with (a + b + c + a * b + (a + b + a * b) * c) by ring.
  assert (S : Rabs (a + b + a * b) <= / 10000).
  { eapply Rle_trans; [apply Rabs_triang|]. pose proof (Rabs_triang a b). assert (ka * u <= / 50000000) by nra. assert (kb * u <= / 50000000) by nra. nra. }
  assert (SC : Rabs ((a + b + a * b) * c) <= / 1000 * u).
  { rewrite Rabs_mult. apply Rle_trans with (/ 10000 * (101 / 100 * u)); [apply Rmult_le_compat; auto using Rabs_pos|]. lra. }
  apply Rabs_le_inv in A, B, C, AB, SC. apply Rabs_le. split; nra.
Qed.
Definition fits (r : R) : Prop := r = 0 \/ bpow radix2 (-900) <= Rabs r <= bpow radix2 900.

Lemma near_small e k : Rabs e <= k * u -> 0 <= k <= 20 -> - / 1000 <= e <= / 1000.
Proof. intros H K. pose proof u_pos. pose proof u_small. apply Rabs_le_inv in H. assert (k * u <= / 1000) by nra. lra. Qed.

Lemma fits_ok r d : fits r -> / 2 <= d <= 2 -> (r * d = 0 \/ bpow radix2 (-1000) <= Rabs (r * d)) /\ Rabs (r * d) <= bpow radix2 1010.
Proof.
  intros [->|[L H]] D.
  - split; [left; ring|]. rewrite Rmult_0_l, Rabs_R0. apply bpow_ge_0.
  - rewrite Rabs_mult, (Rabs_pos_eq d) by lra.
    assert (bpow radix2 (-1000) * 2 <= bpow radix2 (-900)).
    { change 2 with (bpow radix2 1). rewrite <- bpow_plus. apply bpow_le. lia. }
    assert (bpow radix2 900 * 2 <= bpow radix2 1010).
    { change 2 with (bpow radix2 1). rewrite <- bpow_plus. apply bpow_le. lia. }
    pose proof (Rabs_pos r). split; [right|]; nra.
Qed.

Lemma mul_rel a b ra rb ka kb : near a ra ka -> near b rb kb -> 0 <= ka <= 20 -> 0 <= kb <= 20 -> fits (ra * rb) ->
  near (mul64 a b) (ra * rb) (ka + kb + 11 / 10).
Proof.
  intros (Fa & ea & Ea & A) (Fb & eb & Eb & B) KA KB F.
  pose proof (near_small _ _ Ea KA) as SA. pose proof (near_small _ _ Eb KB) as SB.
  assert (E : B2R a * B2R b = ra * rb * ((1 + ea) * (1 + eb))) by (rewrite A, B; ring).
  destruct (fits_ok _ ((1 + ea) * (1 + eb)) F) as [L H]; [split; nra|].
  destruct (mul64_r a b Fa Fb) as (Fm & M); [rewrite E; exact H|]. split; [exact Fm|].
  destruct (rnd64_rel _ L) as (e & E1 & E2).
  exists ((1 + ea) * (1 + eb) * (1 + e) - 1). split; [now apply three|]. rewrite M, E, E2. ring.
Qed.
Lemma div_rel a b ra rb ka kb : near a ra ka -> near b rb kb -> 0 <= ka <= 19 -> 0 <= kb <= 19 -> rb <> 0 -> fits (ra / rb) ->
  near (div64 a b) (ra / rb) (ka + kb + 12 / 10).
Proof.
  intros (Fa & ea & Ea & A) (Fb & eb & Eb & B) KA KB N F.
  pose proof (near_small _ _ Ea ltac:(lra)) as SA. pose proof (near_small _ _ Eb ltac:(lra)) as SB.
  destruct (inv1 eb kb Eb ltac:(lra)) as (eb' & I1 & I2). pose proof (near_small _ _ I2 ltac:(lra)) as SB'.
  assert (E : B2R a / B2R b = ra / rb * ((1 + ea) * (1 + eb'))) by (rewrite A, B, <- I1; field; split; lra).
  destruct (fits_ok _ ((1 + ea) * (1 + eb')) F) as [L H]; [split; nra|].
  destruct (div64_r a b Fa) as (Fm & M); [rewrite B; apply Rmult_integral_contrapositive_currified; lra|rewrite E; exact H|]. split; [exact Fm|].
  destruct (rnd64_rel _ L) as (e & E1 & E2).
  exists ((1 + ea) * (1 + eb') * (1 + e) - 1). split; [|rewrite M, E, E2; ring].
  eapply Rle_trans; [apply (three ea eb' e ka (kb + / 100)); auto; lra|]. pose proof u_pos. nra.
Qed.
Lemma near_le v r k k' : near v r k -> k <= k' -> near v r k'.
Proof. intros (F & e & E & V) K. split; [exact F|]. exists e. split; [|exact V]. pose proof u_pos. nra. Qed.
Lemma near_exact v r : is_finite v = true -> B2R v = r -> near v r 0.
Proof. intros F E. split; [exact F|]. exists 0. rewrite Rabs_R0. split; [lra|]. rewrite E. ring. Qed.
Lemma round_rel (w : b64) x : is_finite w = true -> B2R w = rnd64 x -> fits x -> near w x (11 / 10).
Proof.
  intros F E H. split; [exact F|]. destruct (fits_ok x 1 H ltac:(lra)) as [L _]. rewrite Rmult_1_r in L.
  destruct (rnd64_rel _ L) as (e & E1 & E2). exists e. split; [pose proof u_pos; lra|]. now rewrite E.
Qed.
Lemma fits_hi x : fits x -> Rabs x <= bpow radix2 1010.
Proof. intros H. destruct (fits_ok x 1 H ltac:(lra)) as [_ L]. now rewrite Rmult_1_r in L. Qed.
Lemma add_rel a b : is_finite a = true -> is_finite b = true -> fits (B2R a + B2R b) -> near (add64 a b) (B2R a + B2R b) (11 / 10).
Proof. intros A B F. destruct (add64_r a b A B (fits_hi _ F)) as (F1 & E). now apply round_rel. Qed.
Lemma sub_rel a b : is_finite a = true -> is_finite b = true -> fits (B2R a - B2R b) -> near (sub64 a b) (B2R a - B2R b) (11 / 10).
Proof. intros A B F. destruct (sub64_r a b A B (fits_hi _ F)) as (F1 & E). now apply round_rel. Qed.
Lemma near_opp v r k : near v r k -> near (Bopp v) (- r) k.
Proof. intros (F & e & E & V). split; [rewrite is_finite_Bopp; exact F|]. exists e. split; [exact E|]. rewrite B2R_Bopp, V. ring. Qed.
Lemma near_nonzero v r k : near v r k -> 0 <= k <= 20 -> r <> 0 -> nonzero64 v = true.
Proof.
  intros (F & e & E & V) K N. pose proof (near_small _ _ E K). destruct v; try reflexivity. exfalso. cbn in V.
  symmetry in V. apply Rmult_integral in V as [V|V]; lra.
Qed.

(** ** items: binary32 *)
Definition w : R := bpow radix2 (-24).
Definition item (v : b32) (r : R) : Prop := is_finite v = true /\ Rabs (B2R v - r) <= 101 / 100 * w * Rabs r.
Lemma w_pos : 0 < w. Proof. apply bpow_gt_0. Qed.
Lemma w_small : w <= / 16000000. Proof. exact Turn32_Proofs.u_small. Qed.
Definition fits32 (r : R) : Prop := r = 0 \/ bpow radix2 (-100) <= Rabs r <= bpow radix2 100.

Lemma to32_item v r k : near v r k -> 0 <= k <= 20 -> fits32 r -> item (to32 v) r.
Proof.
  intros (F & e & E & V) K [->|[L H]].
  - rewrite Rmult_0_l in V. destruct (to32_correct v F) as (F1 & E1).
    + rewrite V. unfold rnd32. rewrite round_0 by apply valid_rnd_N. apply small_0.
    + split; [exact F1|]. rewrite E1, V. unfold rnd32. rewrite round_0 by apply valid_rnd_N. rewrite Rminus_0_r, Rabs_R0. lra.
  - pose proof (near_small _ _ E K) as S. assert (A : Rabs (B2R v) = Rabs r * (1 + e)) by (rewrite V, Rabs_mult, (Rabs_pos_eq (1 + e)) by lra; reflexivity).
    pose proof (Turn32_Proofs.err32 (B2R v)) as R1. change Turn32_Proofs.u with w in R1.
    assert (H1 : bpow radix2 100 * 2 <= bpow radix2 110) by (change 2 with (bpow radix2 1); rewrite <- bpow_plus; apply bpow_le; lia).
    destruct (to32_correct v F) as (F1 & E1).
    + unfold small32. apply Turn32_Proofs.rnd32_lt. rewrite A. pose proof (Rabs_pos r). nra.
    + split; [exact F1|]. rewrite E1.
      assert (T : Turn32_Proofs.eta * 1000 <= w * bpow radix2 (-100)).
      { unfold Turn32_Proofs.eta, w. rewrite <- bpow_plus. apply Rle_trans with (bpow radix2 (-150) * bpow radix2 10); [|rewrite <- bpow_plus; apply bpow_le; lia].
        change (bpow radix2 10) with 1024. pose proof (bpow_gt_0 radix2 (-150)). lra. }
      replace (rnd32 (B2R v) - r) with ((rnd32 (B2R v) - B2R v) + r * e) by (rewrite V; ring).
      eapply Rle_trans; [apply Rabs_triang|]. rewrite Rabs_mult.
      assert (Ee : Rabs e <= w / 1000).
      { eapply Rle_trans; [exact E|]. assert (U : u * 100000 <= w).
        { unfold u, w. apply Rle_trans with (bpow radix2 (-53) * bpow radix2 17); [|rewrite <- bpow_plus; apply bpow_le; lia].
          change (bpow radix2 17) with 131072. pose proof (bpow_gt_0 radix2 (-53)). lra. }
        pose proof u_pos. nra. }
      rewrite A in R1. pose proof w_pos. pose proof (Rabs_pos r).
      assert (Rabs r * Rabs e <= Rabs r * (w / 1000)) by (apply Rmult_le_compat_l; lra).
      assert (w * (Rabs r * (1 + e)) <= w * (Rabs r * (1 + / 1000))) by (apply Rmult_le_compat_l; nra).
      assert (w * bpow radix2 (-100) <= w * Rabs r) by (apply Rmult_le_compat_l; lra). assert (0 <= w * Rabs r) by (apply Rmult_le_pos; lra). lra.
Qed.
Lemma item_exact v r : is_finite v = true -> B2R v = r -> item v r.
Proof. intros F E. split; [exact F|]. rewrite E, Rminus_eq_0, Rabs_R0. pose proof w_pos. pose proof (Rabs_pos r). nra. Qed.
Lemma item_0 : item zero32 0. Proof. now apply item_exact. Qed.
Lemma item_1 : item one32 1. Proof. apply item_exact; [reflexivity|apply one32_1]. Qed.
Lemma item_m1 : item minus_one32 (-1). Proof. apply item_exact; [reflexivity|]. unfold minus_one32. rewrite B2R_Bopp, one32_1. ring. Qed.

(** ** sums of four products, in any order *)
Section Dot.
Variables a b : nat -> b32.
Variables ra rb : nat -> R.
Hypothesis IA : forall k, item (a k) (ra k).
Hypothesis IB : forall k, item (b k) (rb k).
Fixpoint sum (f : nat -> R) (l : list nat) : R := match l with [] => 0 | k :: l => f k + sum f l end.
Notation p k := (ra k * rb k).
Notation q k := (Rabs (ra k * rb k)).
Definition total : R := sum (fun k => q k) [0; 1; 2; 3]%nat.
Variable S : R.
Hypothesis ST : total <= S.
Hypothesis S0 : S = 0 \/ bpow radix2 (-100) <= S <= bpow radix2 100.

Lemma sum_app f l1 l2 : sum f (l1 ++ l2) = sum f l1 + sum f l2.
Proof. induction l1 as [|x l1 IH]; cbn [app sum]; [rewrite Rplus_0_l; reflexivity|]. rewrite IH, Rplus_assoc. reflexivity. Qed.
Lemma sum_perm f l l' : Permutation l l' -> sum f l = sum f l'.
Proof. induction 1; cbn [sum]; try reflexivity; try congruence; try lra. Qed.
Lemma sum_abs l : Rabs (sum (fun k => p k) l) <= sum (fun k => q k) l.
Proof. induction l; cbn; [rewrite Rabs_R0; lra|]. eapply Rle_trans; [apply Rabs_triang|]. lra. Qed.
Lemma sum_pos l : 0 <= sum (fun k => q k) l.
Proof. induction l; cbn; [lra|]. pose proof (Rabs_pos (p a0)). lra. Qed.
Lemma sum_le l : NoDup l -> (forall k, In k l -> In k [0; 1; 2; 3]%nat) -> sum (fun k => q k) l <= S.
Proof.
  intros N L. eapply Rle_trans; [|exact ST]. unfold total. revert L. generalize [0; 1; 2; 3]%nat as m. induction l as [|x l IH]; intros m L; cbn; [apply sum_pos|].
  inversion N as [|? ? N1 N2]; subst. destruct (in_split x m (L x (or_introl eq_refl))) as (m1 & m2 & ->).
  rewrite (sum_perm _ (m1 ++ x :: m2) (x :: m1 ++ m2)) by (symmetry; apply Permutation_middle). cbn. apply Rplus_le_compat_l. apply IH; [exact N2|].
  intros k Hk. specialize (L k (or_intror Hk)). apply in_app_or in L as [L|[->|L]]; apply in_or_app; auto. contradiction.
Qed.
Lemma S_pos : 0 <= S. Proof. eapply Rle_trans; [apply (sum_pos [0; 1; 2; 3]%nat)|exact ST]. Qed.
Lemma eta_S : S = 0 \/ Turn32_Proofs.eta <= w * S / 1000.
Proof.
  destruct S0 as [->|[L _]]; [left; reflexivity|right].
  assert (T : Turn32_Proofs.eta * 1000 <= w * bpow radix2 (-100)).
  { unfold Turn32_Proofs.eta, w. rewrite <- bpow_plus. apply Rle_trans with (bpow radix2 (-150) * bpow radix2 10); [|rewrite <- bpow_plus; apply bpow_le; lia].
    change (bpow radix2 10) with 1024. pose proof (bpow_gt_0 radix2 (-150)). lra. }
  pose proof w_pos. nra.
Qed.
Lemma rstep x : Rabs x <= 11 / 10 * S -> Rabs (rnd32 x - x) <= w * Rabs x + w * S / 1000.
Proof.
  intros H. pose proof w_pos. destruct eta_S as [E|E].
  - rewrite E in H. pose proof (Rabs_pos x). assert (x = 0) by (destruct (Req_dec x 0) as [Z|Z]; [exact Z|apply Rabs_pos_lt in Z; lra]). subst x. unfold rnd32. rewrite round_0 by apply valid_rnd_N.
    rewrite Rminus_0_r, Rabs_R0, E. lra.
  - eapply Rle_trans; [apply Turn32_Proofs.err32|]. change Turn32_Proofs.u with w. lra.
Qed.
Lemma S_hi x : Rabs x <= 11 / 10 * S -> Rabs x <= bpow radix2 110.
Proof.
  intros H. assert (bpow radix2 100 * 2 <= bpow radix2 110) by (change 2 with (bpow radix2 1); rewrite <- bpow_plus; apply bpow_le; lia).
  destruct S0 as [E|[_ E]]; [rewrite E in H; pose proof (bpow_gt_0 radix2 110); lra|]. pose proof (bpow_gt_0 radix2 100). lra.
Qed.
Lemma pair_err k : Rabs (B2R (a k) * B2R (b k) - p k) <= 21 / 10 * w * q k.
Proof.
  destruct (IA k) as (_ & A). destruct (IB k) as (_ & B). set (x := B2R (a k)) in *. set (y := B2R (b k)) in *.
  replace (x * y - p k) with ((x - ra k) * rb k + ra k * (y - rb k) + (x - ra k) * (y - rb k)) by ring.
  rewrite Rabs_mult. pose proof (Rabs_pos (ra k)) as P1. pose proof (Rabs_pos (rb k)) as P2. pose proof w_pos as W. pose proof w_small as W1.
  set (X := Rabs (ra k)) in *. set (Y := Rabs (rb k)) in *.
  assert (XY : 0 <= X * Y) by nra.
  assert (E1 : Rabs ((x - ra k) * rb k) <= 101 / 100 * w * (X * Y)).
  { rewrite Rabs_mult. fold Y. replace (101 / 100 * w * (X * Y)) with (101 / 100 * w * X * Y) by ring. apply Rmult_le_compat_r; auto. }
  assert (E2 : Rabs (ra k * (y - rb k)) <= 101 / 100 * w * (X * Y)).
  { rewrite Rabs_mult. fold X. replace (101 / 100 * w * (X * Y)) with (X * (101 / 100 * w * Y)) by ring. apply Rmult_le_compat_l; auto. }
  assert (E3 : Rabs ((x - ra k) * (y - rb k)) <= / 1000 * w * (X * Y)).
  { rewrite Rabs_mult. apply Rle_trans with ((101 / 100 * w * X) * (101 / 100 * w * Y)); [apply Rmult_le_compat; auto using Rabs_pos|].
    replace (101 / 100 * w * X * (101 / 100 * w * Y)) with ((101 / 100 * (101 / 100) * w) * w * (X * Y)) by ring.
    apply Rmult_le_compat_r; [exact XY|]. apply Rmult_le_compat_r; lra. }
  eapply Rle_trans; [apply Rabs_triang|]. pose proof (Rabs_triang ((x - ra k) * rb k) (ra k * (y - rb k))). nra.
Qed.
Notation len l := (INR (length l)).
Definition err (l : list nat) : R := w * (32 / 10 * sum (fun k => q k) l + (112 / 100 * len l - 11 / 10) * S).
Lemma err_app l1 l2 : err (l1 ++ l2) = err l1 + err l2 + 11 / 10 * w * S.
Proof. unfold err. rewrite sum_app, app_length, plus_INR. ring. Qed.
Lemma err_cons k l : err (k :: l) = err l + w * (32 / 10 * q k) + 112 / 100 * w * S.
Proof. unfold err. cbn [sum length]. rewrite S_INR. ring. Qed.
Lemma err_small l : NoDup l -> (forall k, In k l -> In k [0; 1; 2; 3]%nat) -> err l <= S / 100.
Proof.
  intros N L. pose proof (sum_le l N L) as H. pose proof S_pos as P. pose proof w_pos as W. pose proof w_small as W1. unfold err.
  assert (C : len l <= 4). { replace 4 with (INR 4) by (cbn; lra). apply le_INR. exact (NoDup_incl_length N L). }
  assert (0 <= len l) by apply pos_INR. assert (w * S <= / 16000000 * S) by (apply Rmult_le_compat_r; lra).
  assert (w * sum (fun k => q k) l <= w * S) by (apply Rmult_le_compat_l; lra).
  assert (len l * (w * S) <= 4 * (w * S)) by (apply Rmult_le_compat_r; nra). nra.
Qed.
Lemma size l v : NoDup l -> (forall k, In k l -> In k [0; 1; 2; 3]%nat) -> Rabs (v - sum (fun k => p k) l) <= err l -> Rabs v <= Rabs (sum (fun k => p k) l) + S / 100.
Proof. intros N L H. pose proof (err_small l N L). replace v with (sum (fun k => p k) l + (v - sum (fun k => p k) l)) by ring. eapply Rle_trans; [apply Rabs_triang|]. lra. Qed.

Lemma leaf_err x k : Rabs (x - p k) <= 21 / 10 * w * q k -> q k <= S -> Rabs x <= 11 / 10 * S /\ Rabs (rnd32 x - p k) <= err [k].
Proof.
  intros H Q. pose proof w_pos as W. pose proof w_small as W1. pose proof S_pos as P. pose proof (Rabs_pos (p k)) as Q0.
  assert (X : Rabs x <= q k * (1 + / 1000)). { replace x with (p k + (x - p k)) by ring. eapply Rle_trans; [apply Rabs_triang|]. nra. }
  split; [lra|]. pose proof (rstep x ltac:(lra)) as R1. replace (rnd32 x - p k) with ((rnd32 x - x) + (x - p k)) by ring.
  eapply Rle_trans; [apply Rabs_triang|]. unfold err. cbn [sum length]. change (INR 1) with 1.
  assert (w * Rabs x <= w * (q k * (1 + / 1000))) by (apply Rmult_le_compat_l; lra). assert (0 <= w * S) by nra. assert (0 <= w * q k) by nra. nra.
Qed.

Lemma partial_near l v : partial a b l v -> NoDup l -> (forall k, In k l -> In k [0; 1; 2; 3]%nat) ->
  is_finite v = true /\ (l = [] -> B2R v = 0) /\ (l <> [] -> Rabs (B2R v - sum (fun k => p k) l) <= err l).
Proof.
  induction 1 as [|k|l1 l2 x y _ IH1 _ IH2|k l x _ IH]; intros N L.
  - repeat split; auto. congruence.
  - destruct (IA k) as (FA & _). destruct (IB k) as (FB & _). pose proof (pair_err k) as PE.
    assert (Q : q k <= S). { pose proof (sum_le [k] N L) as H. cbn in H. lra. }
    destruct (leaf_err _ k PE Q) as (B1 & B2).
    destruct (Turn32_Proofs.mul32_r (a k) (b k) FA FB (S_hi _ B1)) as (F & E). split; [exact F|]. split; [discriminate|]. intros _.
    rewrite E. cbn [sum]. rewrite Rplus_0_r. exact B2.
  - assert (N' : NoDup l1 /\ NoDup l2).
    { clear - N. induction l1 as [|x l1 IH]; [split; [constructor|exact N]|]. cbn in N. inversion N as [|? ? N0 N1]; subst. destruct (IH N1) as (A1 & A2).
      split; [constructor; [intros H; apply N0, in_or_app; left; exact H|exact A1]|exact A2]. }
    destruct N' as (N1 & N2).
    assert (L1 : forall k, In k l1 -> In k [0; 1; 2; 3]%nat) by (intros; apply L, in_or_app; auto).
    assert (L2 : forall k, In k l2 -> In k [0; 1; 2; 3]%nat) by (intros; apply L, in_or_app; auto).
    destruct (IH1 N1 L1) as (F1 & Z1 & E1). destruct (IH2 N2 L2) as (F2 & Z2 & E2). clear IH1 IH2.
    destruct l1 as [|k1 l1'].
    { specialize (Z1 eq_refl). destruct (add_ok x y (B2R y) F1 F2) as (F & E); [rewrite Z1, Rplus_0_l; apply rnd32_id, fmt_B2R|apply small_fin|].
      cbn [app]. rewrite E. auto. }
    destruct l2 as [|k2 l2'].
    { specialize (Z2 eq_refl). destruct (add_ok x y (B2R x) F1 F2) as (F & E); [rewrite Z2, Rplus_0_r; apply rnd32_id, fmt_B2R|apply small_fin|].
      rewrite app_nil_r, E. auto. }
    specialize (E1 ltac:(discriminate)). specialize (E2 ltac:(discriminate)). set (m1 := k1 :: l1') in *. set (m2 := k2 :: l2') in *.
    pose proof (sum_le _ N L) as SL. pose proof (sum_abs (m1 ++ m2)) as SA.
    pose proof (err_small _ N1 L1) as S1. pose proof (err_small _ N2 L2) as S2. pose proof w_pos as W. pose proof S_pos as P.
    assert (D : Rabs (B2R x + B2R y - sum (fun k => p k) (m1 ++ m2)) <= err m1 + err m2).
    { rewrite sum_app. replace (B2R x + B2R y - (sum (fun k => p k) m1 + sum (fun k => p k) m2)) with ((B2R x - sum (fun k => p k) m1) + (B2R y - sum (fun k => p k) m2)) by ring.
      eapply Rle_trans; [apply Rabs_triang|]. lra. }
    assert (B : Rabs (B2R x + B2R y) <= 102 / 100 * S).
    { replace (B2R x + B2R y) with (sum (fun k => p k) (m1 ++ m2) + (B2R x + B2R y - sum (fun k => p k) (m1 ++ m2))) by ring. eapply Rle_trans; [apply Rabs_triang|]. lra. }
    destruct (Turn32_Proofs.add32_r x y F1 F2 (S_hi (B2R x + B2R y) ltac:(lra))) as (F & E). split; [exact F|]. split; [intros H; apply app_eq_nil in H as [H _]; discriminate H|]. intros _.
    rewrite E, err_app. pose proof (rstep (B2R x + B2R y) ltac:(lra)) as R1.
    assert (w * Rabs (B2R x + B2R y) <= w * (102 / 100 * S)) by (apply Rmult_le_compat_l; lra).
    replace (rnd32 (B2R x + B2R y) - sum (fun k => p k) (m1 ++ m2)) with ((rnd32 (B2R x + B2R y) - (B2R x + B2R y)) + (B2R x + B2R y - sum (fun k => p k) (m1 ++ m2))) by ring.
    eapply Rle_trans; [apply Rabs_triang|]. assert (0 <= w * S) by nra. lra.
  - inversion N as [|? ? N0 N1]; subst. assert (L1 : forall j, In j l -> In j [0; 1; 2; 3]%nat) by (intros; apply L; right; auto).
    destruct (IH N1 L1) as (F1 & Z1 & E1). clear IH. destruct (IA k) as (FA & _). destruct (IB k) as (FB & _). pose proof (pair_err k) as PE.
    pose proof w_pos as W. pose proof S_pos as P.
    destruct l as [|k1 l'].
    { specialize (Z1 eq_refl). assert (Q : q k <= S). { pose proof (sum_le [k] N L) as H. cbn in H. lra. }
      destruct (leaf_err _ k PE Q) as (B1 & B2).
      destruct (Turn32_Proofs.fma32_r (a k) (b k) x FA FB F1) as (F & E); [rewrite Z1, Rplus_0_r; exact (S_hi _ B1)|]. split; [exact F|]. split; [discriminate|]. intros _.
      rewrite E, Z1, Rplus_0_r. cbn [sum]. rewrite Rplus_0_r. exact B2. }
    specialize (E1 ltac:(discriminate)). set (m := k1 :: l') in *.
    pose proof (sum_le _ N L) as SL. pose proof (sum_abs (k :: m)) as SA. pose proof (err_small _ N L) as S1. rewrite err_cons in *. cbn [sum] in *.
    pose proof (sum_pos m) as SP. pose proof (Rabs_pos (p k)) as Q0. assert (0 <= w * S) by nra. assert (0 <= w * q k) by nra.
    set (z := B2R (a k) * B2R (b k)) in *.
    assert (D : Rabs (z + B2R x - (p k + sum (fun k => p k) m)) <= err m + 21 / 10 * w * q k).
    { replace (z + B2R x - (p k + sum (fun k => p k) m)) with ((z - p k) + (B2R x - sum (fun k => p k) m)) by ring. eapply Rle_trans; [apply Rabs_triang|]. lra. }
    assert (B : Rabs (z + B2R x) <= 102 / 100 * S).
    { replace (z + B2R x) with ((p k + sum (fun k => p k) m) + (z + B2R x - (p k + sum (fun k => p k) m))) by ring. eapply Rle_trans; [apply Rabs_triang|]. lra. }
    destruct (Turn32_Proofs.fma32_r (a k) (b k) x FA FB F1) as (F & E); [apply S_hi; fold z; lra|]. split; [exact F|]. split; [discriminate|]. intros _.
    rewrite E. fold z. pose proof (rstep (z + B2R x) ltac:(lra)) as R1.
    assert (w * Rabs (z + B2R x) <= w * (102 / 100 * S)) by (apply Rmult_le_compat_l; lra).
    replace (rnd32 (z + B2R x) - (p k + sum (fun k => p k) m)) with ((rnd32 (z + B2R x) - (z + B2R x)) + (z + B2R x - (p k + sum (fun k => p k) m))) by ring.
    eapply Rle_trans; [apply Rabs_triang|]. lra.
Qed.

Lemma dot_near v : dot4 a b v ->
  is_finite v = true /\ Rabs (B2R v - (p 0%nat + p 1%nat + p 2%nat + p 3%nat)) <= bpow radix2 (-21) * S.
Proof.
  intros (l & Pm & H). assert (N : NoDup l).
  { apply (Permutation_NoDup (Permutation_sym Pm)). repeat constructor; cbn; intuition discriminate. }
  assert (L : forall k, In k l -> In k [0; 1; 2; 3]%nat) by (intros k; apply Permutation_in; exact Pm).
  destruct (partial_near l v H N L) as (F & _ & E). split; [exact F|].
  assert (l <> []) by (intros ->; apply Permutation_nil in Pm; discriminate). specialize (E H0). rewrite (sum_perm _ _ _ Pm) in E.
  cbn [sum] in E. rewrite Rplus_0_r in E. rewrite !Rplus_assoc. eapply Rle_trans; [exact E|]. unfold err.
  rewrite (Permutation_length Pm), (sum_perm _ _ _ Pm). cbn [length]. change (INR 4) with (1 + 1 + 1 + 1).
  fold total. replace (bpow radix2 (-21)) with (8 * w) by (unfold w; change 8 with (bpow radix2 3); rewrite <- bpow_plus; reflexivity).
  pose proof w_pos. pose proof S_pos. assert (w * total <= w * S) by (apply Rmult_le_compat_l; lra). assert (0 <= w * S) by nra. lra.
Qed.
End Dot.

(** magnitudes *)
Definition rng (k : Z) (x : R) : Prop := bpow radix2 (- k) <= Rabs x <= bpow radix2 k.
Lemma rng_mul a b x y : rng a x -> rng b y -> rng (a + b) (x * y).
Proof.
  intros [A1 A2] [B1 B2]. unfold rng. rewrite Rabs_mult, Z.opp_add_distr, !bpow_plus.
  pose proof (bpow_ge_0 radix2 (- a)). pose proof (bpow_ge_0 radix2 (- b)). split; apply Rmult_le_compat; auto using Rabs_pos.
Qed.
Lemma rng_nz k x : rng k x -> x <> 0.
Proof. intros [H _] ->. rewrite Rabs_R0 in H. pose proof (bpow_gt_0 radix2 (- k)). lra. Qed.
Lemma rng_inv a x : rng a x -> rng a (/ x).
Proof.
  intros H. pose proof (rng_nz _ _ H) as N. destruct H as [A1 A2]. unfold rng. rewrite Rabs_inv. apply Rabs_pos_lt in N. split.
  - rewrite bpow_opp. apply Rinv_le_contravar; assumption.
  - replace (bpow radix2 a) with (/ bpow radix2 (- a)) by (rewrite bpow_opp, Rinv_inv; reflexivity). apply Rinv_le_contravar; [apply bpow_gt_0|assumption].
Qed.
Lemma rng_div a b x y : rng a x -> rng b y -> rng (a + b) (x / y).
Proof. intros. apply rng_mul; [assumption|now apply rng_inv]. Qed.
Lemma rng_le a b x : rng a x -> (a <= b)%Z -> rng b x.
Proof. intros [A1 A2] H. split; [eapply Rle_trans; [|exact A1]; apply bpow_le; lia|eapply Rle_trans; [exact A2|]; apply bpow_le; lia]. Qed.
Lemma rng_2 : rng 1 2. Proof. unfold rng. rewrite Rabs_pos_eq by lra. change (bpow radix2 (- (1))) with (/ 2). change (bpow radix2 1) with 2. lra. Qed.
Lemma rng_opp a x : rng a x -> rng a (- x). Proof. unfold rng. now rewrite Rabs_Ropp. Qed.
Lemma rng_fits k r : rng k r -> (k <= 900)%Z -> fits r. Proof. intros H K. right. exact (rng_le _ _ _ H K). Qed.
Lemma rng_fits32 k r : rng k r -> (k <= 100)%Z -> fits32 r. Proof. intros H K. right. exact (rng_le _ _ _ H K). Qed.
Lemma rng_sum x y : 0 < x -> 0 < y -> rng 30 x -> rng 30 y -> rng 31 (x + y).
Proof.
  intros X Y [A1 A2] [B1 B2]. rewrite Rabs_pos_eq in * by lra. unfold rng. rewrite Rabs_pos_eq by lra.
  assert (bpow radix2 (- (31)) <= bpow radix2 (- (30))) by (apply bpow_le; lia). assert (bpow radix2 31 = bpow radix2 30 * 2) by (change 31%Z with (30 + 1)%Z; rewrite bpow_plus; reflexivity). lra.
Qed.
Lemma two64_2 : B2R two64 = 2. Proof. cbn. unfold F2R. cbn. lra. Qed.

(** halving is exact *)
Lemma half_exact x : is_finite x = true -> usual (B2R x) -> is_finite (div64 x two64) = true /\ B2R (div64 x two64) = B2R x / 2.
Proof.
  intros F U. pose proof (rng_nz 30 _ U) as N. assert (F2 : fits (B2R x / 2)) by (apply (rng_fits 31); [exact (rng_div 30 1 _ _ U rng_2)|lia]).
  destruct (div64_r x two64 F) as (F1 & E); rewrite ?two64_2; [lra|exact (fits_hi _ F2)|]. split; [exact F1|]. rewrite E, two64_2.
  unfold rnd64. apply round_generic; [apply valid_rnd_N|]. replace (B2R x / 2) with (B2R x * bpow radix2 (-1)) by (change (bpow radix2 (-1)) with (/ 2); reflexivity).
  change (SpecFloat.fexp 53 1024) with (FLT_exp (-1074) 53). apply mult_bpow_exact_FLT; [exact (generic_format_B2R 53 1024 x)|].
  assert ((-29 <= mag radix2 (B2R x))%Z) by (apply mag_ge_bpow; exact (proj1 U)). lia.
Qed.

Section Perspective.
Variable tan_ : b64 -> b64.
Variables fovy aspect n f : b64.
Hypothesis V : viewing fovy aspect n f.
Hypothesis Acc : accurate_tan tan_ (B2R fovy / 2).
Notation t := (tan (B2R fovy / 2)).
Notation a := (B2R aspect).
Notation N := (B2R n).
Notation F := (B2R f).
Let ff : b64 := div64 one64 (tan_ (div64 fovy two64)).
Lemma tan_near : near (tan_ (div64 fovy two64)) t 2.
Proof.
  destruct V as ((F1 & _) & (U1 & U2 & _) & _). destruct (half_exact fovy F1 U1) as (H1 & H2). destruct (Acc _ H1 H2) as (T1 & T2).
  pose proof (rng_nz 30 _ U2) as Z. split; [exact T1|]. exists ((B2R (tan_ (div64 fovy two64)) - t) / t). split; [|field; exact Z].
  unfold Rdiv at 1. rewrite Rabs_mult, Rabs_inv. apply Rabs_pos_lt in Z. apply Rmult_le_reg_r with (Rabs t); [exact Z|]. rewrite Rmult_assoc, Rinv_l, Rmult_1_r by lra.
  eapply Rle_trans; [exact T2|]. apply Rmult_le_compat_r; [lra|]. unfold u. change 2 with (bpow radix2 1). rewrite <- bpow_plus. apply bpow_le. lia.
Qed.
Lemma ff_near : near ff (/ t) (32 / 10).
Proof.
  pose proof (proj1 (proj2 (proj1 (proj2 V)))) as U2. unfold ff. replace (/ t) with (1 / t) by (unfold Rdiv; ring).
  apply near_le with (0 + 2 + 12 / 10); [|lra]. apply div_rel; try lra; [apply near_exact; [reflexivity|apply one64_1]|exact tan_near|exact (rng_nz 30 _ U2)|].
  replace (1 / t) with (/ t) by (unfold Rdiv; ring). apply (rng_fits 30); [exact (rng_inv 30 _ U2)|lia].
Qed.
Lemma sum_near : near (add64 f n) (F + N) (11 / 10) /\ rng 31 (F + N).
Proof.
  destruct V as ((_ & _ & F1 & F2) & _ & (P1 & U1 & P2 & U2 & _)). pose proof (rng_sum F N P2 P1 U2 U1) as S. split; [|exact S].
  apply add_rel; [assumption|assumption|exact (rng_fits 31 _ S ltac:(lia))].
Qed.
Lemma delta_near : near (sub64 n f) (N - F) (11 / 10) /\ rng 30 (N - F).
Proof.
  destruct V as ((_ & _ & F1 & F2) & _ & (_ & _ & _ & _ & U)). split; [|exact U]. apply sub_rel; [assumption|assumption|exact (rng_fits 30 _ U ltac:(lia))].
Qed.
Lemma both_near : near (mul64 (mul64 two64 f) n) (2 * F * N) (22 / 10) /\ rng 61 (2 * F * N).
Proof.
  destruct V as ((_ & _ & F1 & F2) & _ & (_ & U1 & _ & U2 & _)). pose proof (rng_mul 1 30 _ _ rng_2 U2) as R1. pose proof (rng_mul _ 30 _ _ R1 U1) as R2.
  split; [|exact R2]. apply near_le with (11 / 10 + 0 + 11 / 10); [|lra]. apply mul_rel; try lra; [|apply near_exact; auto|exact (rng_fits _ _ R2 ltac:(lia))].
  apply near_le with (0 + 0 + 11 / 10); [|lra]. apply mul_rel; try lra; [apply near_exact; [reflexivity|apply two64_2]|apply near_exact; auto|exact (rng_fits _ _ R1 ltac:(lia))].
Qed.
Lemma f_rng : rng 30 (/ t). Proof. exact (rng_inv 30 _ (proj1 (proj2 (proj1 (proj2 V))))). Qed.
Lemma a_near : near aspect a 0 /\ rng 30 a.
Proof. destruct V as ((_ & A & _) & (_ & _ & U) & _). split; [now apply near_exact|exact U]. Qed.
Lemma quot (x y : b64) rx ry kx ky p q : near x rx kx -> rng p rx -> near y ry ky -> rng q ry -> 0 <= kx <= 4 -> 0 <= ky <= 4 -> (p + q <= 100)%Z -> item (to32 (div64 x y)) (rx / ry).
Proof.
  intros X P Y Q KX KY H. pose proof (rng_div _ _ _ _ P Q) as R1. apply to32_item with (kx + ky + 12 / 10); [|lra|exact (rng_fits32 _ _ R1 H)].
  apply div_rel; auto; try lra; [exact (rng_nz _ _ Q)|exact (rng_fits _ _ R1 ltac:(lia))].
Qed.
Lemma or_small_near v r k : near v r k -> 0 <= k <= 20 -> r <> 0 -> or_small v = v.
Proof. intros H K Z. pose proof (near_nonzero _ _ _ H K Z). now destruct v. Qed.

Lemma forward_items : exists m, perspective32 tan_ fovy aspect n f false = Some m /\ forall i j, item (m i j) (persp t a N F i j).
Proof.
  destruct sum_near as (S1 & S2). destruct delta_near as (D1 & D2). destruct both_near as (B1 & B2). destruct a_near as (A1 & A2). pose proof ff_near as G1. pose proof f_rng as G2.
  unfold perspective32. fold ff. rewrite (near_nonzero _ _ _ D1 ltac:(lra) (rng_nz _ _ D2)). eexists. split; [reflexivity|].
  intros [|[|[|[|i]]]] [|[|[|[|j]]]]; cbn [at4 at_R persp persp_inv nth]; try apply item_0; try apply item_m1; try (destruct i; apply item_0); try (destruct j; apply item_0).
  - eapply quot; eauto; (lra || lia).
  - eapply to32_item; eauto; [lra|exact (rng_fits32 _ _ G2 ltac:(lia))].
  - eapply quot; eauto; (lra || lia).
  - eapply quot; eauto; (lra || lia).
Qed.
Lemma backward_items : exists m, perspective32 tan_ fovy aspect n f true = Some m /\ forall i j, item (m i j) (persp_inv t a N F i j).
Proof.
  destruct sum_near as (S1 & S2). destruct delta_near as (D1 & D2). destruct both_near as (B1 & B2). destruct a_near as (A1 & A2). pose proof ff_near as G1. pose proof f_rng as G2.
  pose proof (rng_nz 30 _ (proj1 (proj2 (proj1 (proj2 V))))) as Z.
  unfold perspective32. fold ff. rewrite (near_nonzero _ _ _ B1 ltac:(lra) (rng_nz _ _ B2)). rewrite (or_small_near _ _ _ G1 ltac:(lra) (rng_nz _ _ G2)). eexists. split; [reflexivity|].
  intros [|[|[|[|i]]]] [|[|[|[|j]]]]; cbn [at4 at_R persp persp_inv nth]; try apply item_0; try apply item_m1; try (destruct i; apply item_0); try (destruct j; apply item_0).
  - replace (a * t) with (a / / t) by (field; exact Z). eapply quot; eauto; (lra || lia).
  - replace t with (1 / / t) at 1 by (field; exact Z). eapply (quot one64 ff 1 (/ t) 0 _ 0 30); eauto; try (lra || lia); [apply near_exact; [reflexivity|apply one64_1]|].
    unfold rng. rewrite Rabs_R1. change (bpow radix2 (- 0)) with 1. change (bpow radix2 0) with 1. lra.
  - eapply quot; eauto; (lra || lia).
  - eapply quot; eauto; (lra || lia).
Qed.
End Perspective.

(** ** boxes *)
Lemma side_near lo hi : interval lo hi -> near (sub64 hi lo) (B2R hi - B2R lo) (11 / 10) /\ rng 30 (B2R hi - B2R lo).
Proof. intros (F1 & F2 & U & _). split; [|exact U]. apply sub_rel; [assumption|assumption|exact (rng_fits 30 _ U ltac:(lia))]. Qed.
Lemma centre_item lo hi : interval lo hi -> item (to32 (div64 (Bopp (add64 hi lo)) (sub64 hi lo))) (- (B2R hi + B2R lo) / (B2R hi - B2R lo)).
Proof.
  intros H. destruct (side_near _ _ H) as (D1 & D2). destruct H as (F1 & F2 & _ & C). pose proof (rng_nz _ _ D2) as Z.
  assert (X : fits (B2R hi + B2R lo)) by (destruct C as [C|C]; [left; exact C|right; exact (rng_le 30 900 _ C ltac:(lia))]).
  assert (Y : forall b, (60 <= b)%Z -> - (B2R hi + B2R lo) / (B2R hi - B2R lo) = 0 \/ rng b (- (B2R hi + B2R lo) / (B2R hi - B2R lo))).
  { intros b Hb. destruct C as [C|C]; [left; rewrite C; field; exact Z|right]. apply (rng_le 60); [|exact Hb]. exact (rng_div 30 30 _ _ (rng_opp 30 _ C) D2). }
  apply to32_item with (11 / 10 + 11 / 10 + 12 / 10); [|lra|exact (Y 100%Z ltac:(lia))].
  apply div_rel; try lra; [apply near_opp, add_rel; assumption|exact D1|exact (Y 900%Z ltac:(lia))].
Qed.
Lemma size_item (s : bool) lo hi : interval lo hi ->
  item (to32 (div64 (if s then Bopp two64 else two64) (sub64 hi lo))) ((if s then -2 else 2) / (B2R hi - B2R lo)).
Proof.
  intros H. destruct (side_near _ _ H) as (D1 & D2). apply quot with 0 (11 / 10) 1%Z 30%Z; auto; try lra; try lia.
  - destruct s; [replace (-2) with (- (2)) by lra; apply near_opp|]; (apply near_exact; [reflexivity|apply two64_2]).
  - destruct s; [replace (-2) with (- (2)) by lra; apply rng_opp|]; apply rng_2.
Qed.
Lemma ortho_items l r b t n f : interval l r -> interval b t -> interval n f ->
  exists m, ortho32 l r b t n f = Some m /\ forall i j, item (m i j) (orth (B2R l) (B2R r) (B2R b) (B2R t) (B2R n) (B2R f) i j).
Proof.
  intros H1 H2 H3. unfold ortho32.
  destruct (side_near _ _ H1) as (D1 & E1). destruct (side_near _ _ H2) as (D2 & E2). destruct (side_near _ _ H3) as (D3 & E3).
  rewrite (near_nonzero _ _ _ D1 ltac:(lra) (rng_nz _ _ E1)), (near_nonzero _ _ _ D2 ltac:(lra) (rng_nz _ _ E2)), (near_nonzero _ _ _ D3 ltac:(lra) (rng_nz _ _ E3)).
  cbn [andb]. eexists. split; [reflexivity|].
  intros [|[|[|[|i]]]] [|[|[|[|j]]]]; cbn [at4 at_R orth nth]; try apply item_0; try apply item_1; try (destruct i; apply item_0); try (destruct j; apply item_0); try (apply centre_item; assumption);
    first [apply (size_item false); assumption|apply (size_item true); assumption].
Qed.
Lemma items_within m x : (forall i j, item (m i j) (x i j)) -> within (bpow radix2 (-23)) m x.
Proof.
  intros H i j. destruct (H i j) as (F & E). split; [exact F|]. eapply Rle_trans; [exact E|]. apply Rmult_le_compat_r; [apply Rabs_pos|].
  unfold w. change (-23)%Z with (-24 + 1)%Z. rewrite bpow_plus. change (bpow radix2 1) with 2. pose proof (bpow_gt_0 radix2 (-24)). lra.
Qed.

(** ** the products *)
Section Products.
Variables t a n f : R.
Hypothesis T : usual t.
Hypothesis A : usual a.
Hypothesis N0 : 0 < n.
Hypothesis N : usual n.
Hypothesis F0 : 0 < f.
Hypothesis F : usual f.
Hypothesis D : usual (n - f).
Lemma sum_rng : rng 31 (f + n). Proof. apply rng_sum; assumption. Qed.
Lemma same_total S : S = 1 -> bpow radix2 (-100) <= S <= bpow radix2 100.
Proof. intros ->. change 1 with (bpow radix2 0). split; apply bpow_le; lia. Qed.
Lemma slack_fits i j : slack n f i j = 0 \/ bpow radix2 (-100) <= slack n f i j <= bpow radix2 100.
Proof.
  assert (S : forall i j, same i j = 0 \/ bpow radix2 (-100) <= same i j <= bpow radix2 100).
  { intros x y. unfold same. destruct (Nat.eqb x y); [right; apply same_total; reflexivity|left; reflexivity]. }
  destruct i as [|[|[|i]]]; try apply S. destruct j as [|[|[|[|j]]]]; try apply S. right. unfold slack.
  pose proof (rng_div _ _ _ _ sum_rng (rng_mul 30 30 _ _ F N)) as R1. assert (0 < (f + n) / (f * n)) by (apply Rdiv_lt_0_compat; nra).
  pose proof (rng_le _ 100 _ R1 ltac:(lia)) as [R2 R3]. rewrite Rabs_pos_eq in R2, R3 by lra. split; assumption.
Qed.
Lemma slack'_fits i j : slack' n f i j = 0 \/ bpow radix2 (-100) <= slack' n f i j <= bpow radix2 100.
Proof.
  assert (S : forall i j, same i j = 0 \/ bpow radix2 (-100) <= same i j <= bpow radix2 100).
  { intros x y. unfold same. destruct (Nat.eqb x y); [right; apply same_total; reflexivity|left; reflexivity]. }
  destruct i as [|[|[|[|i]]]]; try apply S. destruct j as [|[|[|j]]]; try apply S. right. unfold slack'.
  assert (D' : rng 30 (Rabs (n - f))) by (unfold rng; rewrite Rabs_Rabsolu; exact D).
  pose proof (rng_div _ _ _ _ (rng_mul 1 31 _ _ rng_2 sum_rng) D') as R1. assert (0 < Rabs (n - f)) by (apply Rabs_pos_lt; exact (rng_nz 30 _ D)).
  assert (0 < 2 * (f + n) / Rabs (n - f)) by (apply Rdiv_lt_0_compat; lra).
  pose proof (rng_le _ 100 _ R1 ltac:(lia)) as [R2 R3]. rewrite Rabs_pos_eq in R2, R3 by lra. split; assumption.
Qed.
Let tz := rng_nz 30 _ T.
Let az := rng_nz 30 _ A.
Let dz := rng_nz 30 _ D.
Lemma abs_1 x y : x * y = 1 -> Rabs (x * y) = 1. Proof. intros ->. apply Rabs_R1. Qed.
Lemma forward_sum i j : (i < 4)%nat -> (j < 4)%nat ->
  let ra := persp t a n f i in let rb := fun k => persp_inv t a n f k j in
  ra 0%nat * rb 0%nat + ra 1%nat * rb 1%nat + ra 2%nat * rb 2%nat + ra 3%nat * rb 3%nat = same i j /\ total ra rb <= slack n f i j.
Proof.
  intros I J. cbv zeta. unfold total. cbn [sum].
  assert (E : Rabs ((f + n) / (n - f) * ((n - f) / (2 * f * n))) = (f + n) / (2 * f * n)).
  { replace ((f + n) / (n - f) * ((n - f) / (2 * f * n))) with ((f + n) / (2 * f * n)) by (field; repeat split; lra). apply Rabs_pos_eq. apply Rlt_le, Rdiv_lt_0_compat; nra. }
  assert (E' : Rabs (-1 * ((f + n) / (2 * f * n))) = (f + n) / (2 * f * n)).
  { replace (-1 * ((f + n) / (2 * f * n))) with (- ((f + n) / (2 * f * n))) by ring. rewrite Rabs_Ropp. apply Rabs_pos_eq. apply Rlt_le, Rdiv_lt_0_compat; nra. }
  destruct i as [|[|[|[|i]]]]; [| | | |lia]; (destruct j as [|[|[|[|j]]]]; [| | | |lia]); cbn [persp persp_inv at_R nth slack]; unfold same; cbn [Nat.eqb];
    rewrite ?Rmult_0_l, ?Rmult_0_r, ?Rabs_R0, ?Rplus_0_l, ?Rplus_0_r;
    try (split; [reflexivity|lra]);
    try (split; [|rewrite abs_1]; [field; repeat split; lra|lra|field; repeat split; lra]).
  split; [field; repeat split; lra|]. rewrite E, E'. right. field. lra.
Qed.
Lemma backward_sum i j : (i < 4)%nat -> (j < 4)%nat ->
  let ra := persp_inv t a n f i in let rb := fun k => persp t a n f k j in
  ra 0%nat * rb 0%nat + ra 1%nat * rb 1%nat + ra 2%nat * rb 2%nat + ra 3%nat * rb 3%nat = same i j /\ total ra rb <= slack' n f i j.
Proof.
  intros I J. cbv zeta. unfold total. cbn [sum].
  assert (E : Rabs ((f + n) / (2 * f * n) * (2 * f * n / (n - f))) = (f + n) / Rabs (n - f)).
  { replace ((f + n) / (2 * f * n) * (2 * f * n / (n - f))) with ((f + n) / (n - f)) by (field; repeat split; lra). unfold Rdiv. rewrite Rabs_mult, Rabs_inv, (Rabs_pos_eq (f + n)) by lra. reflexivity. }
  assert (E' : Rabs (-1 * ((f + n) / (n - f))) = (f + n) / Rabs (n - f)).
  { replace (-1 * ((f + n) / (n - f))) with (- ((f + n) / (n - f))) by ring. rewrite Rabs_Ropp. unfold Rdiv. rewrite Rabs_mult, Rabs_inv, (Rabs_pos_eq (f + n)) by lra. reflexivity. }
  destruct i as [|[|[|[|i]]]]; [| | | |lia]; (destruct j as [|[|[|[|j]]]]; [| | | |lia]); cbn [persp persp_inv at_R nth slack']; unfold same; cbn [Nat.eqb];
    rewrite ?Rmult_0_l, ?Rmult_0_r, ?Rabs_R0, ?Rplus_0_l, ?Rplus_0_r;
    try (split; [reflexivity|lra]);
    try (split; [|rewrite abs_1]; [field; repeat split; lra|lra|field; repeat split; lra]).
  split; [field; repeat split; lra|]. rewrite E, E'. right. unfold Rdiv. ring.
Qed.
End Products.
