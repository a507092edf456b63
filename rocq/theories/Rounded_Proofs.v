(** Sums of four products in floating point, in any order.  For P_Rounded. *)
From Coq Require Import Reals ZArith List Bool Permutation Lia Lra Psatz.
From Flocq Require Import Core.Core IEEE754.BinarySingleNaN.
Require Import Flocq.Prop.Relative.
From Verif Require Import Rounded_Model.
Import ListNotations.
Local Open Scope list_scope.
Local Open Scope R_scope.
Definition fmt32 (x : R) : Prop := generic_format radix2 (SpecFloat.fexp 24 128) x.
Definition rnd32 (x : R) : R := round radix2 (SpecFloat.fexp 24 128) ZnearestE x.
Definition rnd64 (x : R) : R := round radix2 (SpecFloat.fexp 53 1024) ZnearestE x.
Definition small32 (x : R) : Prop := Rabs x < bpow radix2 128.
Global Instance v32 : Valid_exp (SpecFloat.fexp 24 128) := fexp_correct 24 128 p24.
Global Instance v64 : Valid_exp (SpecFloat.fexp 53 1024) := fexp_correct 53 1024 p53.
Lemma rnd32_id x : fmt32 x -> rnd32 x = x. Proof. apply round_generic. apply valid_rnd_N. Qed.
Lemma fmt32_0 : fmt32 0. Proof. apply generic_format_0. Qed.
Lemma fmt32_rnd x : fmt32 (rnd32 x). Proof. apply generic_format_round; [apply v32|apply valid_rnd_N]. Qed.
Lemma fmt32_opp x : fmt32 x -> fmt32 (- x). Proof. apply generic_format_opp. Qed.
Lemma small_fin (x : b32) : small32 (B2R x). Proof. apply abs_B2R_lt_emax. Qed.
Lemma small_0 : small32 0. Proof. unfold small32. rewrite Rabs_R0. apply bpow_gt_0. Qed.

Lemma add_ok a b r : is_finite a = true -> is_finite b = true -> rnd32 (B2R a + B2R b) = r -> small32 r -> is_finite (add32 a b) = true /\ B2R (add32 a b) = r.
Proof.
  intros A B E S. pose proof (Bplus_correct 24 128 p24 l128 mode_NE a b A B) as H. cbv zeta in H. change (round_mode mode_NE) with ZnearestE in H. fold (rnd32 (B2R a + B2R b)) in H.
  rewrite E, Rlt_bool_true in H by exact S. destruct H as (H1 & H2 & _). split; assumption.
Qed.
Lemma mul_ok a b r : is_finite a = true -> is_finite b = true -> rnd32 (B2R a * B2R b) = r -> small32 r -> is_finite (mul32 a b) = true /\ B2R (mul32 a b) = r.
Proof.
  intros A B E S. pose proof (Bmult_correct 24 128 p24 l128 mode_NE a b) as H. change (round_mode mode_NE) with ZnearestE in H. fold (rnd32 (B2R a * B2R b)) in H.
  rewrite E, Rlt_bool_true in H by exact S. destruct H as (H1 & H2 & _). rewrite A, B in H2. split; assumption.
Qed.
Lemma fma_ok a b c r : is_finite a = true -> is_finite b = true -> is_finite c = true -> rnd32 (B2R a * B2R b + B2R c) = r -> small32 r ->
  is_finite (fma32 a b c) = true /\ B2R (fma32 a b c) = r.
Proof.
  intros A B C E S. pose proof (Bfma_correct 24 128 p24 l128 mode_NE a b c A B C) as H. cbv zeta in H. change (round_mode mode_NE) with ZnearestE in H. fold (rnd32 (B2R a * B2R b + B2R c)) in H.
  rewrite E, Rlt_bool_true in H by exact S. destruct H as (H1 & H2 & _). split; assumption.
Qed.

(** which of the four products are in the sum *)
Definition has (l : list nat) (k : nat) : bool := existsb (Nat.eqb k) l.
Lemma has_in l k : has l k = true <-> In k l.
Proof. unfold has. rewrite existsb_exists. split; [intros (x & H & E); apply Nat.eqb_eq in E; subst; exact H|intros H; exists k; split; [exact H|apply Nat.eqb_refl]]. Qed.
Lemma has_app l1 l2 k : has (l1 ++ l2) k = has l1 k || has l2 k. Proof. apply existsb_app. Qed.

Section Sum.
Variables a b : nat -> b32.
Hypothesis Fa : forall k, is_finite (a k) = true.
Hypothesis Fb : forall k, is_finite (b k) = true.
Notation pr k := (B2R (a k) * B2R (b k)).
(** a value for each set of products, such that adding disjoint sets gives the value of the union *)
Variable f : (nat -> bool) -> R.
Definition four (m m' : nat -> bool) : Prop := forall k, (k < 4)%nat -> m k = m' k.
Hypothesis Fx : forall m m', four m m' -> f m = f m'.
Hypothesis F0 : f (fun _ => false) = 0.
Hypothesis F1 : forall k, (k < 4)%nat -> rnd32 (pr k) = f (Nat.eqb k).
Hypothesis F2 : forall m1 m2, (forall k, (k < 4)%nat -> m1 k && m2 k = false) -> rnd32 (f m1 + f m2) = f (fun k => m1 k || m2 k).
Hypothesis F3 : forall k m, (k < 4)%nat -> m k = false -> rnd32 (pr k + f m) = f (fun j => Nat.eqb k j || m j).
Hypothesis F4 : forall m, small32 (f m).
Lemma partial_is l v : partial a b l v -> NoDup l -> (forall k, In k l -> (k < 4)%nat) -> is_finite v = true /\ B2R v = f (has l).
Proof.
  induction 1 as [|k|l1 l2 u v _ IH1 _ IH2|k l u _ IH]; intros N L.
  - split; [reflexivity|]. symmetry. exact F0.
  - apply mul_ok; [apply Fa|apply Fb| |apply F4]. rewrite F1 by (apply L; left; reflexivity). apply Fx. intros j _. unfold has. cbn. rewrite orb_false_r. apply Nat.eqb_sym.
  - assert (N1 : NoDup l1 /\ NoDup l2 /\ forall x, In x l1 -> ~ In x l2).
    { clear - N. induction l1 as [|x l1 IH]; [split; [constructor|]; split; [exact N|intros x []]|]. cbn in N. inversion N as [|? ? N0 N1]; subst. destruct (IH N1) as (A1 & A2 & A3).
      split; [constructor; [intros H; apply N0, in_or_app; left; exact H|exact A1]|]. split; [exact A2|]. intros y [<-|Hy]; [intros H; apply N0, in_or_app; right; exact H|exact (A3 y Hy)]. }
    destruct N1 as (N1 & N2 & N3). destruct IH1 as (U1 & U2); [exact N1|intros k Hk; apply L, in_or_app; left; exact Hk|]. destruct IH2 as (V1 & V2); [exact N2|intros k Hk; apply L, in_or_app; right; exact Hk|].
    apply add_ok; [exact U1|exact V1| |apply F4]. rewrite U2, V2, F2; [apply Fx; intros k _; symmetry; apply has_app|].
    intros k _. destruct (has l1 k) eqn:E1; [|reflexivity]. destruct (has l2 k) eqn:E2; [|reflexivity]. apply has_in in E1. apply has_in in E2. destruct (N3 k E1 E2).
  - inversion N as [|? ? N0 N1]; subst. destruct IH as (U1 & U2); [exact N1|intros j Hj; apply L; right; exact Hj|].
    apply fma_ok; [apply Fa|apply Fb|exact U1| |apply F4]. rewrite U2, F3; [apply Fx; intros j _; unfold has; cbn; f_equal; apply Nat.eqb_sym|apply L; left; reflexivity|].
    destruct (has l k) eqn:E; [apply has_in in E; contradiction|reflexivity].
Qed.
Lemma dot4_is v : dot4 a b v -> is_finite v = true /\ B2R v = f (fun _ => true).
Proof.
  intros (l & Pm & H). assert (Nl : NoDup l) by (eapply Permutation_NoDup; [apply Permutation_sym; exact Pm|repeat constructor; cbn; intuition discriminate]).
  destruct (partial_is l v H Nl) as (A & B).
  - intros k Hk. apply (Permutation_in _ Pm) in Hk. cbn in Hk. lia.
  - split; [exact A|]. rewrite B. apply Fx. intros k Hk. apply has_in. apply (Permutation_in _ (Permutation_sym Pm)). cbn. lia.
Qed.
End Sum.

(** two of the products are not zero; they are in the format *)
Section Two.
Variables a b : nat -> b32.
Hypothesis Fa : forall k, is_finite (a k) = true.
Hypothesis Fb : forall k, is_finite (b k) = true.
Notation pr k := (B2R (a k) * B2R (b k)).
Variables k1 k2 : nat.
Hypothesis K1 : (k1 < 4)%nat.
Hypothesis K2 : (k2 < 4)%nat.
Hypothesis K : k1 <> k2.
Hypothesis Z : forall k, (k < 4)%nat -> k <> k1 -> k <> k2 -> pr k = 0.
Hypothesis P1 : fmt32 (pr k1).
Hypothesis P2 : fmt32 (pr k2).
Hypothesis S1 : small32 (pr k1).
Hypothesis S2 : small32 (pr k2).
Hypothesis S3 : small32 (rnd32 (pr k1 + pr k2)).
Definition two (m : nat -> bool) : R := rnd32 ((if m k1 then pr k1 else 0) + (if m k2 then pr k2 else 0)).
Ltac ids := rewrite ?Rplus_0_l, ?Rplus_0_r; repeat first [rewrite (rnd32_id (pr k1) P1) | rewrite (rnd32_id (pr k2) P2) | rewrite (rnd32_id 0 fmt32_0) | rewrite (rnd32_id (rnd32 _) (fmt32_rnd _)) | rewrite Rplus_0_l | rewrite Rplus_0_r].
Lemma two_is v : dot4 a b v -> is_finite v = true /\ B2R v = rnd32 (pr k1 + pr k2).
Proof.
  intros H. apply (dot4_is a b Fa Fb two) in H; [exact H| | | | | |]; unfold two; clear H.
  - intros m m' E. rewrite !E by assumption. reflexivity.
  - ids. reflexivity.
  - intros k Hk. destruct (Nat.eqb_spec k k1) as [->|N1]; [replace (Nat.eqb k1 k2) with false by (symmetry; apply Nat.eqb_neq; exact K); ids; reflexivity|].
    destruct (Nat.eqb_spec k k2) as [->|N2]; [ids; reflexivity|]. rewrite Z by assumption. ids. reflexivity.
  - intros m1 m2 D. pose proof (D k1 K1) as D1. pose proof (D k2 K2) as D2. destruct (m1 k1), (m2 k1), (m1 k2), (m2 k2); try discriminate; cbn [orb]; ids; try reflexivity; rewrite Rplus_comm; reflexivity.
  - intros k m Hk Hm. destruct (Nat.eqb_spec k k1) as [->|N1].
    + rewrite Hm. replace (Nat.eqb k1 k2) with false by (symmetry; apply Nat.eqb_neq; exact K). destruct (m k2); cbn [orb]; ids; reflexivity.
    + destruct (Nat.eqb_spec k k2) as [->|N2]; cbn [orb].
      * rewrite Hm. destruct (m k1); ids; [rewrite Rplus_comm; reflexivity|reflexivity].
      * rewrite Z by assumption. rewrite Rplus_0_l. rewrite rnd32_id by apply fmt32_rnd. reflexivity.
  - intros m. destruct (m k1), (m k2); ids; auto using small_0.
Qed.
End Two.
(** one of the products is not zero *)
Section One.
Variables a b : nat -> b32.
Hypothesis Fa : forall k, is_finite (a k) = true.
Hypothesis Fb : forall k, is_finite (b k) = true.
Notation pr k := (B2R (a k) * B2R (b k)).
Variable k1 : nat.
Hypothesis K1 : (k1 < 4)%nat.
Hypothesis Z : forall k, (k < 4)%nat -> k <> k1 -> pr k = 0.
Hypothesis S1 : small32 (rnd32 (pr k1)).
Definition one (m : nat -> bool) : R := if m k1 then rnd32 (pr k1) else 0.
Lemma one_is v : dot4 a b v -> is_finite v = true /\ B2R v = rnd32 (pr k1).
Proof.
  intros H. apply (dot4_is a b Fa Fb one) in H; [exact H| | | | | |]; unfold one; clear H.
  - intros m m' E. rewrite !E by assumption. reflexivity.
  - reflexivity.
  - intros k Hk. destruct (Nat.eqb_spec k k1) as [->|N1]; [reflexivity|]. rewrite Z by assumption. apply rnd32_id, fmt32_0.
  - intros m1 m2 D. pose proof (D k1 K1) as D1. destruct (m1 k1), (m2 k1); try discriminate; cbn [orb]; rewrite ?Rplus_0_l, ?Rplus_0_r; apply rnd32_id; auto using fmt32_rnd, fmt32_0.
  - intros k m Hk Hm. destruct (Nat.eqb_spec k k1) as [->|N1]; cbn [orb].
    + rewrite Hm, Rplus_0_r. reflexivity.
    + rewrite Z by assumption. rewrite Rplus_0_l. destruct (m k1); apply rnd32_id; auto using fmt32_rnd, fmt32_0.
  - intros m. destruct (m k1); auto using small_0.
Qed.
End One.

(** *** conversions *)
Lemma to32_correct (x : b64) : is_finite x = true -> small32 (rnd32 (B2R x)) -> is_finite (to32 x) = true /\ B2R (to32 x) = rnd32 (B2R x).
Proof.
  intros F S. destruct x as [s|s| |s m e B]; try discriminate; [split; [reflexivity|symmetry; apply rnd32_id, fmt32_0]|]. cbn [to32].
  pose proof (binary_normalize_correct 24 128 p24 l128 mode_NE (cond_Zopp s (Zpos m)) e s) as H. cbv zeta in H. change (round_mode mode_NE) with ZnearestE in H.
  change (F2R {| Fnum := cond_Zopp s (Zpos m); Fexp := e |}) with (B2R (B754_finite (prec := 53) (emax := 1024) s m e B)) in H.
  fold (rnd32 (B2R (B754_finite (prec := 53) (emax := 1024) s m e B))) in H. rewrite Rlt_bool_true in H by exact S. destruct H as (H1 & H2 & _). split; assumption.
Qed.
Lemma to32_small (x : b64) : is_finite (to32 x) = true -> is_finite x = true /\ small32 (rnd32 (B2R x)).
Proof.
  intros F. destruct x as [s|s| |s m e B]; try discriminate; [split; [reflexivity|cbn; rewrite (rnd32_id 0 fmt32_0); apply small_0]|]. split; [reflexivity|]. cbn [to32] in F.
  pose proof (binary_normalize_correct 24 128 p24 l128 mode_NE (cond_Zopp s (Zpos m)) e s) as H. cbv zeta in H. change (round_mode mode_NE) with ZnearestE in H.
  change (F2R {| Fnum := cond_Zopp s (Zpos m); Fexp := e |}) with (B2R (B754_finite (prec := 53) (emax := 1024) s m e B)) in H.
  fold (rnd32 (B2R (B754_finite (prec := 53) (emax := 1024) s m e B))) in H. unfold small32. destruct (Rlt_bool_spec (Rabs (rnd32 (B2R (B754_finite (prec := 53) (emax := 1024) s m e B)))) (bpow radix2 128)) as [L|L]; [exact L|].
  exfalso. destruct (binary_normalize 24 128 p24 l128 mode_NE (cond_Zopp s (Zpos m)) e s); try discriminate.
Qed.
Lemma rnd32_opp x : rnd32 (- x) = - rnd32 x. Proof. apply round_NE_opp. Qed.
Lemma to32_opp (x : b64) : is_finite (to32 x) = true -> is_finite (to32 (Bopp x)) = true /\ B2R (to32 (Bopp x)) = - B2R (to32 x).
Proof.
  intros F. destruct (to32_small x F) as (Fx & S). destruct (to32_correct x Fx S) as (_ & E). destruct (to32_correct (Bopp x)) as (A & B).
  - rewrite is_finite_Bopp. exact Fx.
  - rewrite B2R_Bopp, rnd32_opp. unfold small32. rewrite Rabs_Ropp. exact S.
  - split; [exact A|]. rewrite B, B2R_Bopp, rnd32_opp, E. reflexivity.
Qed.
Lemma one32_1 : B2R one32 = 1. Proof. cbn. unfold F2R. cbn. lra. Qed.
Lemma one64_1 : B2R one64 = 1. Proof. cbn. unfold F2R. cbn. lra. Qed.
Lemma zero32_0 : B2R zero32 = 0. Proof. reflexivity. Qed.
Lemma fmt_B2R (x : b32) : fmt32 (B2R x). Proof. apply generic_format_B2R. Qed.
