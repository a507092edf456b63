(** The matrices of gluPerspective and glOrtho over the reals, and what is asked
    of the arguments. *)
From Coq Require Import Reals ZArith List Bool.
From Flocq Require Import Core.Core IEEE754.BinarySingleNaN.
From Verif Require Import Rounded_Model Proj_Model.
Import ListNotations.
Local Open Scope list_scope.
Local Open Scope R_scope.

Definition at_R (r : list (list R)) (i j : nat) : R := nth j (nth i r []) 0.

(** gluPerspective (for row vectors) and its inverse; [t] is the tangent of half
    the angle *)
Definition persp (t a n f : R) : nat -> nat -> R :=
  at_R [[/ t / a; 0; 0; 0]; [0; / t; 0; 0]; [0; 0; (f + n) / (n - f); -1]; [0; 0; 2 * f * n / (n - f); 0]].
Definition persp_inv (t a n f : R) : nat -> nat -> R :=
  at_R [[a * t; 0; 0; 0]; [0; t; 0; 0]; [0; 0; 0; (n - f) / (2 * f * n)]; [0; 0; -1; (f + n) / (2 * f * n)]].
(** glOrtho (for column vectors) *)
Definition orth (l r b t n f : R) : nat -> nat -> R :=
  at_R [[2 / (r - l); 0; 0; - (r + l) / (r - l)]; [0; 2 / (t - b); 0; - (t + b) / (t - b)];
        [0; 0; -2 / (f - n); - (f + n) / (f - n)]; [0; 0; 0; 1]].

(** 2^-30 <= |x| <= 2^30 *)
Definition usual (x : R) : Prop := bpow radix2 (-30) <= Rabs x <= bpow radix2 30.
(** ordinary parameters of a perspective *)
Definition viewing (fovy aspect n f : b64) : Prop :=
  (is_finite fovy = true /\ is_finite aspect = true /\ is_finite n = true /\ is_finite f = true) /\
  (usual (B2R fovy) /\ usual (tan (B2R fovy / 2)) /\ usual (B2R aspect)) /\
  (0 < B2R n /\ usual (B2R n) /\ 0 < B2R f /\ usual (B2R f) /\ usual (B2R n - B2R f)).
(** [tan_] is accurate to one unit in the last place at this angle *)
Definition accurate_tan (tan_ : b64 -> b64) (x : R) : Prop :=
  forall v, is_finite v = true -> B2R v = x ->
  is_finite (tan_ v) = true /\ Rabs (B2R (tan_ v) - tan x) <= bpow radix2 (-52) * Rabs (tan x).
(** ordinary limits of a box: an interval that is neither huge nor tiny, and
    whose centre is at the origin or not extremely close to it *)
Definition interval (lo hi : b64) : Prop :=
  is_finite lo = true /\ is_finite hi = true /\ usual (B2R hi - B2R lo) /\
  (B2R hi + B2R lo = 0 \/ usual (B2R hi + B2R lo)).

(** an item is its real value, up to a relative error of [e] *)
Definition within (e : R) (m : mat) (x : nat -> nat -> R) : Prop :=
  forall i j, is_finite (m i j) = true /\ Rabs (B2R (m i j) - x i j) <= e * Rabs (x i j).

Definition same (i j : nat) : R := if Nat.eqb i j then 1 else 0.
(** how far the items of the products may be off, in units *)
Definition slack (n f : R) (i j : nat) : R :=
  match i, j with 2%nat, 3%nat => (f + n) / (f * n) | _, _ => same i j end.
Definition slack' (n f : R) (i j : nat) : R :=
  match i, j with 3%nat, 2%nat => 2 * (f + n) / Rabs (n - f) | _, _ => same i j end.
