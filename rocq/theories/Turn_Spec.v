(** What rotMatrix should compute, up to rounding.  [rotate] and [unrotate] are
    the rotations of Matrix_Spec, Rodrigues' formula over the reals. *)
From Coq Require Import Reals ZArith List Bool.
From Flocq Require Import Core.Core IEEE754.BinarySingleNaN.
From Verif Require Import Rounded_Model Turn_Model Matrix_Model Matrix_Spec.
Local Open Scope R_scope.

Definition unit3 (i : nat) : vec3 := match i with 0%nat => (1, 0, 0) | 1%nat => (0, 1, 0) | _ => (0, 0, 1) end.
Definition comp3 (p : vec3) (j : nat) : R := let '(a, b, c) := p in match j with 0%nat => a | 1%nat => b | _ => c end.
Definition same (i j : nat) : R := if Nat.eqb i j then 1 else 0.
(** the matrix whose rows are the images of the unit vectors *)
Definition rows (f : vec3 -> vec3) (i j : nat) : R :=
  if Nat.ltb i 3 && Nat.ltb j 3 then comp3 (f (unit3 i)) j else same i j.

(** the rotation with these components *)
Definition rotation_of (x y z a : b64) : vec4 := (B2R x, B2R y, B2R z, B2R a).
(** all four are numbers, and the axis is neither huge nor tiny *)
Definition ordinary (x y z a : b64) : Prop :=
  (is_finite x = true /\ is_finite y = true /\ is_finite z = true /\ is_finite a = true) /\
  bpow radix2 (-500) <= norm3 (B2R x, B2R y, B2R z) <= bpow radix2 500.
(** [f] computes [F] to one unit in the last place of 1 *)
Definition accurate (f : b64 -> b64) (F : R -> R) : Prop :=
  forall v, is_finite v = true -> is_finite (f v) = true /\ Rabs (B2R (f v) - F (B2R v)) <= bpow radix2 (-52).
(** [f] computes square roots to one unit in their last place *)
Definition accurate_root (f : b64 -> b64) : Prop :=
  forall v, is_finite v = true -> 0 < B2R v ->
  is_finite (f v) = true /\ Rabs (B2R (f v) - sqrt (B2R v)) <= bpow radix2 (-52) * sqrt (B2R v).
