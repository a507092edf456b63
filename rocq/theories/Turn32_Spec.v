(** As Turn_Spec, for the items of an SFRotation field. *)
From Coq Require Import Reals ZArith List Bool.
From Flocq Require Import Core.Core IEEE754.BinarySingleNaN.
From Verif Require Import Rounded_Model Turn_Model Turn_Spec Turn32_Model Matrix_Model Matrix_Spec.
Local Open Scope R_scope.

(** the rotation with these components *)
Definition rotation_of32 (x y z a : b32) : vec4 := (B2R x, B2R y, B2R z, B2R a).
(** all four are numbers, and the axis is neither huge nor tiny *)
Definition ordinary32 (x y z a : b32) : Prop :=
  (is_finite x = true /\ is_finite y = true /\ is_finite z = true /\ is_finite a = true) /\
  bpow radix2 (-50) <= norm3 (B2R x, B2R y, B2R z) <= bpow radix2 50.
(** [f] computes [F] to one unit in the last place of 1 *)
Definition accurate32 (f : b32 -> b32) (F : R -> R) : Prop :=
  forall v, is_finite v = true -> is_finite (f v) = true /\ Rabs (B2R (f v) - F (B2R v)) <= bpow radix2 (-23).
(** [f] computes square roots to one unit in their last place *)
Definition accurate_root32 (f : b32 -> b32) : Prop :=
  forall v, is_finite v = true -> 0 < B2R v ->
  is_finite (f v) = true /\ Rabs (B2R (f v) - sqrt (B2R v)) <= bpow radix2 (-23) * sqrt (B2R v).
