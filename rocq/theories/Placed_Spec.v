(** Where Transforms take points (Matrix_Spec has the Transform of the VRML97
    standard), and the sizes by which the error is measured. *)
From Coq Require Import Reals ZArith List Bool.
From Flocq Require Import Core.Core IEEE754.BinarySingleNaN.
From Verif Require Import Rounded_Model Turn_Model Turn_Spec Turn32_Model Turn32_Spec Matrix_Model Matrix_Spec Combined_Model Combined_Spec Placed_Model.
Import ListNotations.
Local Open Scope list_scope.
Local Open Scope R_scope.

(** the values of the fields, as numbers *)
Definition vec_of (v : vec32) : vec3 := let '(x, y, z) := v in (B2R x, B2R y, B2R z).
Definition rot_of (r : rot32) : vec4 := let '(x, y, z, a) := r in (B2R x, B2R y, B2R z, B2R a).
Definition params_of (n : node) : params :=
  Params (vec_of (n_translation n)) (vec_of (n_center n)) (rot_of (n_rotation n)) (vec_of (n_scale n)) (rot_of (n_scaleOrientation n)).

Definition fin3 (v : vec32) : Prop := let '(x, y, z) := v in is_finite x = true /\ is_finite y = true /\ is_finite z = true.
(** the axis is neither huge nor tiny, and only the angle 0 counts as no turn *)
Definition good_rotation (turns : b32 -> b32) (r : rot32) : Prop :=
  let '(x, y, z, a) := r in ordinary32 x y z a /\ (nonzero32 (turns a) = false -> B2R a = 0).
Definition good_node (turns : b32 -> b32) (n : node) : Prop :=
  fin3 (n_translation n) /\ fin3 (n_center n) /\ fin3 (n_scale n) /\ good_rotation turns (n_rotation n) /\ good_rotation turns (n_scaleOrientation n).
(** the scale can be undone *)
Definition can_undo (n : node) : Prop :=
  let '(x, y, z) := vec_of (n_scale n) in
  bpow radix2 (-100) <= Rabs x <= bpow radix2 100 /\ bpow radix2 (-100) <= Rabs y <= bpow radix2 100 /\ bpow radix2 (-100) <= Rabs z <= bpow radix2 100.

Definition len1 (v : vec3) : R := let '(x, y, z) := v in Rabs x + Rabs y + Rabs z.
Definition big (v : vec3) : R := let '(x, y, z) := v in Rmax (Rmax 1 (Rabs x)) (Rmax (Rabs y) (Rabs z)).
Definition inv3 (v : vec3) : vec3 := let '(x, y, z) := v in (/ x, / y, / z).
(** how much a Transform may enlarge an error, and its inverse *)
Definition weight (d : params) : R :=
  27 * (1 + len1 (p_translation d)) * (1 + len1 (p_center d)) * (1 + len1 (p_center d)) * big (p_scale d).
Definition weight' (d : params) : R :=
  27 * (1 + len1 (p_translation d)) * (1 + len1 (p_center d)) * (1 + len1 (p_center d)) * big (inv3 (p_scale d)).
Definition weights (w : params -> R) (ds : list params) : R := fold_right (fun d acc => w d * acc) 1 ds.

(** the point with these coordinates, as the array [x, y, z, 1] *)
Definition homogenous (p : b64 * b64 * b64) (k : nat) : b64 :=
  let '(x, y, z) := p in match k with 0%nat => x | 1%nat => y | 2%nat => z | _ => one64 end.
Definition point_of (p : b64 * b64 * b64) : vec3 := let '(x, y, z) := p in (B2R x, B2R y, B2R z).
Definition fin3' (p : b64 * b64 * b64) : Prop := let '(x, y, z) := p in is_finite x = true /\ is_finite y = true /\ is_finite z = true.
