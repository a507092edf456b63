(** Transforms in floating point, from the values of their fields to the matrix
    of a path: vrml/vrml97/basenodes.py 575-614 (Transform.localMatrices, all of
    its flags true), vrml/vrml97/transformmatrix.py 135-152 (localMatrices) and
    _transformmatrix.py 53-96 (scaleMatrix and transMatrix) for the numbers of
    SFVec3f fields, which are float32 (vrml/fieldtypes.py 714-746: _SFVec32).

    Simplification: the fields have been set (an unset field is None here and has
    no part in the matrix; the defaults have none either). *)
From Coq Require Import Reals ZArith List Bool Permutation.
From Flocq Require Import Core.Core IEEE754.BinarySingleNaN.
From Verif Require Import Rounded_Model Turn_Model Turn32_Model Combined_Model.
Import ListNotations.
Local Open Scope list_scope.

(** the values of the fields of a Transform *)
Definition vec32 : Set := (b32 * b32 * b32)%type.
Definition rot32 : Set := (b32 * b32 * b32 * b32)%type.
Record node := { n_translation : vec32; n_center : vec32; n_rotation : rot32; n_scale : vec32; n_scaleOrientation : rot32 }.

(** transMatrix, _transformmatrix.py 78-96 *)
Definition trans32 (v : vec32) : option fmat * option fmat :=
  let '(x, y, z) := v in
  if eq32 x y && eq32 y z && eq32 z zero32 then (None, None)
  else (Some (F32 (at4 [[I; O; O; O]; [O; I; O; O]; [O; O; I; O]; [x; y; z; I]])),
        Some (F32 (at4 [[I; O; O; O]; [O; I; O; O]; [O; O; I; O]; [Bopp x; Bopp y; Bopp z; I]]))).
(** 1.0/(x or VERY_SMALL), _transformmatrix.py 71-73: of float32 (numpy 2) unless
    x is 0, where it is the Python float 1.0/1e-300, too large for a float32 *)
Definition inv32 (x : b32) : b32 := if nonzero32 x then div32 one32 x else B754_infinity false.
(** scaleMatrix, _transformmatrix.py 53-76 *)
Definition scale32 (v : vec32) : option fmat * option fmat :=
  let '(x, y, z) := v in
  if eq32 x y && eq32 y z && eq32 z one32 then (None, None)
  else (Some (F32 (at4 [[x; O; O; O]; [O; y; O; O]; [O; O; z; O]; [O; O; O; I]])),
        Some (F32 (at4 [[inv32 x; O; O; O]; [O; inv32 y; O; O]; [O; O; inv32 z; O]; [O; O; O; I]]))).
Section Library.
(** as in Turn32_Model *)
Variables turns pow_half cos_ sin_ : b32 -> b32.
(** rotMatrix, _transformmatrix.py 9-51 *)
Definition turn32 (r : rot32) : option fmat * option fmat :=
  let '(x, y, z, a) := r in
  match rotMatrix32 turns pow_half cos_ sin_ x y z a with
  | None => (None, None)
  | Some (m, m') => (Some (F64 (widened m)), Some (F64 (widened m')))
  end.
(** transformmatrix.py 144-148 *)
Definition parts_of (n : node) : parts :=
  {| T := fst (trans32 (n_translation n)); T1 := snd (trans32 (n_translation n));
     C := fst (trans32 (n_center n)); C1 := snd (trans32 (n_center n));
     Ro := fst (turn32 (n_rotation n)); Ro1 := snd (turn32 (n_rotation n));
     SO := fst (turn32 (n_scaleOrientation n)); SO1 := snd (turn32 (n_scaleOrientation n));
     Sc := fst (scale32 (n_scale n)); Sc1 := snd (scale32 (n_scale n)) |}.
(** transformMatrix( inverse ) of a path with these Transforms *)
Definition node_matrix (path : list node) (inverse : bool) (r : fmat) : Prop :=
  path_matrix (map parts_of path) inverse r.
End Library.
