(** vrml/vrml97/_transformmatrix.py 9-51: rotMatrix of the value of an SFRotation
    field, an array of float32 (vrml/fieldtypes.py 714-746: _SFVec32).

    As Turn_Model, with all numbers in binary32: a float32 combined with a Python
    number is a float32 (numpy 2).  The array also has the Python integers 0 and
    1 among its items, so it is one of float64, and the items are converted. *)
From Coq Require Import Reals ZArith List Bool Permutation.
From Flocq Require Import Core.Core IEEE754.BinarySingleNaN.
From Verif Require Import Rounded_Model Turn_Model.
Import ListNotations.
Local Open Scope list_scope.

(** arithmetic of binary32, to nearest, ties to even *)
Definition sub32 (a b : b32) : b32 := Bminus (prec_gt_0_ := p24) (prec_lt_emax_ := l128) mode_NE a b.
Definition div32 (a b : b32) : b32 := Bdiv (prec_gt_0_ := p24) (prec_lt_emax_ := l128) mode_NE a b.
(** x == y *)
Definition eq32 (x y : b32) : bool := Beqb x y.
(** truth of a number *)
Definition nonzero32 (x : b32) : bool := match x with B754_zero _ => false | _ => true end.

(** a 4x4 array of float32 numbers *)
Definition mat32 : Set := nat -> nat -> b32.
Definition at32 (r : list (list b32)) (i j : nat) : b32 := nth j (nth i r []) zero32.

Declare Scope b32_scope.
Delimit Scope b32_scope with b32.
Infix "*" := mul32 : b32_scope.
Infix "+" := add32 : b32_scope.
Infix "-" := sub32 : b32_scope.

(** the array at 37-42 and 43-48 *)
Definition rot_items32 (x y z c s t : b32) : mat32 :=
  (at32 [[t*x*x+c;   t*x*y+s*z; t*x*z-s*y; zero32];
         [t*x*y-s*z; t*y*y+c;   t*y*z+s*x; zero32];
         [t*x*z+s*y; t*y*z-s*x; t*z*z+c;   zero32];
         [zero32;    zero32;    zero32;    one32]])%b32.

Section Library32.
(** [a % TWOPI], [v ** .5], numpy.cos and numpy.sin *)
Variables turns pow_half cos_ sin_ : b32 -> b32.
(** rotMatrix, 9-51 *)
Definition rotMatrix32 (x y z a : b32) : option (mat32 * mat32) :=
  if nonzero32 (turns a) then
    let squared := (x * x + y * y + z * z)%b32 in
    let '(x, y, z) :=
      if eq32 squared one32 then (x, y, z)
      else let length := pow_half squared in (div32 x length, div32 y length, div32 z length) in
    let c := cos_ a in let c1 := cos_ (Bopp a) in
    let s := sin_ a in let s1 := sin_ (Bopp a) in
    let t := sub32 one32 c in
    Some (rot_items32 x y z c s t, rot_items32 x y z c1 s1 t)
  else None.
End Library32.

(** numpy.dot( a, b ), one item of the result, in any order of the additions
    and with or without fused multiply-add *)
Inductive partial32 (a b : nat -> b32) : list nat -> b32 -> Prop :=
| p3_none : partial32 a b [] zero32
| p3_mul k : partial32 a b [k] (mul32 (a k) (b k))
| p3_add l1 l2 u v : partial32 a b l1 u -> partial32 a b l2 v -> partial32 a b (l1 ++ l2) (add32 u v)
| p3_fma k l u : partial32 a b l u -> partial32 a b (k :: l) (fma32 (a k) (b k) u).
Definition product32 (A B : mat32) (i j : nat) (v : b32) : Prop :=
  exists l, Permutation l [0; 1; 2; 3] /\ partial32 (A i) (fun k => B k j) l v.

(** a float32 as a float64, exactly *)
Definition widen (x : b32) : b64 :=
  match x with
  | B754_finite s m e _ => binary_normalize 53 1024 p53 l1024 mode_NE (cond_Zopp s (Zpos m)) e s
  | B754_zero s => B754_zero s
  | B754_infinity s => B754_infinity s
  | B754_nan => B754_nan
  end.
(** the array made of these numbers *)
Definition widened (m : mat32) : mat64 := fun i j => widen (m i j).
