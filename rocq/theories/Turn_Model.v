(** vrml/vrml97/_transformmatrix.py 9-51: rotMatrix in floating point.

    The components given are Python floats or numpy float64 numbers, such as
    items of an MFRotation field; those of an SFRotation field are float32, see
    Turn32_Model.  The array is made without a type, so its items are binary64,
    and so are all numbers on the way.  Simplification: a division by zero gives
    an infinity or a nan, as for numpy numbers; Python floats would raise
    ZeroDivisionError there.

    What the C library computes for [a % TWOPI], [v ** .5], cos and sin is not
    specified to the last bit: these are parameters. *)
From Coq Require Import Reals ZArith List Bool Permutation.
From Flocq Require Import Core.Core IEEE754.BinarySingleNaN.
From Verif Require Import Rounded_Model.
Import ListNotations.
Local Open Scope list_scope.

(** arithmetic of binary64, to nearest, ties to even *)
Definition mul64 (a b : b64) : b64 := Bmult (prec_gt_0_ := p53) (prec_lt_emax_ := l1024) mode_NE a b.
Definition add64 (a b : b64) : b64 := Bplus (prec_gt_0_ := p53) (prec_lt_emax_ := l1024) mode_NE a b.
Definition sub64 (a b : b64) : b64 := Bminus (prec_gt_0_ := p53) (prec_lt_emax_ := l1024) mode_NE a b.
Definition fma64 (a b c : b64) : b64 := Bfma (prec_gt_0_ := p53) (prec_lt_emax_ := l1024) mode_NE a b c.
(** truth of a number *)
Definition nonzero64 (x : b64) : bool := match x with B754_zero _ => false | _ => true end.

(** a 4x4 array of float64 *)
Definition mat64 : Set := nat -> nat -> b64.
Definition at64 (r : list (list b64)) (i j : nat) : b64 := nth j (nth i r []) zero64.

Declare Scope b64_scope.
Delimit Scope b64_scope with b64.
Infix "*" := mul64 : b64_scope.
Infix "+" := add64 : b64_scope.
Infix "-" := sub64 : b64_scope.

(** the array at 37-42 and 43-48 *)
Definition rot_items (x y z c s t : b64) : mat64 :=
  (at64 [[t*x*x+c;   t*x*y+s*z; t*x*z-s*y; zero64];
         [t*x*y-s*z; t*y*y+c;   t*y*z+s*x; zero64];
         [t*x*z+s*y; t*y*z-s*x; t*z*z+c;   zero64];
         [zero64;    zero64;    zero64;    one64]])%b64.

Section Library.
(** [a % TWOPI], [v ** .5], numpy.cos and numpy.sin *)
Variables turns pow_half cos_ sin_ : b64 -> b64.
(** rotMatrix, 9-51 *)
Definition rotMatrix64 (x y z a : b64) : option (mat64 * mat64) :=
  if nonzero64 (turns a) then
    let squared := (x * x + y * y + z * z)%b64 in
    let '(x, y, z) :=
      if eq64 squared one64 then (x, y, z)
      else let length := pow_half squared in (div64 x length, div64 y length, div64 z length) in
    let c := cos_ a in let c1 := cos_ (Bopp a) in
    let s := sin_ a in let s1 := sin_ (Bopp a) in
    let t := sub64 one64 c in
    Some (rot_items x y z c s t, rot_items x y z c1 s1 t)
  else None.
End Library.

(** numpy.dot( a, b ), one item of the result, in any order of the additions
    and with or without fused multiply-add *)
Inductive partial64 (a b : nat -> b64) : list nat -> b64 -> Prop :=
| p6_none : partial64 a b [] zero64
| p6_mul k : partial64 a b [k] (mul64 (a k) (b k))
| p6_add l1 l2 u v : partial64 a b l1 u -> partial64 a b l2 v -> partial64 a b (l1 ++ l2) (add64 u v)
| p6_fma k l u : partial64 a b l u -> partial64 a b (k :: l) (fma64 (a k) (b k) u).
Definition product64 (A B : mat64) (i j : nat) (v : b64) : Prop :=
  exists l, Permutation l [0; 1; 2; 3] /\ partial64 (A i) (fun k => B k j) l v.
