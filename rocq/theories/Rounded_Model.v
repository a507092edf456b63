(** vrml/vrml97/_transformmatrix.py: transMatrix and scaleMatrix in floating
    point, as they are stored in float32 arrays.

    A Python float is a binary64, an item of an array of type 'f' a binary32;
    both are those of Flocq.  Simplification: the components given are Python
    floats. *)
From Coq Require Import Reals ZArith List Bool Permutation.
From Flocq Require Import Core.Core IEEE754.BinarySingleNaN.
Import ListNotations.
Local Open Scope list_scope.
Definition b64 : Set := binary_float 53 1024.
Definition b32 : Set := binary_float 24 128.
Definition p24 : Prec_gt_0 24 := eq_refl.
Definition l128 : Prec_lt_emax 24 128 := eq_refl.
Definition p53 : Prec_gt_0 53 := eq_refl.
Definition l1024 : Prec_lt_emax 53 1024 := eq_refl.

(** array( ..., 'f' ): a C cast to float, to nearest, ties to even *)
Definition to32 (x : b64) : b32 :=
  match x with
  | B754_finite s m e _ => binary_normalize 24 128 p24 l128 mode_NE (cond_Zopp s (Zpos m)) e s
  | B754_zero s => B754_zero s
  | B754_infinity s => B754_infinity s
  | B754_nan => B754_nan
  end.
(** arithmetic on items of float32 arrays *)
Definition mul32 (a b : b32) : b32 := Bmult (prec_gt_0_ := p24) (prec_lt_emax_ := l128) mode_NE a b.
Definition add32 (a b : b32) : b32 := Bplus (prec_gt_0_ := p24) (prec_lt_emax_ := l128) mode_NE a b.
Definition fma32 (a b c : b32) : b32 := Bfma (prec_gt_0_ := p24) (prec_lt_emax_ := l128) mode_NE a b c.
(** arithmetic on Python floats *)
Definition div64 (a b : b64) : b64 := Bdiv (prec_gt_0_ := p53) (prec_lt_emax_ := l1024) mode_NE a b.
Definition one64 : b64 := @B754_finite 53 1024 false 4503599627370496 (-52) eq_refl.
Definition zero64 : b64 := B754_zero false.
Definition one32 : b32 := @B754_finite 24 128 false 8388608 (-23) eq_refl.
Definition zero32 : b32 := B754_zero false.
(** 7-8 VERY_SMALL = 1e-300 *)
Definition very_small : b64 := @B754_finite 53 1024 false 6032057205060441 (-1049) eq_refl.
(** x or VERY_SMALL *)
Definition or_small (x : b64) : b64 := match x with B754_zero _ => very_small | _ => x end.
(** x == y *)
Definition eq64 (x y : b64) : bool := Beqb x y.

(** a 4x4 array: the item in row i and column j *)
Definition mat : Set := nat -> nat -> b32.
Definition at4 (r : list (list b32)) (i j : nat) : b32 := nth j (nth i r []) zero32.
(** the integers 0 and 1 among the items *)
Notation O := zero32.
Notation I := one32.
(** transMatrix, 78-96 *)
Definition transMatrix (x y z : b64) : option (mat * mat) :=
  if eq64 x y && eq64 y z && eq64 z zero64 then None
  else Some (at4 [[I; O; O; O]; [O; I; O; O]; [O; O; I; O]; [to32 x; to32 y; to32 z; I]],
             at4 [[I; O; O; O]; [O; I; O; O]; [O; O; I; O]; [to32 (Bopp x); to32 (Bopp y); to32 (Bopp z); I]]).
(** scaleMatrix, 53-76 *)
Definition scaleMatrix (x y z : b64) : option (mat * mat) :=
  if eq64 x y && eq64 y z && eq64 z one64 then None
  else Some (at4 [[to32 x; O; O; O]; [O; to32 y; O; O]; [O; O; to32 z; O]; [O; O; O; I]],
             at4 [[to32 (div64 one64 (or_small x)); O; O; O]; [O; to32 (div64 one64 (or_small y)); O; O];
                  [O; O; to32 (div64 one64 (or_small z)); O]; [O; O; O; I]]).

(** numpy.dot( a, b ), one item of the result: the sum of the products
    a_k * b_k.  The order of the additions and the use of fused
    multiply-add are up to the library that numpy is linked to: any. *)
Inductive partial (a b : nat -> b32) : list nat -> b32 -> Prop :=
| pt_none : partial a b [] zero32
| pt_mul k : partial a b [k] (mul32 (a k) (b k))
| pt_add l1 l2 u v : partial a b l1 u -> partial a b l2 v -> partial a b (l1 ++ l2) (add32 u v)
| pt_fma k l u : partial a b l u -> partial a b (k :: l) (fma32 (a k) (b k) u).
Definition dot4 (a b : nat -> b32) (v : b32) : Prop := exists l, Permutation l [0; 1; 2; 3] /\ partial a b l v.
(** an item of the product of two matrices *)
Definition product (A B : mat) (i j : nat) (v : b32) : Prop := dot4 (A i) (fun k => B k j) v.
(** an item of the product of a row vector and a matrix *)
Definition moved (p : nat -> b32) (A : mat) (j : nat) (v : b32) : Prop := dot4 p (fun k => A k j) v.
