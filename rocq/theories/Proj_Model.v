(** vrml/vrml97/_transformmatrix.py 98-133: perspectiveMatrix and orthoMatrix in
    floating point, as they are stored in float32 arrays.

    The arguments are Python floats.  tan is numpy's and gives a numpy float64,
    so divisions by it, or by what is computed from it, give an infinity or a nan
    where Python floats raise ZeroDivisionError; what the library computes for it
    is a parameter.  [None] is ZeroDivisionError. *)
From Coq Require Import Reals ZArith List Bool.
From Flocq Require Import Core.Core IEEE754.BinarySingleNaN.
From Verif Require Import Rounded_Model Turn_Model.
Import ListNotations.
Local Open Scope list_scope.

(** the literals 2 and 2.0, and -1 as an item *)
Definition two64 : b64 := @B754_finite 53 1024 false 4503599627370496 (-51) eq_refl.
Definition minus_one32 : b32 := Bopp one32.

Section Library.
Variable tan_ : b64 -> b64.
(** perspectiveMatrix, 98-119 *)
Definition perspective32 (fovy aspect zNear zFar : b64) (inverse : bool) : option mat :=
  let f := div64 one64 (tan_ (div64 fovy two64)) in
  let zDelta := sub64 zNear zFar in
  let both := mul64 (mul64 two64 zFar) zNear in
  if inverse then
    if nonzero64 both then
      Some (at4 [[to32 (div64 aspect f); O; O; O];
                 [O; to32 (div64 one64 (or_small f)); O; O];
                 [O; O; O; to32 (div64 zDelta both)];
                 [O; O; minus_one32; to32 (div64 (add64 zFar zNear) both)]])
    else None
  else if nonzero64 zDelta then
      Some (at4 [[to32 (div64 f aspect); O; O; O];
                 [O; to32 f; O; O];
                 [O; O; to32 (div64 (add64 zFar zNear) zDelta); minus_one32];
                 [O; O; to32 (div64 both zDelta); O]])
    else None.
End Library.

(** orthoMatrix, 120-133 *)
Definition ortho32 (left right bottom top zNear zFar : b64) : option mat :=
  let w := sub64 right left in
  let h := sub64 top bottom in
  let d := sub64 zFar zNear in
  if nonzero64 w && nonzero64 h && nonzero64 d then
    let tx := div64 (Bopp (add64 right left)) w in
    let ty := div64 (Bopp (add64 top bottom)) h in
    let tz := div64 (Bopp (add64 zFar zNear)) d in
    Some (at4 [[to32 (div64 two64 w); O; O; to32 tx];
               [O; to32 (div64 two64 h); O; to32 ty];
               [O; O; to32 (div64 (Bopp two64) d); to32 tz];
               [O; O; O; I]])
  else None.
