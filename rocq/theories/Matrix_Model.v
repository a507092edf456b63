(** Model of the matrix functions, over the real numbers:
    vrml/vrml97/_transformmatrix.py (all), vrml/vrml97/transformmatrix.py 53-193,
    vrml/vrml97/_transformmatrix_accel.py and accelerate/src/tmatrixaccel.pyx.

    Simplification: numbers are reals, so the rounding of float32/float64
    arithmetic is not modelled; a division by zero (ZeroDivisionError for Python
    numbers, nan/inf entries for numpy numbers) is the result [None] of type
    [option mat] ("no finite matrix").  The Python value None (identity) is
    the outer [None] of [option (option mat)]. *)
From Coq Require Import Reals List Bool.
Local Open Scope R_scope.

Definition vec3 := (R * R * R)%type.
Definition vec4 := (R * R * R * R)%type.
(** a 4x4 array, as its four rows *)
Record mat := Mat { row0 : vec4; row1 : vec4; row2 : vec4; row3 : vec4 }.

(** numpy dot of a 4-vector and a 4x4 array, and of two 4x4 arrays *)
Definition vdot (p : vec4) (m : mat) : vec4 :=
  let '(x, y, z, w) := p in
  let '(a0, a1, a2, a3) := row0 m in
  let '(b0, b1, b2, b3) := row1 m in
  let '(c0, c1, c2, c3) := row2 m in
  let '(d0, d1, d2, d3) := row3 m in
  (x * a0 + y * b0 + z * c0 + w * d0, x * a1 + y * b1 + z * c1 + w * d1,
   x * a2 + y * b2 + z * c2 + w * d2, x * a3 + y * b3 + z * c3 + w * d3).
Definition mdot (a b : mat) : mat :=
  Mat (vdot (row0 a) b) (vdot (row1 a) b) (vdot (row2 a) b) (vdot (row3 a) b).
(** identity(4) *)
Definition ident4 : mat := Mat (1, 0, 0, 0) (0, 1, 0, 0) (0, 0, 1, 0) (0, 0, 0, 1).

(** a % TWOPI, _transformmatrix.py 5, 24 *)
Definition twopi : R := 2 * PI.
Definition fmod (a b : R) : R := a - b * IZR (Int_part (a / b)).
(** 1e-300, _transformmatrix.py 7 *)
Definition very_small : R := / 10 ^ 300.
(** Python's [x or y] on numbers *)
Definition or_else (x y : R) : R := if Req_EM_T x 0 then y else x.
Definition matx := option mat.              (* None: nan entries or ZeroDivisionError *)
(** a division whose result is used as matrix entry *)
Definition div_ok (y : R) : bool := if Req_EM_T y 0 then false else true.

(** the array built at _transformmatrix.py 37-42, from axis, cosine, sine and t *)
Definition rot_array (x y z c s t : R) : mat :=
  Mat (t*x*x+c, t*x*y+s*z, t*x*z-s*y, 0)
      (t*x*y-s*z, t*y*y+c, t*y*z+s*x, 0)
      (t*x*z+s*y, t*y*z-s*x, t*z*z+c, 0)
      (0, 0, 0, 1).

(** rotMatrix, _transformmatrix.py 9-51 *)
Definition rotMatrix (source : option vec4) : option matx * option matx :=
  match source with
  | None => (None, None)
  | Some (x, y, z, a) =>
      if Req_EM_T (fmod a twopi) 0 then (None, None)
      else
        let squared := x*x + y*y + z*z in
        let go x y z :=
          let c := cos a in let c1 := cos (-a) in
          let s := sin a in let s1 := sin (-a) in
          let t := 1 - c in
          (Some (Some (rot_array x y z c s t)), Some (Some (rot_array x y z c1 s1 t))) in
        if Req_EM_T squared 1 then go x y z
        else
          let length := sqrt squared in
          if div_ok length then go (x / length) (y / length) (z / length)
          else (Some None, Some None)
  end.

Definition diag (x y z : R) : mat := Mat (x, 0, 0, 0) (0, y, 0, 0) (0, 0, z, 0) (0, 0, 0, 1).
(** scaleMatrix, _transformmatrix.py 53-76 *)
Definition scaleMatrix (source : option vec3) : option matx * option matx :=
  match source with
  | None => (None, None)
  | Some (x, y, z) =>
      let r := (Some (Some (diag x y z)),
                Some (Some (diag (1 / or_else x very_small) (1 / or_else y very_small) (1 / or_else z very_small)))) in
      if Req_EM_T x y then if Req_EM_T y z then if Req_EM_T z 1 then (None, None) else r else r else r
  end.

Definition shift (x y z : R) : mat := Mat (1, 0, 0, 0) (0, 1, 0, 0) (0, 0, 1, 0) (x, y, z, 1).
(** transMatrix, _transformmatrix.py 78-96 *)
Definition transMatrix (source : option vec3) : option matx * option matx :=
  match source with
  | None => (None, None)
  | Some (x, y, z) =>
      let r := (Some (Some (shift x y z)), Some (Some (shift (-x) (-y) (-z)))) in
      if Req_EM_T x y then if Req_EM_T y z then if Req_EM_T z 0 then (None, None) else r else r else r
  end.

(** perspectiveMatrix, _transformmatrix.py 98-119 *)
Definition perspectiveMatrix (fovy aspect zNear zFar : R) (inverse : bool) : matx :=
  let f := 1 / tan (fovy / 2) in
  let zDelta := zNear - zFar in
  if div_ok (tan (fovy / 2)) then
    if inverse then
      if div_ok f && div_ok (2*zFar*zNear) then
        Some (Mat (aspect / f, 0, 0, 0) (0, 1 / or_else f very_small, 0, 0)
                  (0, 0, 0, zDelta / (2*zFar*zNear)) (0, 0, -1, (zFar+zNear) / (2*zFar*zNear)))
      else None
    else
      if div_ok aspect && div_ok zDelta then
        Some (Mat (f / aspect, 0, 0, 0) (0, f, 0, 0)
                  (0, 0, (zFar+zNear) / zDelta, -1) (0, 0, (2*zFar*zNear) / zDelta, 0))
      else None
  else None.

(** orthoMatrix, _transformmatrix.py 120-133 *)
Definition orthoMatrix (left right bottom top zNear zFar : R) : matx :=
  if div_ok (right - left) && div_ok (top - bottom) && div_ok (zFar - zNear) then
    let tx := - (right + left) / (right - left) in
    let ty := - (top + bottom) / (top - bottom) in
    let tz := - (zFar + zNear) / (zFar - zNear) in
    Some (Mat (2 / (right - left), 0, 0, tx) (0, 2 / (top - bottom), 0, ty)
              (0, 0, -2 / (zFar - zNear), tz) (0, 0, 0, 1))
  else None.

(** dot on possibly undefined matrices *)
Definition xdot (a b : matx) : matx :=
  match a, b with Some a, Some b => Some (mdot a b) | _, _ => None end.

(** the loop body of compressMatrices, transformmatrix.py 167-172 *)
Definition compress_step (first item : option matx) : option matx :=
  match item with
  | None => first
  | Some i => match first with None => item | Some f => Some (xdot i f) end
  end.
(** compressMatrices, transformmatrix.py 154-173 *)
Definition compressMatrices (ms : list (option matx)) : option matx :=
  match ms with
  | nil => None
  | cons first rest => List.fold_left compress_step rest first
  end.

(** what localMatrices, transformMatrices etc. compute first, transformmatrix.py 75-79 *)
Section Transform.
Variables (rotM : option vec4 -> option matx * option matx)
          (scaleM transM : option vec3 -> option matx * option matx).
Variables (translation center : option vec3) (rotation : option vec4)
          (scale : option vec3) (scaleOrientation : option vec4) (parentMatrix : option matx).

(** transformMatrix, transformmatrix.py 53-80 *)
Definition transformMatrix_with : option matx :=
  let '(T, T1) := transM translation in
  let '(C, C1) := transM center in
  let '(Ro, Ro1) := rotM rotation in
  let '(SO, SO1) := rotM scaleOrientation in
  let '(Sc, Sc1) := scaleM scale in
  compressMatrices (parentMatrix :: T :: C :: Ro :: SO :: Sc :: SO1 :: C1 :: nil).
(** itransformMatrix, transformmatrix.py 82-114 *)
Definition itransformMatrix_with : option matx :=
  let '(T, T1) := transM translation in
  let '(C, C1) := transM center in
  let '(Ro, Ro1) := rotM rotation in
  let '(SO, SO1) := rotM scaleOrientation in
  let '(Sc, Sc1) := scaleM scale in
  compressMatrices (parentMatrix :: C :: SO :: Sc1 :: SO1 :: Ro1 :: C1 :: T1 :: nil).
(** transformMatrices, transformmatrix.py 116-133 *)
Definition transformMatrices_with : option matx * option matx :=
  let '(T, T1) := transM translation in
  let '(C, C1) := transM center in
  let '(Ro, Ro1) := rotM rotation in
  let '(SO, SO1) := rotM scaleOrientation in
  let '(Sc, Sc1) := scaleM scale in
  (compressMatrices (parentMatrix :: T :: C :: Ro :: SO :: Sc :: SO1 :: C1 :: nil),
   compressMatrices (parentMatrix :: C :: SO :: Sc1 :: SO1 :: Ro1 :: C1 :: T1 :: nil)).
(** localMatrices, transformmatrix.py 135-152 *)
Definition localMatrices_with : option matx * option matx :=
  let '(T, T1) := transM translation in
  let '(C, C1) := transM center in
  let '(Ro, Ro1) := rotM rotation in
  let '(SO, SO1) := rotM scaleOrientation in
  let '(Sc, Sc1) := scaleM scale in
  (compressMatrices (T :: C :: Ro :: SO :: Sc :: SO1 :: C1 :: nil),
   compressMatrices (C :: SO :: Sc1 :: SO1 :: Ro1 :: C1 :: T1 :: nil)).
End Transform.
Definition transformMatrix := transformMatrix_with rotMatrix scaleMatrix transMatrix.
Definition itransformMatrix := itransformMatrix_with rotMatrix scaleMatrix transMatrix.
Definition transformMatrices := transformMatrices_with rotMatrix scaleMatrix transMatrix.
Definition localMatrices := localMatrices_with rotMatrix scaleMatrix transMatrix.

(** center, transformmatrix.py 176-193: [if x:] on a 4x4 array raises
    ValueError, on None it is false *)
Inductive center_result := CRaise | CPoint (p : option vec4).
Definition center_fn (translation center : option vec3) (parentMatrix : option mat) : center_result :=
  let parentMatrix := match parentMatrix with None => ident4 | Some m => m end in
  let '(T, T1) := transMatrix translation in
  let '(C, C1) := transMatrix center in
  match T, C with
  | None, None => CPoint (Some (vdot (0, 0, 0, 1) parentMatrix))
  | _, _ => CRaise
  end.

(** ** The accelerated functions *)
(** tmatrixaccel.pyx 27-56; None: multiple of 2 pi.  The float32 locals are reals here. *)
Definition acc_rot (x y z a : R) : option mat :=
  let c := cos a in let s := sin a in let t := 1 - c in
  let y := if Req_EM_T x y then if Req_EM_T y z then if Req_EM_T z 0 then 1 else y else y else y in
  let x2 := x*x in let y2 := y*y in let z2 := z*z in
  let h2 := x2 + y2 + z2 in
  let fin x y z x2 y2 z2 :=
    if Req_EM_T (fmod a twopi) 0 then None
    else Some (Mat ((x2*t)+c, y*x*t+z*s, x*z*t-y*s, 0)
                   (x*y*t-z*s, y2*t+c, y*z*t+x*s, 0)
                   (x*z*t+y*s, y*z*t-x*s, z2*t+c, 0)
                   (0, 0, 0, 1)) in
  if Req_EM_T h2 1 then fin x y z x2 y2 z2
  else
    let h := sqrt h2 in
    let x := x/h in let y := y/h in let z := z/h in
    fin x y z (x*x) (y*y) (z*z).
(** _transformmatrix_accel.py 8-25 *)
Definition acc_rotMatrix (source : option vec4) : option matx * option matx :=
  match source with
  | None => (None, None)
  | Some (x, y, z, a) =>
      if Req_EM_T (fmod a twopi) 0 then (None, None)
      else (option_map Some (acc_rot x y z a), option_map Some (acc_rot x y z (-a)))
  end.
(** tmatrixaccel.pyx 18-25, 9-16 *)
Definition acc_scale (x y z : R) : mat := Mat (x, 0, 0, 0) (0, y, 0, 0) (0, 0, z, 0) (0, 0, 0, 1).
Definition acc_trans (x y z : R) : mat := Mat (1, 0, 0, 0) (0, 1, 0, 0) (0, 0, 1, 0) (x, y, z, 1).
(** _transformmatrix_accel.py 26-44 *)
Definition acc_scaleMatrix (source : option vec3) : option matx * option matx :=
  match source with
  | None => (None, None)
  | Some (x, y, z) =>
      let r := (Some (Some (acc_scale x y z)),
                Some (Some (acc_scale (1 / or_else x very_small) (1 / or_else y very_small) (1 / or_else z very_small)))) in
      if Req_EM_T x y then if Req_EM_T y z then if Req_EM_T z 1 then (None, None) else r else r else r
  end.
(** _transformmatrix_accel.py 45-61 *)
Definition acc_transMatrix (source : option vec3) : option matx * option matx :=
  match source with
  | None => (None, None)
  | Some (x, y, z) =>
      let r := (Some (Some (acc_trans x y z)), Some (Some (acc_trans (-x) (-y) (-z)))) in
      if Req_EM_T x y then if Req_EM_T y z then if Req_EM_T z 0 then (None, None) else r else r else r
  end.
(** the accelerator's VERY_SMALL, tmatrixaccel.pyx 6 *)
Definition acc_small : R := / 10 ^ 6.
(** tmatrixaccel.pyx 58-80 *)
Definition acc_perspectiveMatrix (fovy aspect zNear zFar : R) (inverse : bool) : matx :=
  let f := 1 / tan (fovy / 2) in
  let zDelta := zNear - zFar in
  if div_ok (tan (fovy / 2)) then
    if inverse then
      if div_ok f && div_ok (2*zFar*zNear) then
        Some (Mat (aspect / f, 0, 0, 0) (0, 1 / or_else f acc_small, 0, 0)
                  (0, 0, 0, zDelta / (2*zFar*zNear)) (0, 0, -1, (zFar+zNear) / (2*zFar*zNear)))
      else None
    else
      if div_ok aspect && div_ok zDelta then
        Some (Mat (f / aspect, 0, 0, 0) (0, f, 0, 0)
                  (0, 0, (zFar+zNear) / zDelta, -1) (0, 0, (2*zFar*zNear) / zDelta, 0))
      else None
  else None.
(** tmatrixaccel.pyx 82-91 *)
Definition acc_orthoMatrix (left right bottom top zNear zFar : R) : matx :=
  let tx := - (right + left) / or_else (right - left) acc_small in
  let ty := - (top + bottom) / or_else (top - bottom) acc_small in
  let tz := - (zFar + zNear) / or_else (zFar - zNear) acc_small in
  Some (Mat (2 / or_else (right - left) acc_small, 0, 0, tx) (0, 2 / or_else (top - bottom) acc_small, 0, ty)
            (0, 0, -2 / or_else (zFar - zNear) acc_small, tz) (0, 0, 0, 1)).

(** ** Connection to the cached matrices of PathMatrix_Model.v *)
(** a keyword argument: not passed -> the default; a field value is a numpy
    array of which the vector functions use the first three components *)
Definition first3 (v : vec4) : vec3 := let '(x, y, z, _) := v in (x, y, z).
Definition arg3 (d : vec3) (a : option (option vec4)) : option vec3 :=
  match a with None => Some d | Some None => None | Some (Some v) => Some (first3 v) end.
Definition arg4 (d : vec4) (a : option (option vec4)) : option vec4 :=
  match a with None => Some d | Some x => x end.
(** transformmatrix.localMatrices with keyword arguments, defaults at transformmatrix.py 136-141 *)
Definition localMatrices_kw (t c r s so : option (option vec4)) : option matx * option matx :=
  localMatrices (arg3 (0, 0, 0) t) (arg3 (0, 0, 0) c) (arg4 (0, 1, 0, 0) r) (arg3 (1, 1, 1) s) (arg4 (0, 1, 0, 0) so).
