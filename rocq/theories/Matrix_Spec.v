(** Specification vocabulary for the matrix properties: points, rotations by
    Rodrigues' formula, and the Transform semantics of the VRML97 standard.
    Nothing here mentions how the code builds its matrices. *)
From Coq Require Import Reals List.
From Verif Require Import Matrix_Model.
Import ListNotations.
Local Open Scope R_scope.

(** ** Geometry *)
Definition add3 (p q : vec3) : vec3 := let '(a, b, c) := p in let '(x, y, z) := q in (a + x, b + y, c + z).
Definition scal3 (k : R) (p : vec3) : vec3 := let '(a, b, c) := p in (k * a, k * b, k * c).
Definition neg3 (p : vec3) : vec3 := scal3 (-1) p.
Definition dot3 (p q : vec3) : R := let '(a, b, c) := p in let '(x, y, z) := q in a * x + b * y + c * z.
Definition cross (p q : vec3) : vec3 :=
  let '(a, b, c) := p in let '(x, y, z) := q in (b * z - c * y, c * x - a * z, a * y - b * x).
Definition norm3 (p : vec3) : R := sqrt (dot3 p p).
Definition zero3 : vec3 := (0, 0, 0).

(** Rodrigues: the rotation of [p] about the unit vector [k] by the angle [a] *)
Definition rodrigues (k : vec3) (a : R) (p : vec3) : vec3 :=
  add3 (add3 (scal3 (cos a) p) (scal3 (sin a) (cross k p))) (scal3 ((1 - cos a) * dot3 k p) k).
(** a VRML rotation: axis of any length, and angle *)
Definition axis (r : vec4) : vec3 := let '(x, y, z, _) := r in (x, y, z).
Definition angle (r : vec4) : R := let '(_, _, _, a) := r in a.
Definition rotate (r : vec4) (p : vec3) : vec3 := rodrigues (scal3 (/ norm3 (axis r)) (axis r)) (angle r) p.
Definition unrotate (r : vec4) (p : vec3) : vec3 := rodrigues (scal3 (/ norm3 (axis r)) (axis r)) (- angle r) p.
Definition stretch (s p : vec3) : vec3 := let '(a, b, c) := s in let '(x, y, z) := p in (a * x, b * y, c * z).

(** whole turns *)
Definition whole_turns (a : R) : Prop := exists k : Z, a = 2 * PI * IZR k.
(** the rotation is meaningful: it has an axis, or needs none *)
Definition has_axis (r : vec4) : Prop := axis r <> zero3 \/ whole_turns (angle r).

(** ** VRML97 6.52: the Transform node.  P' = T C R SR S -SR -C P *)
Record params := Params { p_translation : vec3; p_center : vec3; p_rotation : vec4; p_scale : vec3; p_scaleOrientation : vec4 }.
(** where the Transform with parameters [d] takes the local point [p] *)
Definition vrml_transform (d : params) (p : vec3) : vec3 :=
  let p := add3 p (neg3 (p_center d)) in
  let p := unrotate (p_scaleOrientation d) p in
  let p := stretch (p_scale d) p in
  let p := rotate (p_scaleOrientation d) p in
  let p := rotate (p_rotation d) p in
  let p := add3 p (p_center d) in
  add3 p (p_translation d).

(** a path root .. leaf: leaf coordinates go through the last transform first *)
Definition path_transform (ds : list params) (p : vec3) : vec3 := fold_right vrml_transform p ds.

(** ** Applying matrices *)
(** the documented use: dot of the homogenous coordinate and the matrix *)
Definition hom (p : vec3) : vec4 := let '(x, y, z) := p in (x, y, z, 1).
(** a Python matrix result: None stands for the identity *)
Definition matrix_of (m : option matx) : matx := match m with None => Some ident4 | Some m => m end.
Definition takes (m : matx) (p q : vec3) : Prop := exists a, m = Some a /\ vdot (hom p) a = hom q.
(** two-sided inverses *)
Definition inverse_of (a b : matx) : Prop :=
  exists x y, a = Some x /\ b = Some y /\ mdot x y = ident4 /\ mdot y x = ident4.

Definition good_axes (d : params) : Prop := has_axis (p_rotation d) /\ has_axis (p_scaleOrientation d).
Definition nonzero_scale (d : params) : Prop :=
  let '(x, y, z) := p_scale d in x <> 0 /\ y <> 0 /\ z <> 0.

(** ** Rotation matrices *)
Definition transpose (m : mat) : mat :=
  let '(a0, a1, a2, a3) := row0 m in let '(b0, b1, b2, b3) := row1 m in
  let '(c0, c1, c2, c3) := row2 m in let '(d0, d1, d2, d3) := row3 m in
  Mat (a0, b0, c0, d0) (a1, b1, c1, d1) (a2, b2, c2, d2) (a3, b3, c3, d3).
(** determinant of the upper left 3x3 block *)
Definition det3 (m : mat) : R :=
  let '(a, b, c, _) := row0 m in let '(d, e, f, _) := row1 m in let '(g, h, i, _) := row2 m in
  a * (e * i - f * h) - b * (d * i - f * g) + c * (d * h - e * g).

(** ** Projections *)
(** column-vector application *)
Definition apply_column (m : mat) (p : vec4) : vec4 := vdot p (transpose m).
(** homogenous division *)
Definition project (p : vec4) : vec3 := let '(x, y, z, w) := p in (x / w, y / w, z / w).
