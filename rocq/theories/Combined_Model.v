(** Transformation matrices combined in floating point:
    vrml/vrml97/transformmatrix.py 135-173 (localMatrices, compressMatrices) and
    vrml/vrml97/nodepath.py 66-86 (transformMatrix).

    A matrix is an array of float32 (translations, scales) or of float64
    (rotations).  What the matrices of the parts are is not restricted here;
    Rounded_Model, Turn_Model and Turn32_Model say how they are computed.
    Simplification: matrices are computed anew; PathMatrix_Model has the cache. *)
From Coq Require Import Reals ZArith List Bool Permutation.
From Flocq Require Import Core.Core IEEE754.BinarySingleNaN.
From Verif Require Import Rounded_Model Turn_Model Turn32_Model.
Import ListNotations.
Local Open Scope list_scope.

Inductive fmat : Set := F32 (m : mat) | F64 (m : mat64).
(** numpy converts a float32 array that meets a float64 array *)
Definition as64 (x : fmat) : mat64 := match x with F32 m => widened m | F64 m => m end.

(** numpy.dot( x, y ) may return z: of float32 if both are, else of float64 *)
Inductive dots : fmat -> fmat -> fmat -> Prop :=
| dots_32 a b c : (forall i j, i < 4 -> j < 4 -> product a b i j (c i j)) -> dots (F32 a) (F32 b) (F32 c)
| dots_64 x y c : (match x, y with F32 _, F32 _ => False | _, _ => True end) ->
    (forall i j, i < 4 -> j < 4 -> product64 (as64 x) (as64 y) i j (c i j)) -> dots x y (F64 c).

(** compressMatrices, the loop, transformmatrix.py 167-173 *)
Inductive compress_from : option fmat -> list (option fmat) -> option fmat -> Prop :=
| cf_end first : compress_from first [] first
| cf_none first ms r : compress_from first ms r -> compress_from first (None :: ms) r
| cf_first item ms r : compress_from (Some item) ms r -> compress_from None (Some item :: ms) r
| cf_dot first item d ms r : dots item first d -> compress_from (Some d) ms r ->
    compress_from (Some first) (Some item :: ms) r.
(** compressMatrices, transformmatrix.py 154-173 *)
Definition compress (ms : list (option fmat)) (r : option fmat) : Prop :=
  match ms with [] => r = None | first :: rest => compress_from first rest r end.

(** what localMatrices has computed at transformmatrix.py 144-148: translation,
    center, rotation, scaleOrientation and scale, each with its inverse *)
Record parts := { T : option fmat; T1 : option fmat; C : option fmat; C1 : option fmat; Ro : option fmat; Ro1 : option fmat;
                  SO : option fmat; SO1 : option fmat; Sc : option fmat; Sc1 : option fmat }.
(** the arguments at transformmatrix.py 150 and 151 *)
Definition forward (p : parts) : list (option fmat) := [T p; C p; Ro p; SO p; Sc p; SO1 p; C1 p].
Definition backward (p : parts) : list (option fmat) := [C p; SO p; Sc1 p; SO1 p; Ro1 p; C1 p; T1 p].

(** identity( 4, 'f' ) *)
Definition identity32 : mat := at4 [[I; O; O; O]; [O; I; O; O]; [O; O; I; O]; [O; O; O; I]].
(** transformMatrix of a path with these Transforms, nodepath.py 66-86: children
    from the root on, or from the leaf on for the inverse *)
Definition path_matrix (path : list parts) (inverse : bool) (r : fmat) : Prop :=
  exists locals m,
    Forall2 compress (if inverse then map backward (rev path) else map forward path) locals /\
    compress locals m /\ r = match m with Some x => x | None => F32 identity32 end.

(** dot( p, matrix ) for p a float64 array, as the comment at nodepath.py 45-53
    has it: an item of the result *)
Definition moves (p : nat -> b64) (x : fmat) (j : nat) (v : b64) : Prop :=
  exists l, Permutation l [0; 1; 2; 3] /\ partial64 p (fun k => as64 x k j) l v.
