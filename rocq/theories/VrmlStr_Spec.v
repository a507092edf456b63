(** What writing and reading field values is specified against. *)
From Coq Require Import Reals.
From Flocq Require Import Core.Core IEEE754.BinarySingleNaN.
From Verif Require Import Base Text Float Coerce_Model Coerce_Spec Lex_Spec Doc_Spec PyNum VrmlStr_Model.
Local Open Scope list_scope.

(** *** decimal renderings of finite floats: sign, digits, fraction, exponent *)
Definition digits (l : text) : Prop := forallb digit l = true /\ l <> [].
Inductive float_shape : text -> Prop :=
| shape (neg : bool) ip fr ex : digits ip ->
    (fr = [] \/ exists fp, fr = 46%N :: fp /\ digits fp) ->
    (ex = [] \/ exists sg xp, ex = 101%N :: sg ++ xp /\ digits xp /\ (sg = [] \/ sg = [45%N] \/ sg = [43%N])) ->
    float_shape ((if neg then [45%N] else []) ++ ip ++ fr ++ ex).

(** what is assumed of Python's str( float ) and numpy's str( float32 ): a
    decimal rendering that reads back as the same number *)
Definition faithful (fstr : tcode -> fl -> text) : Prop :=
  (forall f, valid_binary 53 1024 f = true -> is_finite_SF f = true ->
     float_shape (fstr Cd f) /\ read_float (fstr Cd f) = Some f) /\
  (forall f, valid_binary 24 128 f = true -> is_finite_SF f = true ->
     float_shape (fstr Cf f) /\ exists g, read_float (fstr Cf f) = Some g /\ r32 g = f).

(** settings of the writer: the texts put between items separate them *)
Definition ok_lv (lv : linvalues) : Prop :=
  Forall sep_text [numsep lv; subelspacer lv; curindent lv; indent lv] /\
  numsep lv <> [] /\ subelspacer lv <> [].

(** the end of a field value: the end of the text, a closing bracket or
    brace, or the name of the next field *)
Inductive field_end : text -> Prop :=
| fe_eof : field_end []
| fe_close c r : c = 93%N \/ c = 125%N -> field_end (c :: r)
| fe_attr nm w k : safe_name nm = true -> sep_text w -> stop (w ++ k) = true -> no_sep k ->
    (forall r, k <> 123%N :: r) -> field_end (nm ++ w ++ k).

(** *** storable values without infinities and nans *)
Definition finite_item (x : num) : Prop := match x with NF f => is_finite_SF f = true | NZ _ => True end.
Definition finite (v : pv) : Prop :=
  match v with
  | PFloat f => is_finite_SF f = true
  | PArr a => Forall finite_item (a_data a)
  | _ => True
  end.
(** what each field type stores: Python numbers, strings and lists of strings;
    numpy arrays of doubles, floats, signed or unsigned integers, of one row or
    of any number of rows; colours have components from 0 to 1 *)
Definition stored (t : fty) (v : pv) : Prop :=
  match t with
  | SFBool => is_bool v
  | SFInt32 | SFUInt32 => is_int v
  | SFFloat | SFTime => is_float v
  | SFString => is_string v
  | MFString => is_strings v
  | MFInt32 => is_flat_array Ci v
  | MFUInt32 | SFImage => is_flat_array CI v
  | MFFloat | MFTime => is_flat_array Cd v
  | MFFloat32 => is_flat_array Cf v
  | SFVec2f => is_array Cf [2%nat] v
  | SFVec3f => is_array Cf [3%nat] v
  | SFVec4f | SFRotation => is_array Cf [4%nat] v
  | SFVec2d => is_array Cd [2%nat] v
  | SFVec3d => is_array Cd [3%nat] v
  | SFVec4d => is_array Cd [4%nat] v
  | MFVec2f | MFVec2d => is_rows Cf [2%nat] v   (* single precision in both *)
  | MFVec3f => is_rows Cf [3%nat] v
  | MFVec4f => is_rows Cf [4%nat] v
  | MFVec3d => is_rows Cd [3%nat] v
  | MFVec4d | MFRotation => is_rows Cd [4%nat] v
  | SFColor => is_array Cf [3%nat] v /\ forall a, v = PArr a -> Forall in_unit (a_data a)
  | MFColor => is_rows Cf [3%nat] v /\ forall a, v = PArr a -> Forall in_unit (a_data a)
  end.
(** the field types that have a reader *)
Definition readable (t : fty) : bool :=
  match t with
  | SFUInt32 | SFVec4f | SFVec2d | SFVec3d | SFVec4d | MFVec4f | MFVec2d | MFVec3d | MFVec4d => false
  | _ => true
  end.
