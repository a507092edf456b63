(** Canonical storage formats, flattening and colour lists, stated without
    reference to the coercion functions. *)
From Coq Require Import Reals.
From Flocq Require Import Core.Core IEEE754.BinarySingleNaN.
From Verif Require Import Base Text Float Color_Model Coerce_Model.
Local Open Scope nat_scope.

(** an item that an array of the given dtype can hold *)
Definition item_of (c : tcode) (x : num) : Prop :=
  match c, x with
  | Cf, NF f => valid_binary 24 128 f = true
  | Cd, NF f => valid_binary 53 1024 f = true
  | Ci, NZ z => (- 2 ^ 31 <= z < 2 ^ 31)%Z
  | CI, NZ z => (0 <= z < 2 ^ 32)%Z
  | Cl, NZ z => (- 2 ^ 63 <= z < 2 ^ 63)%Z
  | _, _ => False
  end.
(** an array numpy can build: as many items as the shape says, of the dtype *)
Definition wf_arr (a : arr) : Prop :=
  List.length (a_data a) = fold_right Nat.mul 1 (a_shape a) /\ Forall (item_of (a_code a)) (a_data a).
(** arguments a Python program can pass (only the outermost value matters here) *)
Definition wf_arg (v : pv) : Prop :=
  match v with
  | PFloat f => valid_binary 53 1024 f = true
  | PArr a => wf_arr a
  | _ => True
  end.

(** storage formats (the module's documentation, fieldtypes.py 1-10, and the
    classes' doc strings) *)
Definition is_bool (v : pv) : Prop := v = PInt 0 \/ v = PInt 1.
Definition is_int (v : pv) : Prop := exists z, v = PInt z.
Definition is_float (v : pv) : Prop := exists f, v = PFloat f /\ valid_binary 53 1024 f = true.
Definition is_string (v : pv) : Prop := exists t, v = PStr t.
Definition is_strings (v : pv) : Prop := exists l, v = PSeq KList (map PStr l).
Definition is_flat_array (c : tcode) (v : pv) : Prop :=
  exists xs, v = PArr (mkarr c [List.length xs] xs) /\ Forall (item_of c) xs.
Definition is_array (c : tcode) (dim : list nat) (v : pv) : Prop :=
  exists xs, v = PArr (mkarr c dim xs) /\ List.length xs = fold_right Nat.mul 1 dim /\ Forall (item_of c) xs.
Definition is_rows (c : tcode) (dim : list nat) (v : pv) : Prop := exists n, is_array c (n :: dim) v.

(** [flattens l xs]: [xs] are the items of [l] after replacing, everywhere,
    lists by their items *)
Inductive flattens : list pv -> list pv -> Prop :=
| fl_nil : flattens [] []
| fl_list l r xs ys : flattens l xs -> flattens r ys -> flattens (PSeq KList l :: r) (xs ++ ys)
| fl_item x r ys : (forall l, x <> PSeq KList l) -> flattens r ys -> flattens (x :: r) (x :: ys).

(** numbers: Python ints, floats and booleans; [number v f]: v is a number and
    float(v) is f *)
Inductive number : pv -> fl -> Prop :=
| nm_float f : number (PFloat f) f
| nm_int z f : float_of_Z z = Some f -> number (PInt z) f
| nm_bool (b : bool) f : float_of_Z (if b then 1 else 0)%Z = Some f -> number (PBool b) f.

(** a stored colour component in [0,1] *)
Definition in_unit (x : num) : Prop :=
  exists f, x = NF f /\ is_finite_SF f = true /\ (0 <= SF2R radix2 f <= 1)%R.
Definition is_nan_item (x : num) : Prop := x = NF S754_nan.

(** [denotes items rows]: a sequence of colour names and of triples of numbers,
    and the stored colours it stands for *)
Inductive denotes : list pv -> list (list num) -> Prop :=
| dn_nil : denotes [] []
| dn_name t r g b rest rows :
    stringToColor t = Ok (r, g, b) -> denotes rest rows ->
    denotes (PStr t :: rest) (map (fun f => NF (clip01 fone32 (r32 f))) [r; g; b] :: rows)
| dn_rgb x y z r g b rest rows :
    number x r -> number y g -> number z b -> denotes rest rows ->
    denotes (x :: y :: z :: rest) (map (fun f => NF (clip01 fone32 (r32 f))) [r; g; b] :: rows).
(** an item of a colour list: a number, or a string that is a colour *)
Definition color_item (v : pv) : Prop :=
  (exists f, number v f) \/ (exists t c, v = PStr t /\ stringToColor t = Ok c).
(** what a Python runtime guarantees: float() does not accept colour names,
    and gives doubles *)
Definition sane (P : prims) : Prop :=
  (forall t c, stringToColor t = Ok c -> p_float P t = None) /\
  (forall t f, p_float P t = Some f -> valid_binary 53 1024 f = true).
