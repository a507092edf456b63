(** vrml/fieldtypes.py: coercion of Python values to the storage format of the
    field types.

    A Python value is a [pv].  Not modelled: objects of other classes,
    numpy scalars as distinct from Python numbers, and arrays of other than
    the five listed dtypes (bool, complex, object, structured).  What the
    Python runtime does with strings, and the casts the C standard leaves
    undefined, are parameters ([prims]); the theorems hold for any of them. *)
From Verif Require Import Base Text Float Color_Model.
Local Open Scope nat_scope.

(** arrays.typeCode(a) (vrml/arrays.py 41-51): 'i' 'I' 'l' 'f' 'd' *)
Inductive tcode := Ci | CI | Cl | Cf | Cd.
Definition tcode_eqb (a b : tcode) : bool :=
  match a, b with Ci, Ci | CI, CI | Cl, Cl | Cf, Cf | Cd, Cd => true | _, _ => false end.
Inductive num := NZ (z : Z) | NF (f : fl).
(** a numpy array: dtype, shape, items in C order *)
Record arr := mkarr { a_code : tcode; a_shape : list nat; a_data : list num }.

(** list | tuple | range | map and zip iterators (field.py 20-27 SEQUENCE_TYPES) *)
Inductive skind := KList | KTuple | KRange | KIter.
Inductive pv :=
| PNone | PBool (b : bool) | PInt (z : Z) | PFloat (f : fl)
| PStr (t : text) | PBytes (b : list N)
| PSeq (k : skind) (l : list pv)
| PArr (a : arr).

Record prims := {
  p_int : text -> option Z;          (** int( str ); None = ValueError *)
  p_float : text -> option fl;       (** float( str ); None = ValueError *)
  p_str : pv -> text;                (** str( value ) *)
  p_decode : list N -> option text;  (** bytes.decode('utf-8'); None = UnicodeDecodeError, a ValueError *)
  p_f2i : tcode -> fl -> Z;          (** C cast of a float to an integer type *)
  p_items : arr -> res (list pv)     (** iteration over an array *)
}.

Section Coerce.
Variable P : prims.

Fixpoint mapM {A B} (f : A -> res B) (l : list A) : res (list B) :=
  match l with
  | [] => Ok []
  | x :: r => bind (f x) (fun y => bind (mapM f r) (fun ys => Ok (y :: ys)))
  end.
Definition of_option {A} (e : exn) (o : option A) : res A :=
  match o with Some a => Ok a | None => Exc e end.
Definition size (s : list nat) : nat := fold_right Nat.mul 1 s.

(** *** numpy *)
(** number of type [c] from a Python or numpy number: C conversions; integers
    wrap around modulo 2^32 or 2^64 *)
Definition wrap (bits : Z) (signed : bool) (z : Z) : Z :=
  let m := (z mod 2 ^ bits)%Z in
  if signed && (2 ^ (bits - 1) <=? m)%Z then (m - 2 ^ bits)%Z else m.
Definition wrap_code (c : tcode) (z : Z) : Z :=
  match c with Ci => wrap 32 true z | CI => wrap 32 false z | _ => wrap 64 true z end.
Definition cast (c : tcode) (x : num) : num :=
  match c, x with
  | Cf, NZ z => NF (binary_normalize 24 128 z 0 false)
  | Cf, NF f => NF (r32 f)
  | Cd, NZ z => NF (binary_normalize 53 1024 z 0 false)
  | Cd, NF f => NF (r64 f)
  | c, NZ z => NZ (wrap_code c z)
  | c, NF f => NZ (wrap_code c (p_f2i P c f))
  end.
(** a.astype( c ) *)
Definition astype (c : tcode) (a : arr) : arr := mkarr c (a_shape a) (map (cast c) (a_data a)).
(** a.reshape( s ): ValueError unless the sizes agree *)
Definition reshape (s : list nat) (a : arr) : res arr :=
  if size s =? List.length (a_data a) then Ok (mkarr (a_code a) s (a_data a)) else Exc ValueError.
(** reshape( a, (-1,)+s ) *)
Definition reshape_rows (s : list nat) (a : arr) : res arr :=
  let n := List.length (a_data a) in
  if (size s =? 0) || negb (n mod size s =? 0) then Exc ValueError
  else Ok (mkarr (a_code a) (n / size s :: s) (a_data a)).
(** arrays.ravel; arrays.contiguous (arrays.py 84-86) copies without change *)
Definition ravel (a : arr) : arr := mkarr (a_code a) [List.length (a_data a)] (a_data a).
(** array( [floats], 'f' or 'd' ) *)
Definition farray (c : tcode) (l : list fl) : arr :=
  mkarr c [List.length l] (map (fun f => cast c (NF f)) l).
(** array( [ints], 'i' or 'I' ): OverflowError when an item does not fit *)
Definition iarray (c : tcode) (l : list Z) : res arr :=
  if forallb (fun z => (wrap_code c z =? z)%Z) l then Ok (mkarr c [List.length l] (map NZ l))
  else Exc OtherError.

(** *** CPython conversions *)
(** float( v ); OverflowError is [OtherError] *)
Definition py_float (v : pv) : res fl :=
  match v with
  | PFloat f => Ok f
  | PInt z => of_option OtherError (float_of_Z z)
  | PBool b => of_option OtherError (float_of_Z (if b then 1 else 0))
  | PStr t | PBytes t => of_option ValueError (p_float P t)
  | PArr a => match a_data a with
              | [NF f] => Ok (r64 f)
              | [NZ z] => of_option OtherError (float_of_Z z)
              | _ => Exc TypeError
              end
  | PNone | PSeq _ _ => Exc TypeError
  end.
(** int( v ): nan gives ValueError, infinities OverflowError *)
Definition int_of_float (f : fl) : res Z :=
  match trunc f with Some z => Ok z | None => Exc (if is_nan f then ValueError else OtherError) end.
Definition py_int (v : pv) : res Z :=
  match v with
  | PFloat f => int_of_float f
  | PInt z => Ok z
  | PBool b => Ok (if b then 1 else 0)%Z
  | PStr t | PBytes t => of_option ValueError (p_int P t)
  | PArr a => match a_data a with
              | [NF f] => int_of_float f
              | [NZ z] => Ok z
              | _ => Exc TypeError
              end
  | PNone | PSeq _ _ => Exc TypeError
  end.
Definition num_true (x : num) : bool :=
  match x with
  | NZ z => negb (z =? 0)%Z
  | NF (S754_zero _) => false
  | NF _ => true
  end.
(** bool( v ) *)
Definition py_true (v : pv) : res bool :=
  match v with
  | PNone => Ok false
  | PBool b => Ok b
  | PInt z => Ok (negb (z =? 0)%Z)
  | PFloat f => Ok (num_true (NF f))
  | PStr t | PBytes t => Ok (negb (List.length t =? 0))
  | PSeq KIter _ => Ok true
  | PSeq _ l => Ok (negb (List.length l =? 0))
  | PArr a => match a_data a with
              | [] => Ok false
              | [x] => Ok (num_true x)
              | _ => Exc ValueError
              end
  end.
(** iter( v ) *)
Definition py_iter (v : pv) : res (list pv) :=
  match v with
  | PStr t => Ok (map (fun c => PStr [c]) t)
  | PBytes b => Ok (map (fun c => PInt (Z.of_N c)) b)
  | PSeq _ l => Ok l
  | PArr a => p_items P a
  | _ => Exc TypeError
  end.

(** fieldtypes.py 35-59 collapse (Collapse_Model.v has the in-place
    algorithm): the items before the index, in reverse, and those from it on;
    a list at the index is replaced by its items *)
Fixpoint weight (v : pv) : nat :=
  match v with
  | PSeq KList l => S (S ((fix go (l : list pv) := match l with [] => 0 | x :: r => weight x + go r end) l))
  | _ => 1
  end.
Fixpoint weights (l : list pv) : nat := match l with [] => 0 | x :: r => weight x + weights r end.
Fixpoint collapse_loop (fuel : nat) (done rest : list pv) : list pv :=
  match fuel with
  | 0 => List.rev done
  | S f => match rest with
           | [] => List.rev done
           | PSeq KList l :: r => collapse_loop f done (l ++ r)
           | x :: r => collapse_loop f (x :: done) r
           end
  end.
Definition collapse (l : list pv) : list pv := collapse_loop (S (weights l)) [] l.

(** value.replace(',', ' ').split(), for ASCII white space *)
Definition commas (t : text) : text := map (fun c => if (c =? 44)%N then 32%N else c) t.
Fixpoint split_ws (cur : text) (t : text) : list text :=
  match t with
  | [] => match cur with [] => [] | _ => [List.rev cur] end
  | c :: r => if is_space c
              then match cur with [] => split_ws [] r | _ => List.rev cur :: split_ws [] r end
              else split_ws (c :: cur) r
  end.
Definition words (t : text) : list text := split_ws [] (commas t).

(** *** field types *)
(** fieldtypes.py 176-196 _SFString.coerce (the Python 3 class) *)
Definition sfstring_coerce (v : pv) : res pv :=
  let finish (v : pv) := match v with PStr t => Ok (PStr t) | _ => Ok (PStr (p_str P v)) end in
  match v with
  | PBytes b => match p_decode P b with Some t => Ok (PStr t) | None => Exc ValueError end
  | PSeq KIter _ => Exc TypeError                          (* len() of an iterator *)
  | PSeq _ [] => Ok (PStr [])
  | PSeq _ [x] => finish x
  | PSeq _ l => bind (mapM (fun x => match x with PStr t => Ok t | _ => Exc TypeError end) l)
                     (fun ts => Ok (PStr (List.concat ts)))  (* u"".join(value) *)
  | _ => finish v
  end.
(** fieldtypes.py 214-228 _MFString.coerce *)
Definition mfstring_coerce (v : pv) : res pv :=
  let v := match v with PStr t => PSeq KList [v] | _ => v end in
  bind (py_iter v) (fun items => bind (mapM sfstring_coerce items) (fun l => Ok (PSeq KList l))).
(** fieldtypes.py 249-265 _SFBool.coerce *)
Definition sfbool_coerce (v : pv) : res pv :=
  let v := match v with
           | PStr t => match p_int P t with
                       | Some z => PInt z
                       | None => if text_eqb (lower t) (lit "true") then PBool true
                                 else if text_eqb (lower t) (lit "false") then PBool false
                                 else v
                       end
           | _ => v
           end in
  bind (py_true v) (fun b => Ok (PInt (if b then 1 else 0))).
(** fieldtypes.py 286-297, 319-330 _SFInt32.coerce, _SFUInt32.coerce (on
    Python 3 [long] is [int], _bytes.py 49) *)
Definition sfint32_coerce (v : pv) : res pv := bind (py_int v) (fun z => Ok (PInt z)).
(** fieldtypes.py 351-362 _SFFloat.coerce; also SFTime *)
Definition sffloat_coerce (v : pv) : res pv := bind (py_float v) (fun f => Ok (PFloat f)).

(** fieldtypes.py 390-410 _MFInt32.coerce; [c] is arrayDataType: 'i' for
    MFInt32, 'I' for MFUInt32 and SFImage (419-439) *)
Definition mfint32_coerce (c : tcode) (v : pv) : res pv :=
  let seq l := bind (mapM py_int l) (fun zs => bind (iarray c zs) (fun a => Ok (PArr a))) in
  match v with
  | PStr t => bind (mapM (fun w => of_option ValueError (p_int P w)) (words t))
                (fun zs => bind (iarray c zs) (fun a => Ok (PArr a)))
  | PInt _ | PFloat _ | PBool _ => seq [v]
  | PArr a => Ok (PArr (ravel (if tcode_eqb (a_code a) c then a else astype c a)))
  | PSeq _ l => seq l
  | PNone => bind (iarray c []) (fun a => Ok (PArr a))
  | PBytes [] => bind (iarray c []) (fun a => Ok (PArr a))
  | PBytes _ => Exc ValueError
  end.
(** fieldtypes.py 452-472 _MFFloat.coerce; [c] is targetType: 'd' for MFFloat
    and MFTime, 'f' for MFFloat32 *)
Definition mffloat_coerce (c : tcode) (v : pv) : res pv :=
  let seq l := bind (mapM py_float l) (fun fs => Ok (PArr (farray c fs))) in
  match v with
  | PStr t => bind (mapM (fun w => of_option ValueError (p_float P w)) (words t))
                (fun fs => Ok (PArr (farray c fs)))
  | PInt _ | PFloat _ | PBool _ => seq [v]
  | PArr a => Ok (PArr (ravel (if tcode_eqb (a_code a) c then a else astype c a)))
  | PSeq _ l => seq (collapse l)
  | PNone | PBytes [] => Ok (PArr (farray c []))
  | PBytes _ => Exc ValueError
  end.
(** fieldtypes.py 517-551 _SFVec.coerce; [dim] is the class's dimension.
    The list branch computes a reshape and discards it (530), so the shape
    test (541) compares with the flat shape; [value[:] = float(value)] (523)
    converts the freshly made array of zeros to a float, a TypeError since
    every dimension has at least two items. *)
Definition sfvec_list (c : tcode) (dim : list nat) (fs : list fl) : res pv :=
  let a := farray c fs in
  bind (reshape dim a) (fun _ =>
  if list_eq_dec Nat.eq_dec (a_shape a) dim then Ok (PArr a) else Exc ValueError).
Definition sfvec_coerce (c : tcode) (dim : list nat) (v : pv) : res pv :=
  match v with
  | PStr t => bind (mapM (fun w => of_option ValueError (p_float P w)) (words t)) (sfvec_list c dim)
  | PInt _ | PFloat _ | PBool _ =>
      match py_float (PArr (mkarr c dim (repeat (NF fzero) (size dim)))) with
      | Ok f => Ok (PArr (mkarr c dim (repeat (cast c (NF f)) (size dim))))
      | Exc e => Exc e
      end
  | PArr a =>
      bind (reshape dim (if tcode_eqb (a_code a) c then a else astype c a)) (fun a => Ok (PArr a))
  | PSeq _ l => bind (mapM py_float (collapse l)) (sfvec_list c dim)
  | PNone | PBytes _ => Exc ValueError   (* asarray( value ) fails or is 0-dimensional *)
  end.

(** array( value, c ) on a nested sequence: the shape is that of the nesting,
    which must be regular (ValueError); items are converted as float() does,
    None to nan.  (numpy's limit on the number of dimensions is not modelled.) *)
Definition stack (l : list (list nat * list num)) : res (list nat * list num) :=
  match l with
  | [] => Ok ([0], [])
  | (s, _) :: _ =>
      if forallb (fun p => if list_eq_dec Nat.eq_dec (fst p) s then true else false) l
      then Ok (List.length l :: s, List.concat (map snd l)) else Exc ValueError
  end.
Fixpoint discover (c : tcode) (v : pv) : res (list nat * list num) :=
  match v with
  | PSeq KIter _ => Exc TypeError
  | PSeq _ l =>
      bind ((fix go (l : list pv) : res (list (list nat * list num)) :=
               match l with
               | [] => Ok []
               | x :: r => bind (discover c x) (fun y => bind (go r) (fun ys => Ok (y :: ys)))
               end) l) stack
  | PArr a => Ok (a_shape a, map (cast c) (a_data a))
  | PNone => Ok ([], [cast c (NF S754_nan)])
  | _ => bind (py_float v) (fun f => Ok ([], [cast c (NF f)]))
  end.
Definition np_array (c : tcode) (v : pv) : res arr :=
  bind (discover c v) (fun p => Ok (mkarr c (fst p) (snd p))).

(** fieldtypes.py 589-621 _SFArray.coerce with _MFVec.reshape (671-672); the
    string branch calls [replace(']')] with one argument, a TypeError (593) *)
Definition mfvec_coerce (c : tcode) (dim : list nat) (v : pv) : res pv :=
  let finish a := bind (reshape_rows dim a) (fun a => Ok (PArr a)) in
  match v with
  | PStr _ => Exc TypeError
  | PArr a => finish (if tcode_eqb (a_code a) c then a else astype c a)
  | PSeq k l =>
      match np_array c (PSeq KList l) with
      | Ok a => finish a
      | Exc ValueError => bind (mapM py_float l) (fun fs => finish (farray c fs))
      | Exc e => Exc e
      end
  | PInt _ | PFloat _ | PBool _ => bind (py_float v) (fun f => finish (farray c [f]))
  | PNone | PBytes _ => Exc ValueError
  end.

(** fieldtypes.py 567-571 _Color.coerce: clip to [0,1] *)
Definition clip_num (x : num) : num := match x with NF f => NF (clip01 fone32 f) | _ => x end.
Definition clip (v : pv) : pv :=
  match v with PArr a => PArr (mkarr (a_code a) (a_shape a) (map clip_num (a_data a))) | _ => v end.
(** fieldtypes.py 800-804 _SFColor.coerce *)
Definition sfcolor_coerce (v : pv) : res pv :=
  let v' := match v with
            | PStr t => bind (stringToColor t) (fun c => let '(r, g, b) := c in
                             Ok (PSeq KTuple [PFloat r; PFloat g; PFloat b]))
            | _ => Ok v
            end in
  bind v' (fun v => bind (sfvec_coerce Cf [3] v) (fun v => Ok (clip v))).
(** fieldtypes.py 858-881: the loop over the items of a mixed specification *)
Fixpoint mfcolor_loop (result : list pv) (current : list pv) (items : list pv) : res (list pv) :=
  match items with
  | [] => match current with [] => Ok result | _ => Exc ValueError end
  | PStr t :: r =>
      match current with
      | [] => bind (sfcolor_coerce (PStr t)) (fun c => mfcolor_loop (result ++ [c]) [] r)
      | _ => Exc ValueError
      end
  | x :: r =>
      let current := current ++ [x] in
      if List.length current =? 3
      then bind (sfcolor_coerce (PSeq KList current)) (fun c => mfcolor_loop (result ++ [c]) [] r)
      else mfcolor_loop result current r
  end.
(** fieldtypes.py 852-882 _MFColor.coerce.  The first attempt unpacks an
    iterator (595-596), so the second finds it exhausted. *)
Definition mfcolor_coerce (v : pv) : res pv :=
  let base v := bind (mfvec_coerce Cf [3] v) (fun v => Ok (clip v)) in
  match base v with
  | Exc ValueError | Exc TypeError =>
      bind (match v with PSeq KIter _ => Ok [] | _ => py_iter v end) (fun items =>
      bind (mfcolor_loop [] [] items) (fun result => base (PSeq KList result)))
  | r => r
  end.
End Coerce.
