(** vrml/fieldtypes.py: how stored field values are written as VRML97 text
    (the vrmlstr methods), and vrml/vrml97/parseprocessor.py 369-441: how the
    entries of a parsed Field become a Python value again.

    str( float ) is the Python runtime's; it is the parameter [fstr]
    ([fstr Cd]: a double, [fstr Cf]: a numpy float32). *)
From Verif Require Import Base Text Float Coerce_Model Grammar_Model PyNum.
Local Open Scope nat_scope.
Local Open Scope list_scope.

(** the entries of linvalues that values use (linearise.py 14-37) *)
Record linvalues := mklv { numsep : text; subelspacer : text; curindent : text; indent : text }.
(** linearise.py 14-27 defaults *)
Definition lv_defaults : linvalues := mklv (lit ",") (lit ", ") [] [9%N].
(** linearise.py 28-37 minimal1 *)
Definition lv_minimal1 : linvalues := mklv (lit " ") (lit ", ") [] (lit "  ").

(** *** Python strings *)
(** sep.join( l ) *)
Fixpoint join (sep : text) (l : list text) : text :=
  match l with
  | [] => []
  | [x] => x
  | x :: r => x ++ sep ++ join sep r
  end.
(** s.split( c ) for a single character *)
Fixpoint split_loop (c : N) (cur : text) (s : text) : list text :=
  match s with
  | [] => [cur]
  | x :: r => if (x =? c)%N then cur :: split_loop c [] r else split_loop c (cur ++ [x]) r
  end.
Definition split (c : N) (s : text) : list text := split_loop c [] s.
(** str( int ) (the limit of 4300 digits of recent CPythons is not modelled) *)
Definition str_int (z : Z) : text :=
  match z with
  | Z0 => [48%N]
  | Zpos p => decN (Npos p)
  | Zneg p => 45%N :: decN (Npos p)
  end.
(** s[-n:] and s[:-n] *)
Definition last_n (n : nat) (s : text) : text := skipn (List.length s - n) s.
Definition but_last (n : nat) (s : text) : text := firstn (List.length s - n) s.

Section Write.
Variable fstr : tcode -> fl -> text.
Variable lv : linvalues.

(** str( x ) of an item of an array *)
Definition str_num (c : tcode) (x : num) : text :=
  match x with NZ z => str_int z | NF f => fstr c f end.

(** fieldtypes.py 72-74 SFString_vrmlstr *)
Definition sfstring_vrmlstr (s : text) : text :=
  let doubled := join [92; 92]%N (split 92 s) in
  [34%N] ++ join [92; 34]%N (split 34 doubled) ++ [34%N].

(** fieldtypes.py 77-100 MFString_vrmlstr *)
Definition mfstring_vrmlstr (l : list text) : text :=
  match l with
  | [] => lit "[ ]"
  | _ =>
      let anyobject := map sfstring_vrmlstr l in
      let length := fold_right (fun o n => List.length o + n) 0 anyobject in
      let several := 1 <? List.length anyobject in
      if 60 <? length then
        let sep := subelspacer lv ++ [10%N] ++ curindent lv ++ indent lv in
        let body :=
          (fix go (result : list text) (l : list text) : list text :=
             match l with
             | [] => result
             | element :: r =>
                 go ((match result with [] => [] | _ => result ++ [sep] end) ++ [element]) r
             end) (if several then [lit "["] else []) anyobject in
        List.concat (if several then body ++ [[10%N] ++ curindent lv ++ lit "]" ++ [10%N]] else body)
      else if several then lit "[ " ++ join (subelspacer lv) anyobject ++ lit " ]"
      else join (subelspacer lv) anyobject
  end.

(** fieldtypes.py 103-115 SFFloat_vrmlstr, on the text str( value ) *)
Definition compact (rpr : text) : text :=
  if text_eqb rpr (lit "0.0") then lit "0"
  else if text_eqb (firstn 2 rpr) (lit "0.") then skipn 1 rpr
  else if text_eqb (firstn 3 rpr) (lit "-0.") then lit "-" ++ skipn 2 rpr
  else if text_eqb (last_n 2 rpr) (lit ".0") then but_last 2 rpr
  else rpr.
Definition sffloat_vrmlstr (c : tcode) (f : fl) : text := compact (fstr c f).

(** the loops of fieldtypes.py 123-126 and 700-703: chunks of k elements
    joined by sep; None = not finished after [fuel] rounds *)
Fixpoint chunks (fuel : nat) (k : nat) (sep : text) (l : list text) : option (list text) :=
  match l with
  | [] => Some []
  | _ => match fuel with
         | O => None
         | S f => match chunks f k sep (skipn k l) with
                  | Some r => Some (join sep (firstn k l) :: r)
                  | None => None
                  end
         end
  end.
(** fieldtypes.py 118-127 MFSimple_vrmlstr, on the texts of the items *)
Definition mfsimple_vrmlstr (stringreps : list text) : option text :=
  match chunks (List.length stringreps) 100 (numsep lv) stringreps with
  | Some sets => Some (lit "[ " ++ join [10%N] sets ++ lit " ]")
  | None => None
  end.

(** the rows of an array of shape (n,)+dim, each flattened; [d] = size dim *)
Fixpoint rows {A} (n d : nat) (l : list A) : list (list A) :=
  match n with
  | O => []
  | S m => firstn d l :: rows m d (skipn d l)
  end.
(** fieldtypes.py 683-704 _MFVec.vrmlstr, on the texts of the items, row by row *)
Definition mfvec_vrmlstr (length : nat) (items : list (list text)) : option text :=
  match items with
  | [] => Some (lit "[ ]")
  | _ =>
      let sets := map (join (numsep lv)) items in
      let setLength := 100 / length in
      if List.length sets <? setLength then Some (lit "[" ++ join (subelspacer lv) sets ++ lit "]")
      else match chunks (List.length sets) setLength (subelspacer lv) sets with
           | Some sets => Some (lit "[" ++ join [10%N] sets ++ lit "]")
           | None => None
           end
  end.
End Write.

(** *** the field types (fieldtypes.py 903 on; matrices, arrays and node fields
    are not values of this file) *)
Inductive fty :=
| SFBool | SFInt32 | SFUInt32 | SFFloat | SFTime | SFString | MFString
| MFInt32 | MFUInt32 | SFImage | MFFloat | MFTime | MFFloat32
| SFVec2f | SFVec3f | SFVec4f | SFRotation | SFVec2d | SFVec3d | SFVec4d | SFColor
| MFVec2f | MFVec3f | MFVec4f | MFRotation | MFVec2d | MFVec3d | MFVec4d | MFColor.
(** the base class that does the work *)
Inductive base := BBool | BInt | BFloat | BString | BStrings
| BInts (c : tcode) | BFloats (c : tcode) | BVec (c : tcode) (d : nat) | BRows (c : tcode) (d : nat)
| BColor | BColors.
Definition fbase (t : fty) : base :=
  match t with
  | SFBool => BBool | SFInt32 | SFUInt32 => BInt | SFFloat | SFTime => BFloat
  | SFString => BString | MFString => BStrings
  | MFInt32 => BInts Ci | MFUInt32 | SFImage => BInts CI
  | MFFloat | MFTime => BFloats Cd | MFFloat32 => BFloats Cf
  | SFVec2f => BVec Cf 2 | SFVec3f => BVec Cf 3 | SFVec4f | SFRotation => BVec Cf 4
  | SFVec2d => BVec Cd 2 | SFVec3d => BVec Cd 3 | SFVec4d => BVec Cd 4
  | SFColor => BColor
  | MFVec2f => BRows Cf 2 | MFVec3f => BRows Cf 3 | MFVec4f => BRows Cf 4
  | MFRotation => BRows Cd 4
  | MFVec2d => BRows Cf 2       (* 1053: MFVec2d is derived from _MFVec2f *)
  | MFVec3d => BRows Cd 3 | MFVec4d => BRows Cd 4
  | MFColor => BColors
  end.
(** field.coerce *)
Definition coerce (P : prims) (t : fty) (v : pv) : res pv :=
  match fbase t with
  | BBool => sfbool_coerce P v
  | BInt => sfint32_coerce P v
  | BFloat => sffloat_coerce P v
  | BString => sfstring_coerce P v
  | BStrings => mfstring_coerce P v
  | BInts c => mfint32_coerce P c v
  | BFloats c => mffloat_coerce P c v
  | BVec c d => sfvec_coerce P c [d] v
  | BRows c d => mfvec_coerce P c [d] v
  | BColor => sfcolor_coerce P v
  | BColors => mfcolor_coerce P v
  end.

(** field.vrmlstr of a stored value; None = an exception, or no return *)
Definition vrmlstr (fstr : tcode -> fl -> text) (lv : linvalues) (t : fty) (v : pv) : option text :=
  match fbase t, v with
  | BBool, PInt z => Some (lit (if (z =? 0)%Z then "FALSE" else "TRUE"))  (* 274-279 *)
  | BInt, PInt z => Some (str_int z)                                      (* 305-313 *)
  | BFloat, PFloat f => Some (sffloat_vrmlstr fstr Cd f)
  | BString, PStr s => Some (sfstring_vrmlstr s)
  | BStrings, PSeq KList l =>
      if forallb (fun x => match x with PStr _ => true | _ => false end) l
      then Some (mfstring_vrmlstr lv (map (fun x => match x with PStr s => s | _ => [] end) l))
      else None
  | BInts _, PArr a | BFloats _, PArr a =>
      mfsimple_vrmlstr lv (map (str_num fstr (a_code a)) (a_data a))
  | BVec _ _, PArr a | BColor, PArr a =>                                  (* 553-557 *)
      Some (join (numsep lv) (map (fun x => compact (str_num fstr (a_code a) x)) (a_data a)))
  | BRows _ d, PArr a =>
      mfvec_vrmlstr lv d (rows (hd 0 (a_shape a)) d (map (str_num fstr (a_code a)) (a_data a)))
  | BColors, PArr a =>
      mfvec_vrmlstr lv 3 (rows (hd 0 (a_shape a)) 3 (map (str_num fstr (a_code a)) (a_data a)))
  | _, _ => None
  end.

(** *** reading: the entries of a Field as a Python value *)
Definition tree_span (t : tree) : text := let (_, s, _) := t in s.
Definition tree_children (t : tree) : list tree := let (_, _, l) := t in l.
(** parseprocessor.py 419-430, 431-441: one string entry *)
Definition read_string (t : tree) : text :=
  List.concat (map (fun p => match p with
                        | T G_CHARNODBLQUOTE s _ => s
                        | T G_ESCAPEDCHAR s _ => tl s
                        | T G_SIMPLEBACKSLASH _ _ => [92%N]
                        | _ => []
                        end) (tree_children t)).
(** float( text ), int( text, 0 ) *)
Definition read_floats (l : list tree) : res (list pv) :=
  mapM (fun t => of_option ValueError (option_map PFloat (read_float (tree_span t)))) l.
Definition read_ints (l : list tree) : res (list pv) :=
  mapM (fun t => of_option ValueError (option_map PInt (read_int (tree_span t)))) l.
(** (tup,) = table *)
Definition only {A} (l : list tree) (f : tree -> res A) : res A :=
  match l with [t] => f t | _ => Exc ValueError end.
(** parseprocessor.py 365-367: getattr( self, typeName ); some field types have
    no method of their name *)
Definition handler (t : fty) (l : list tree) : res pv :=
  match t with
  | SFBool => only l (fun t => Ok (PBool (text_eqb (tree_span t) (lit "TRUE"))))         (* 369-372 *)
  | SFFloat | SFTime => only l (fun t => of_option ValueError (option_map PFloat (read_float (tree_span t))))
  | SFInt32 => only l (fun t => of_option ValueError (option_map PInt (read_int (tree_span t))))
  | SFVec3f | SFVec2f | SFColor | SFRotation => bind (read_floats l) (fun v => Ok (PSeq KList v))
  | MFInt32 | SFImage | MFUInt32 => bind (read_ints l) (fun v => Ok (PSeq KList v))
  | MFFloat | MFColor | MFRotation | MFVec2f | MFVec3f | MFTime | MFFloat32 =>
      bind (read_floats l) (fun v => Ok (PSeq KList v))
  | MFString => Ok (PSeq KList (map (fun t => PStr (read_string t)) l))
  | SFString => only l (fun t => Ok (PStr (read_string t)))
  | SFUInt32 | SFVec4f | SFVec2d | SFVec3d | SFVec4d | MFVec4f | MFVec2d | MFVec3d | MFVec4d =>
      Exc AttributeError
  end.
(** parseprocessor.py 326-352 Attr with 354-367 Field, for a field that holds
    values: what is stored *)
Definition read_value (P : prims) (t : fty) (l : list tree) : res pv := bind (handler t l) (coerce P t).
