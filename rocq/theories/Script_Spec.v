(** What the text of a Script declares and sets. *)
From Verif Require Import Base Text Float Coerce_Model VrmlStr_Model Doc_Spec Scene_Model.
Local Open Scope list_scope.
(** the last declaration of the name *)
Definition declares (s : ssel) (x : text) : bool :=
  match s with SSField _ _ nm _ | SSEvent _ _ nm _ => text_eqb nm x | SSAttr _ _ => false end.
Fixpoint last_decl (l : list ssel) (x : text) : option ssel :=
  match l with
  | [] => None
  | s :: r => match last_decl r x with Some y => Some y | None => if declares s x then Some s else None end
  end.
(** the last value given in an attribute of the name *)
Fixpoint last_attr (l : list ssel) (x : text) : option sval :=
  match l with
  | [] => None
  | s :: r => match last_attr r x with
              | Some y => Some y
              | None => match s with SSAttr nm v => if text_eqb nm x then Some v else None | _ => None end
              end
  end.
Definition has_is (s : ssel) : bool :=
  match s with SSField _ _ _ (SIs _) | SSEvent _ _ _ (Some _) | SSAttr _ (SIs _) => true | _ => false end.
(** the same for an EXTERNPROTO *)
Fixpoint last_xdecl (l : list sxdecl) (x : text) : option sxdecl :=
  match l with
  | [] => None
  | s :: r => match last_xdecl r x with
              | Some y => Some y
              | None => if text_eqb (match s with SXField _ _ nm | SXEvent _ _ nm => nm end) x then Some s else None
              end
  end.
(** the fields every Script has, and their values if none are given *)
Definition standard_fields : list fdecl :=
  [mkfd (lit "url") (KVal MFString (PSeq KList [])); mkfd (lit "directOutput") (KVal SFBool (PInt 0));
   mkfd (lit "mustEvaluate") (KVal SFBool (PInt 0)); mkfd (lit "externalURL") (KVal MFString (PSeq KList []))].
(** the value of a field of the type if none is given: false, zero, the empty
    string, a vector of zeros; no items *)
Definition zero_vector (c : tcode) (n : nat) : pv := PArr (mkarr c [n] (repeat (NF fzero) n)).
Definition zero_value (t : fty) : pv :=
  match t with
  | SFBool => PInt 0
  | SFInt32 => PInt 0
  | SFUInt32 => PInt 0
  | SFFloat => PFloat fzero
  | SFTime => PFloat fzero
  | SFString => PStr []
  | SFVec2f => zero_vector Cf 2
  | SFVec3f => zero_vector Cf 3
  | SFColor => zero_vector Cf 3
  | SFVec4f => zero_vector Cf 4
  | SFRotation => zero_vector Cf 4
  | SFVec2d => zero_vector Cd 2
  | SFVec3d => zero_vector Cd 3
  | SFVec4d => zero_vector Cd 4
  | _ => PSeq KList []
  end.
