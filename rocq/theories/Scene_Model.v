(** Scenes as the lineariser and the parse processor see them: nodes with
    field values and references to each other, DEF names and routes.

    Simplifications: no nested sceneGraph; of the
    fields of a node type only the visible ones are listed (those whose name
    does not start with a space, linearise.py 370-374); field reads do not
    record that the default was read (field.py 105-108 stores it). *)
From Verif Require Import Base Text PyDict Float Coerce_Model SceneGraph_Model VrmlStr_Model.
From Coq Require Import SpecFloat.
Local Open Scope nat_scope.
Local Open Scope list_scope.

(** *** Python's == *)
(** int == float, exactly *)
Definition fl_is_Z (f : fl) (z : Z) : bool :=
  match f with
  | S754_zero _ => (z =? 0)%Z
  | S754_finite s m e =>
      if (0 <=? e)%Z then (cond_Zopp s (Zpos m) * 2 ^ e =? z)%Z
      else (cond_Zopp s (Zpos m) =? z * 2 ^ (- e))%Z
  | _ => false
  end.
Definition num_eq (a b : num) : bool :=
  match a, b with
  | NZ x, NZ y => (x =? y)%Z
  | NF x, NF y => SFeqb x y
  | NZ x, NF y => fl_is_Z y x
  | NF x, NZ y => fl_is_Z x y
  end.
Definition as_num (v : pv) : option num :=
  match v with
  | PBool b => Some (NZ (if b then 1 else 0)%Z)
  | PInt z => Some (NZ z)
  | PFloat f => Some (NF f)
  | _ => None
  end.
Definition skind_eqb (a b : skind) : bool :=
  match a, b with KList, KList | KTuple, KTuple | KRange, KRange => true | _, _ => false end.
(** == between values that are not arrays (an iterator equals no other object) *)
Fixpoint py_eq (a b : pv) {struct a} : bool :=
  match as_num a, as_num b with
  | Some x, Some y => num_eq x y
  | _, _ =>
      match a, b with
      | PNone, PNone => true
      | PStr s, PStr t => text_eqb s t
      | PBytes s, PBytes t => text_eqb s t
      | PSeq k l, PSeq k' l' =>
          skind_eqb k k' &&
          (fix go (l l' : list pv) : bool :=
             match l, l' with
             | [], [] => true
             | x :: r, y :: r' => py_eq x y && go r r'
             | _, _ => false
             end) l l'
      | _, _ => false
      end
  end.

(** vrml/arrays.py 66-82 safeCompare.  A number or string compared with an
    array, and arrays of different shapes, are not modelled (OtherError). *)
Definition safe_compare (first second : pv) : res bool :=
  match first, second with
  | PNone, PNone => Ok true
  | PNone, _ => Ok false
  | _, PNone => Ok false
  | (PBool _ | PInt _ | PFloat _ | PStr _), PArr _ => Exc OtherError
  | (PBool _ | PInt _ | PFloat _ | PStr _), _ => Ok (py_eq first second)
  | PArr a, PArr b =>
      if list_eq_dec Nat.eq_dec (a_shape a) (a_shape b)
      then Ok (existsb (fun p => num_eq (fst p) (snd p)) (combine (a_data a) (a_data b)))
      else Exc OtherError
  | PArr _, _ => Ok false
  | PSeq k _, PSeq k' _ => if skind_eqb k k' then Ok (py_eq first second) else Ok false
  | PBytes _, PBytes _ => Ok (py_eq first second)
  | _, _ => Ok false
  end.

(** *** node types *)
(** a value field with its type and declared default; SFNode (the default is
    NULL); MFNode, and whether the default is an empty OList (as when none is
    declared, node.py 464) or an empty list *)
Inductive kind := KVal (t : fty) (d : pv) | KNode | KNodes (olist : bool).
Record fdecl := mkfd { f_name : text; f_kind : kind }.

(** the class name of a field object, field.py 331-337 *)
Definition fty_name (t : fty) : text :=
  lit match t with
      | SFBool => "SFBool" | SFInt32 => "SFInt32" | SFUInt32 => "SFUInt32" | SFFloat => "SFFloat"
      | SFTime => "SFTime" | SFString => "SFString" | MFString => "MFString" | MFInt32 => "MFInt32"
      | MFUInt32 => "MFUInt32" | SFImage => "SFImage" | MFFloat => "MFFloat" | MFTime => "MFTime"
      | MFFloat32 => "MFFloat32" | SFVec2f => "SFVec2f" | SFVec3f => "SFVec3f" | SFVec4f => "SFVec4f"
      | SFRotation => "SFRotation" | SFVec2d => "SFVec2d" | SFVec3d => "SFVec3d" | SFVec4d => "SFVec4d"
      | SFColor => "SFColor" | MFVec2f => "MFVec2f" | MFVec3f => "MFVec3f" | MFVec4f => "MFVec4f"
      | MFRotation => "MFRotation" | MFVec2d => "MFVec2d" | MFVec3d => "MFVec3d" | MFVec4d => "MFVec4d"
      | MFColor => "MFColor"
      end.
Definition class_name (k : kind) : text :=
  match k with KVal t _ => fty_name t | KNode => lit "SFNode" | KNodes _ => lit "MFNode" end.
Definition ftys : list fty :=
  [SFBool; SFInt32; SFUInt32; SFFloat; SFTime; SFString; MFString; MFInt32; MFUInt32; SFImage; MFFloat; MFTime;
   MFFloat32; SFVec2f; SFVec3f; SFVec4f; SFRotation; SFVec2d; SFVec3d; SFVec4d; SFColor; MFVec2f; MFVec3f; MFVec4f;
   MFRotation; MFVec2d; MFVec3d; MFVec4d; MFColor].
(** field.py 331-355: the field types by name *)
Definition fty_of (nm : text) : option fty := find (fun t => text_eqb (fty_name t) nm) ftys.

(** *** scenes *)
Inductive nref := RNull | RNode (n : nat).
Inductive val := VPv (v : pv) | VRef (r : nref) | VRefs (l : list nref).
(** what a Script declares: a field, whose default is that of the kind or, for
    SFNode and MFNode, these nodes; or an event (parseprocessor.py 272-312) *)
Inductive smember := SMField (exposed : bool) (k : kind) (l : list nref) | SMEvent (out : bool) (ty : text).
(** node type name, the fields that have been set, and what a Script declares:
    each has a class of its own (script.py 22-25) *)
Record snode := mksn { n_gi : text; n_vals : list (text * val); n_mem : list (text * smember) }.
Record scene := mkscene {
  s_next : nat;                                   (** nodes are numbers below this *)
  s_node : nat -> option snode;
  s_defs : dstate;                                (** DEF table and DEF names *)
  s_kids : list nref;
  s_routes : list (nat * text * (nat * text));
  s_is : list (text * list (nat * text))          (** in the body of a PROTO: its IS maps, node.py 556-569 *)
}.
(** scenegraph.py 52-67: a new scene *)
Definition scene0 : scene := mkscene 0 (fun _ => None) dempty [] [] [].
(** *** PROTO: the fields and events declared, the PROTOs declared inside and
    the body (node.py 153-260, scenegraph.py 58, 106-110).  A class holds its
    fields and events in one namespace. *)
Inductive member := MField (exposed : bool) (k : kind) | MEvent (out : bool) (ty : text).
Inductive pdef :=
| PDef (mem : list (text * member)) (inner : list (text * pdef)) (body : scene)
| PExt (mem : list (text * member)) (url : pv).            (** EXTERNPROTO: no body *)
Definition p_mem (p : pdef) := match p with PDef m _ _ => m | PExt m _ => m end.
Definition p_inner (p : pdef) := match p with PDef _ i _ => i | PExt _ _ => [] end.
Definition p_body (p : pdef) := match p with PDef _ _ b => b | PExt _ _ => scene0 end.
(** the URLs of an EXTERNPROTO: protofunctions.py 215-219 *)
Definition p_url (p : pdef) : option pv := match p with PDef _ _ _ => None | PExt _ u => Some u end.
Definition url_field : fdecl := mkfd (lit "externalURL") (KVal MFString (PSeq KList [])).
(** the fields a PROTO's instances have: protofunctions.py 149-175, with the one
    inherited from Node (node.py 51).  In an EXTERNPROTO that is hidden by the
    list of URLs (field.py 118-144). *)
Definition pfields (p : pdef) : list fdecl :=
  let own := flat_map (fun x => match snd x with MField _ k => [mkfd (fst x) k] | MEvent _ _ => [] end) (p_mem p) in
  match p with
  | PExt _ _ => own
  | PDef _ _ _ => if existsb (fun f => text_eqb (f_name f) (lit "externalURL")) own then own else own ++ [url_field]
  end.
(** *** Script (script.py 5-20): the fields every Script has; a declaration of
    the same name takes their place *)
Definition script_gi : text := lit "Script".
Definition script_base : list fdecl :=
  [mkfd (lit "url") (KVal MFString (PSeq KList [])); mkfd (lit "directOutput") (KVal SFBool (PInt 0));
   mkfd (lit "mustEvaluate") (KVal SFBool (PInt 0)); url_field].
Definition script_fields (mem : list (text * smember)) : list fdecl :=
  flat_map (fun x => match snd x with SMField _ k _ => [mkfd (fst x) k] | SMEvent _ _ => [] end) mem ++
  filter (fun f => negb (existsb (fun x => text_eqb (fst x) (f_name f)) mem)) script_base.
(** the node types known to a scene: the PROTOs it can see, and the built-in
    types *)
Definition types (base : list (text * list fdecl)) (e : list (text * pdef)) : list (text * list fdecl) :=
  map (fun p => (fst p, pfields (snd p))) e ++ base.
(** under which name of the PROTO a field is mapped: linearise.py 350-362 *)
Definition is_of (S : scene) (n : nat) (nm : text) : option text :=
  fold_left (fun acc e => if existsb (fun p => (fst p =? n) && text_eqb (snd p) nm) (snd e) then Some (fst e) else acc)
            (s_is S) None.
Definition node_def (S : scene) (n : nat) : text := ndef (s_defs S) n.

Section Types.
Variable P : prims.
Variable protos : list (text * list fdecl).
Definition proto (gi : text) : option (list fdecl) := dget text_eqb protos gi.
(** the fields of a node's class *)
Definition node_fields (nd : snode) : option (list fdecl) :=
  if text_eqb (n_gi nd) script_gi then Some (script_fields (n_mem nd)) else proto (n_gi nd).

(** field.py 97-108, 147-160: what reading an unset field gives *)
Definition default_of (f : fdecl) : res val :=
  match f_kind f with
  | KVal t d => bind (coerce P t d) (fun v => Ok (VPv v))
  | KNode => Ok (VRef RNull)
  | KNodes _ => Ok (VRefs [])
  end.
(** field.fget( node ); for Scripts see [script_fget] *)
Definition fget (S : scene) (n : nat) (f : fdecl) : res val :=
  match s_node S n with
  | None => Exc OtherError
  | Some nd => match dget text_eqb (n_vals nd) (f_name f) with
               | Some v => Ok v
               | None => default_of f
               end
  end.
(** the same for a Script: the default may be nodes *)
Definition script_fget (nd : snode) (f : fdecl) : res val :=
  match dget text_eqb (n_vals nd) (f_name f) with
  | Some v => Ok v
  | None => match f_kind f, dget text_eqb (n_mem nd) (f_name f) with
            | KNode, Some (SMField _ _ [r]) => Ok (VRef r)
            | KNodes _, Some (SMField _ _ l) => Ok (VRefs l)
            | _, _ => default_of f
            end
  end.
End Types.
(** what a field of the type holds when no default is declared: the
    defaultDefault of fieldtypes.py 135-754, node.py 343-345, 464 *)
Definition zeros (c : tcode) (k : nat) : pv := PArr (mkarr c [k] (repeat (NF fzero) k)).
Definition default_default (t : fty) : pv :=
  match t with
  | SFBool | SFInt32 | SFUInt32 => PInt 0
  | SFFloat | SFTime => PFloat fzero
  | SFString => PStr []
  | SFVec2f => zeros Cf 2 | SFVec3f | SFColor => zeros Cf 3 | SFVec4f | SFRotation => zeros Cf 4
  | SFVec2d => zeros Cd 2 | SFVec3d => zeros Cd 3 | SFVec4d => zeros Cd 4
  | _ => PSeq KList []
  end.
Definition kind_of (ty : text) : option kind :=
  if text_eqb ty (lit "SFNode") then Some KNode
  else if text_eqb ty (lit "MFNode") then Some (KNodes true)
  else option_map (fun t => KVal t (default_default t)) (fty_of ty).

(** linearise.py 377-392: is the attribute left out?  NULL == NULL is 0
    (node.py 283-289), so SFNode attributes never are; an OList differs in
    type from a list. *)
Definition dropped (f : fdecl) (v : val) : res bool :=
  match f_kind f, v with
  | KVal t PNone, VPv _ => Ok false
  | KVal t d, VPv v => safe_compare d v
  | KNodes true, VRefs [] => Ok true
  | _, _ => Ok false
  end.
