(** Node classes and their attributes: vrml/field.py 92-172 (BaseField, with a
    node or a class as client), 385-425 (Event), vrml/node.py 54-87
    (Node.__init__), vrml/protofunctions.py 28-101, 218-233.

    A class has a dictionary of its own and a list of the classes it looks
    attributes up in ([__mro__], itself first).  Values are any type [V] with a
    coercion per field.  Left out: attributes of the metaclass and of object;
    on_... methods of nodes (field.py 398-405); watchers do nothing. *)
From Verif Require Import Base Text PyDict ProtoFn_Model.
Local Open Scope nat_scope.
Local Open Scope list_scope.

Section World.
Variable V : Type.
(** Field.name and Event.name; Field.getDefault(); Field.coerce *)
Variable fname : nat -> text.
Variable ename : nat -> text.
Variable fdefault : nat -> V.
Variable coerce : nat -> V -> res V.

(** what a class dictionary holds: a field, an event, a string, any other object *)
Inductive cattr := CField (f : nat) | CEvent (e : nat) | CStr (s : text) | CVal (v : V).
Inductive sender := OfNode (n : nat) | OfClass (c : nat).
Inductive msg := SetField (s : sender) (f : nat) (v : V) | SetEvent (n : nat) (e : nat) (v : V) | DelField (s : sender) (f : nat).
Record world := mkw {
  w_dict : nat -> list (text * cattr);     (** cls.__dict__ *)
  w_mro : nat -> list nat;                 (** cls.__mro__ *)
  w_cname : nat -> text;                   (** cls.__name__ *)
  w_type : nat -> nat;                     (** node.__class__ *)
  w_inst : nat -> list (text * V);         (** node.__dict__ *)
  w_log : list msg                         (** what was sent, in order *)
}.
Definition upd {A} (g : nat -> A) (k : nat) (a : A) : nat -> A := fun x => if x =? k then a else g x.
Definition put_class (w : world) (c : nat) (d : list (text * cattr)) : world :=
  mkw (upd (w_dict w) c d) (w_mro w) (w_cname w) (w_type w) (w_inst w) (w_log w).
Definition put_node (w : world) (n : nat) (d : list (text * V)) : world :=
  mkw (w_dict w) (w_mro w) (w_cname w) (w_type w) (upd (w_inst w) n d) (w_log w).
Definition send (w : world) (m : msg) : world :=
  mkw (w_dict w) (w_mro w) (w_cname w) (w_type w) (w_inst w) (w_log w ++ [m]).

(** getattr( cls, name ): the first class that has it *)
Fixpoint first_attr (w : world) (cs : list nat) (name : text) : option cattr :=
  match cs with
  | [] => None
  | c :: r => match dget text_eqb (w_dict w c) name with Some a => Some a | None => first_attr w r name end
  end.
Definition cls_attr (w : world) (c : nat) (name : text) : option cattr := first_attr w (w_mro w c) name.
(** setattr( cls, name, a ), delattr( cls, name ) *)
Definition cls_setattr (w : world) (c : nat) (name : text) (a : cattr) : world :=
  put_class w c (dset text_eqb (w_dict w c) name a).
Definition cls_delattr (w : world) (c : nat) (name : text) : world * res unit :=
  match dget text_eqb (w_dict w c) name with
  | Some _ => (put_class w c (ddel text_eqb (w_dict w c) name), Ok tt)
  | None => (w, Exc AttributeError)
  end.

(** the class as protofunctions.getField and getFields see it *)
Definition as_attr (a : cattr) : attr :=
  match a with
  | CField f => AField f (fname f)
  | CEvent e => AEvent e (ename e)
  | CStr _ | CVal _ => AOther 0
  end.
Definition as_mro (w : world) (c : nat) : mro :=
  map (fun k => map (fun x => (fst x, as_attr (snd x))) (w_dict w k)) (w_mro w c).

(** *** field.py 125-147, 92-123: fields of nodes *)
Definition wrap (e : exn) : exn := match e with ValueError | TypeError => ValueError | e => e end.
Definition fset (w : world) (n f : nat) (v : V) (notify : bool) : world * res V :=
  match coerce f v with
  | Exc e => (w, Exc (wrap e))
  | Ok u => let w1 := put_node w n (dset text_eqb (w_inst w n) (fname f) u) in
            (if notify then send w1 (SetField (OfNode n) f u) else w1, Ok u)
  end.
Definition fget (w : world) (n f : nat) : world * res V :=
  match dget text_eqb (w_inst w n) (fname f) with
  | Some v => (w, Ok v)
  | None => fset w n f (fdefault f) false
  end.
(** *** the same with a class as client.  What is read may be the field itself *)
Inductive cvalue := XVal (v : V) | XAttr (a : cattr).
Definition cls_fset (w : world) (c f : nat) (v : V) (notify : bool) : world * res V :=
  match coerce f v with
  | Exc e => (w, Exc (wrap e))
  | Ok u => let w1 := cls_setattr w c (fname f) (CVal u) in
            (if notify then send w1 (SetField (OfClass c) f u) else w1, Ok u)
  end.
Definition cls_fget (w : world) (c f : nat) : world * res cvalue :=
  match dget text_eqb (w_dict w c) (fname f) with
  | Some (CVal v) => (w, Ok (XVal v))
  | Some a => (w, Ok (XAttr a))
  | None => match cls_fset w c f (fdefault f) false with
            | (w1, Ok u) => (w1, Ok (XVal u))
            | (w1, Exc e) => (w1, Exc e)
            end
  end.
(** field.py 162-178 (nothing is removed), fieldaccel2.pyx 62-73 (a class
    dictionary has no pop) *)
Definition cls_fdel (accel : bool) (w : world) (c f : nat) : world * res unit :=
  if accel then (w, Exc AttributeError)
  else match dget text_eqb (w_dict w c) (fname f) with
       | Some _ => (send w (DelField (OfClass c) f), Ok tt)
       | None => (w, Exc AttributeError)
       end.

(** *** attributes of nodes: Python's rules, with fields and events as data
    descriptors (field.py 92-123, 394-425) *)
Definition node_setattr (w : world) (n : nat) (name : text) (v : V) : world * res unit :=
  match cls_attr w (w_type w n) name with
  | Some (CField f) => match fset w n f v true with
                       | (w1, Ok _) => (w1, Ok tt)
                       | (w1, Exc e) => (w1, Exc e)
                       end
  | Some (CEvent e) => (send (put_node w n (dset text_eqb (w_inst w n) (ename e) v)) (SetEvent n e v), Ok tt)
  | _ => (put_node w n (dset text_eqb (w_inst w n) name v), Ok tt)
  end.
Definition node_getattr (w : world) (n : nat) (name : text) : world * res cvalue :=
  match cls_attr w (w_type w n) name with
  | Some (CField f) => match fget w n f with
                       | (w1, Ok u) => (w1, Ok (XVal u))
                       | (w1, Exc e) => (w1, Exc e)
                       end
  | Some (CEvent e) => match dget text_eqb (w_inst w n) (ename e) with
                       | Some v => (w, Ok (XVal v))
                       | None => (w, Exc AttributeError)
                       end
  | Some a => match dget text_eqb (w_inst w n) name with
              | Some v => (w, Ok (XVal v))
              | None => (w, Ok match a with CVal v => XVal v | _ => XAttr a end)
              end
  | None => match dget text_eqb (w_inst w n) name with
            | Some v => (w, Ok (XVal v))
            | None => (w, Exc AttributeError)
            end
  end.

(** *** node.py 54-87 Node.__init__.  getField gives the name itself for storage
    names (a str has no __set__); events have no fset *)
Fixpoint init (w : world) (n : nat) (kws : list (text * V)) : world * res unit :=
  match kws with
  | [] => (w, Ok tt)
  | (k, v) :: r =>
      match getField (as_mro w (w_type w n)) k with
      | Exc e => (w, Exc e)
      | Ok (FAttr (AField f _)) => match fset w n f v true with
                                   | (w1, Ok _) => init w1 n r
                                   | (w1, Exc e) => (w1, Exc e)
                                   end
      | Ok (FAttr (AEvent _ _)) => (w, Exc AttributeError)
      | Ok (FAttr (AOther _)) | Ok (FName _) => (w, Exc TypeError)
      end
  end.

(** *** protofunctions.py *)
(** 85-90; the field is put under its own name *)
Definition addField (w : world) (c f : nat) : world := cls_setattr w c (fname f) (CField f).
(** 93-101, with the field object or a name *)
Definition removeField (w : world) (c f : nat) : world * res unit := cls_delattr w c (fname f).
Definition removeNamed (w : world) (c : nat) (name : text) : world * res unit := cls_delattr w c name.
(** 37-47.  [inl]: the name; [inr]: PROTO is something else *)
Definition set_protoName (w : world) (c : nat) (s : text) : world := cls_setattr w c (lit "PROTO") (CStr s).
Definition protoName (w : world) (c : nat) : res (text + cattr) :=
  match cls_attr w c (lit "PROTO") with
  | Some (CStr []) => Ok (inl (w_cname w c))
  | Some (CStr s) => Ok (inl s)
  | Some a => Ok (inr a)
  | None => Exc AttributeError
  end.
(** 214-233 with [url] for Node.externalURL; 196-211 with [PrototypedNode.scenegraph] *)
Definition setClassValue := cls_fset.
Definition getClassValue := cls_fget.
Definition delClassValue := cls_fdel.
(** node.py 226-261 prototype(): a class of its own, before [bases]; [dict] from
    PROTO and the fields, then scene graph and URL *)
Fixpoint with_fields (d : list (text * cattr)) (fs : list (text * cattr)) : list (text * cattr) :=
  match fs with
  | [] => d
  | x :: r => with_fields (dset text_eqb d (fst x) (snd x)) r
  end.
Definition prototype (w : world) (c : nat) (name : text) (bases : list nat) (members : list (text * cattr)) : world :=
  mkw (upd (w_dict w) c (with_fields [(lit "PROTO", CStr name)] members)) (upd (w_mro w) c (c :: bases))
      (upd (w_cname w) c name) (w_type w) (w_inst w) (w_log w).
End World.
