(** Model of node copying: /repo/vrml/node.py 126-140 (Node.copy), 533-536
    (_MFNode.copyValue), /repo/vrml/field.py 224-259 (fhas, copy, copyValue),
    358-374 (WeakField.fget), /repo/vrml/fieldtypes.py 237-239, 414-416, 476-478,
    559-561, 573-575, 641-643, 708-710 (copyValue), /repo/vrml/copier.py 20-27
    (use), /repo/vrml/vrml97/scenegraph.py 159-180 (SceneGraph.copy). *)
From Coq Require Export ZArith.
From Verif Require Import Base PyDict.

(** Objects live at locations.  A location that holds nothing is a collected
    object.  Field names, class names, DEF names are numbers; DEF name 0 is the
    empty string. *)
Inductive val :=
| VAtom (z : Z)           (* strings, numbers, booleans: immutable *)
| VRef (l : nat)          (* reference to an object *)
| VWeak (l : nat)         (* weakref.ref *)
| VNone.
Inductive obj :=
| ONode (cls : nat) (d : list (nat * val))     (* instance, __dict__ *)
| OArr (l : list Z)                            (* numpy array *)
| OStrs (l : list nat)                         (* list of strings *)
| ONodes (observable : bool) (l : list nat).   (* OList / plain list of nodes *)

(** which copyValue a field type has *)
Inductive kind := KAtom | KArr | KStrs | KNode | KNodes | KWeak.

(** [defs l] is the defNames dictionary of a SceneGraph node (None: l is not a
    SceneGraph).  protoTypes are shared by the default copier and not modelled. *)
Record state := { next : nat; heap : nat -> option obj; defs : nat -> option (list (nat * option nat)) }.

Definition upd {A} (m : nat -> A) (k : nat) (a : A) : nat -> A := fun x => if Nat.eqb x k then a else m x.
Definition alloc (s : state) (o : obj) : state * nat :=
  ({| next := S (next s); heap := upd (heap s) (next s) (Some o); defs := defs s |}, next s).
Definition store (s : state) (l : nat) (o : obj) : state :=
  {| next := next s; heap := upd (heap s) l (Some o); defs := defs s |}.
Definition set_defs (s : state) (l : nat) (d : list (nat * option nat)) : state :=
  {| next := next s; heap := heap s; defs := upd (defs s) l (Some d) |}.

Section Model.
(** getFields of a class: name and kind of every field, in order *)
Variable fields : nat -> list (nat * kind).

(** copyValue per field type, on the value [fget] returned.
    fieldtypes.py 414-416 etc. (arrays), 237-239 (string lists), node.py 533-536
    (node lists: a plain python list), field.py 257-259 (everything else: the
    value itself).  WeakField.fget (field.py 358-374) has already replaced a weak
    reference by its referent, or by None if that is dead (deleting the dead
    reference from the original, field.py 370-372, is not modelled: it is a no-op in
    the pure implementation and invisible to fget otherwise). *)
Definition copyValue (s : state) (k : kind) (v : val) : state * val :=
  match k, v with
  | KArr, VRef l => match heap s l with
      | Some (OArr a) => let '(s, l') := alloc s (OArr a) in (s, VRef l')
      | _ => (s, v)
      end
  | KStrs, VRef l => match heap s l with
      | Some (OStrs a) => let '(s, l') := alloc s (OStrs a) in (s, VRef l')
      | _ => (s, v)
      end
  | KNodes, VRef l => match heap s l with
      | Some (ONodes _ a) => let '(s, l') := alloc s (ONodes false a) in (s, VRef l')
      | _ => (s, v)
      end
  | KWeak, VWeak l => match heap s l with Some _ => (s, VRef l) | None => (s, VNone) end
  | _, _ => (s, v)
  end.

(** node.py 133-136: the loop over the fields that have a value *)
Fixpoint copyDict (s : state) (fs : list (nat * kind)) (d : list (nat * val)) (acc : list (nat * val))
  : state * list (nat * val) :=
  match fs with
  | [] => (s, acc)
  | (f, k) :: fs =>
      match dget Nat.eqb d f with
      | Some v => let '(s, v') := copyValue s k v in copyDict s fs d (dset Nat.eqb acc f v')
      | None => copyDict s fs d acc
      end
  end.

(** copier.py 20-27: the pass remembers which node was copied to which *)
Definition copier := list (nat * nat).

(** node.py 126-140 *)
Definition copyNode (s : state) (c : copier) (n : nat) : option (state * copier * nat) :=
  match dget Nat.eqb c n with
  | Some m => Some (s, c, m)
  | None =>
      match heap s n with
      | Some (ONode cls d) =>
          let '(s, d') := copyDict s (fields cls) d [] in
          let '(s, m) := alloc s (ONode cls d') in
          Some (s, dset Nat.eqb c n m, m)
      | _ => None
      end
  end.

(** scenegraph.py 159-180 (shareProtos, the default) and the dispatch to it: the
    entries of defNames are copied first, then the node itself.  Fuel bounds the
    Python stack; None is RecursionError (or not a node). *)
Fixpoint copy (fuel : nat) (s : state) (c : copier) (n : nat) : option (state * copier * nat) :=
  match fuel with
  | 0 => None
  | S fuel =>
    match defs s n with
    | None => copyNode s c n
    | Some ds =>
      let fix entries s c ds acc :=
        match ds with
        | [] => Some (s, c, acc)
        | (k, v) :: ds =>
            match k, v with
            | S _, Some v =>
                match copy fuel s c v with
                | Some (s, c, v') => entries s c ds (dset Nat.eqb acc k (Some v'))
                | None => None
                end
            | _, _ => entries s c ds acc
            end
        end in
      match entries s c ds [] with
      | Some (s, c, new) =>
          match copyNode s c n with
          | Some (s, c, m) => Some (set_defs s m new, c, m)
          | None => None
          end
      | None => None
      end
    end
  end.

(** ** Reading and changing objects through the API *)
(** fget of a stored value *)
Definition fget (s : state) (k : kind) (v : val) : val :=
  match k, v with
  | KWeak, VWeak l => match heap s l with Some _ => VRef l | None => VNone end
  | _, _ => v
  end.
(** what a client sees of a field: nothing set, an atom, a node, or contents *)
Inductive view :=
| SUnset | SAtom (z : Z) | SNode (l : nat) | SNone | SArr (l : list Z) | SStrs (l : list nat) | SNodes (l : list nat).
Definition see (s : state) (v : val) : view :=
  match v with
  | VAtom z => SAtom z
  | VNone => SNone
  | VRef l | VWeak l => match heap s l with
      | Some (OArr a) => SArr a | Some (OStrs a) => SStrs a | Some (ONodes _ a) => SNodes a
      | _ => SNode l
      end
  end.
Definition read (s : state) (n f : nat) : view :=
  match heap s n with
  | Some (ONode cls d) =>
      match dget Nat.eqb d f with
      | Some v => see s (fget s (match dget Nat.eqb (fields cls) f with Some k => k | None => KAtom end) v)
      | None => SUnset
      end
  | _ => SUnset
  end.

(** Later operations: allocate an object, assign a value to a field (what the
    field stores is decided by coerce, so any value is allowed), delete a field,
    change an array or a list in place, collect an object. *)
Inductive op :=
| New (o : obj)
| Assign (n f : nat) (v : val)
| Delete (n f : nat)
| Mutate (l : nat) (o : obj)        (* in-place change of an array or list *)
| Collect (l : nat).
Definition is_node (o : obj) : bool := match o with ONode _ _ => true | _ => false end.
Definition step (s : state) (o : op) : state :=
  match o with
  | New o => fst (alloc s o)
  | Assign n f v => match heap s n with
      | Some (ONode cls d) => store s n (ONode cls (dset Nat.eqb d f v)) | _ => s end
  | Delete n f => match heap s n with
      | Some (ONode cls d) => store s n (ONode cls (ddel Nat.eqb d f)) | _ => s end
  | Mutate l o => match heap s l with
      | Some o' => if is_node o' || is_node o then s else store s l o | None => s end
  | Collect l => {| next := next s; heap := upd (heap s) l None; defs := defs s |}
  end.
Definition run (s : state) (os : list op) : state := fold_left step os s.
End Model.
