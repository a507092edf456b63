(** Model of node-list fields: /repo/vrml/node.py 443-457 (_changeSender),
    460-512 (_MFNode.fset), 514-527 (coerce), /repo/vrml/field.py 96-183 (the
    inherited __get__, __set__, _set, getDefault, fdel), over OList_Model.

    Nodes, fields and lists are numbers.  Simplifications: nodes stay alive and
    are hashable (NULL, which is not, is not put in lists); the new values are
    nodes already (coerce only wraps them in a new OList); propagation of the root
    scenegraph (node.py 505-511) is in SceneGraph_Model; receivers other than the
    field's own are passive. *)
From Verif Require Import Base PyList OList_Model.

Notation olist := (OList_Model.state (A:=nat)).
Notation lop := (OList_Model.op (A:=nat)).
Definition lstep (s : olist) (o : lop) : olist :=
  fst (OList_Model.step Nat.eqb Nat.eqb (fun _ => true) (fun _ _ => true) s o).

(** a ('set', field) message: sender, field, and the value sent along *)
Inductive payload := PayList (l : nat) | PayNode (n : nat).
Record announcement := { a_node : nat; a_field : nat; a_value : payload }.

Record world := {
  nextl : nat;                              (* lists are numbered *)
  lists : nat -> olist;
  dict : nat -> nat -> option nat;          (* node.__dict__: field -> list *)
  regs : nat -> list nat;                   (* fields with an onOListChange receiver, in order *)
  sent : list announcement }.
Definition empty : world :=
  {| nextl := 0; lists := fun _ => {| items := []; sender := None; log := [] |};
     dict := fun _ _ => None; regs := fun _ => []; sent := [] |}.

Definition upd {A} (m : nat -> A) (k : nat) (a : A) : nat -> A := fun x => if Nat.eqb x k then a else m x.
Definition upd2 {A} (m : nat -> nat -> A) (k f : nat) (a : A) : nat -> nat -> A :=
  fun x g => if Nat.eqb x k && Nat.eqb g f then a else m x g.

(** node.py 514-522 coerce: a new OList (built silently) with the given nodes *)
Definition new_list (w : world) (n : option nat) (vs : list nat) : world * nat :=
  ({| nextl := S (nextl w); lists := upd (lists w) (nextl w) {| items := vs; sender := n; log := [] |};
      dict := dict w; regs := regs w; sent := sent w |}, nextl w).
Definition set_dict (w : world) (n f : nat) (l : option nat) : world :=
  {| nextl := nextl w; lists := lists w; dict := upd2 (dict w) n f l; regs := regs w; sent := sent w |}.
Definition announce (w : world) (a : list announcement) : world :=
  {| nextl := nextl w; lists := lists w; dict := dict w; regs := regs w; sent := sent w ++ a |}.

(** node.py 443-457: each receiver registered for the 'new' and 'del' messages
    of a node sends ('set', field) from the node, with value=sender, the node *)
Definition react (regs : nat -> list nat) (m : message (A:=nat)) : list announcement :=
  match m with
  | NewChild (PNode n) _ | DelChild (PNode n) _ =>
      map (fun f => {| a_node := n; a_field := f; a_value := PayNode n |}) (regs n)
  | _ => []
  end.
(** a call on list l *)
Definition mutate (w : world) (l : nat) (o : lop) : world :=
  let s := lists w l in
  let s' := lstep s o in
  announce {| nextl := nextl w; lists := upd (lists w) l s'; dict := dict w; regs := regs w; sent := sent w |}
           (flat_map (react (regs w)) (skipn (length (log s)) (log s'))).

Inductive op :=
| Fset (n f : nat) (vs : list nat)          (* constructor argument, parser, route: field.fset *)
| Assign (n f : nat) (vs : list nat)        (* node.f = [...] *)
| Read (n f : nat)                          (* node.f *)
| Delete (n f : nat)                        (* del node.f, accelerated fields *)
| Mutate (l : nat) (o : lop)                (* a call on a list *)
| Iadd (n f : nat) (vs : list nat).         (* node.f += [...] *)

(** field.py 96-104, 154-166: an unset field is materialised by _set *)
Definition get (w : world) (n f : nat) : world * nat :=
  match dict w n f with
  | Some l => (w, l)
  | None => let '(w, l) := new_list w None [] in (set_dict w n f (Some l), l)
  end.
(** field.py 108-144 __set__ *)
Definition assign (w : world) (n f : nat) (vs : list nat) : world :=
  let '(w, l) := new_list w None vs in
  announce (set_dict w n f (Some l)) [{| a_node := n; a_field := f; a_value := PayList l |}].
(** node.py 480-504 *)
Definition fset (w : world) (n f : nat) (vs : list nat) : world :=
  match dict w n f with
  | Some l => mutate w l (SetSlice {| sl_start := None; sl_stop := None; sl_step := None |} vs)
  | None =>
      let '(w, l) := new_list w None vs in
      let w := announce (set_dict w n f (Some l)) [{| a_node := n; a_field := f; a_value := PayList l |}] in
      let w := {| nextl := nextl w; lists := upd (lists w) l {| items := vs; sender := Some n; log := [] |};
                  dict := dict w; regs := regs w; sent := sent w |} in
      {| nextl := nextl w; lists := lists w; dict := dict w; regs := upd (regs w) n (regs w n ++ [f]); sent := sent w |}
  end.
(** Python evaluates node.f += vs as: read, __iadd__, assign the result
    (olist.py 122-124 returns the list of new values) *)
Definition iadd (w : world) (n f : nat) (vs : list nat) : world :=
  let '(w, l) := get w n f in
  match OList_Model.step Nat.eqb Nat.eqb (fun _ => true) (fun _ _ => true) (lists w l) (Extend vs) with
  | (_, Ok (RVals r)) => assign (mutate w l (Extend vs)) n f r
  | _ => mutate w l (Extend vs)
  end.
Definition step (w : world) (o : op) : world :=
  match o with
  | Fset n f vs => fset w n f vs
  | Assign n f vs => assign w n f vs
  | Read n f => fst (get w n f)
  | Delete n f => match dict w n f with
      | Some _ => set_dict w n f None       (* sends ('del', f), not ('set', f) *)
      | None => w
      end
  | Mutate l o => mutate w l o
  | Iadd n f vs => iadd w n f vs
  end.
Definition run (w : world) (os : list op) : world := fold_left step os w.
