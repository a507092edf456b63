(** Weak references: WeakField (vrml/field.py 340-374, as used by
    node.WeakSFNode, vrml/node.py 392-395) and WeakList (vrml/weaklist.py).

    Objects are numbers.  The collector is an explicit step [Collect n] which
    may occur between any two operations; it has no effect while the field
    itself holds a strong reference.  Collection of an object is atomic: its
    weakrefs are cleared and their callbacks have run when the next operation
    starts. *)
From Verif Require Import Base PyList.
Open Scope Z_scope.

(** ** WeakField: one client, one field, default NULL *)
(** What the client's __dict__ can hold under the field's name. *)
Inductive cell := CNull | CRef (n : nat) | CStrong (n : nat).
(** What Python code sees. *)
Inductive pv := VNone | VNull | VObj (n : nat) | VRef (n : nat).

Record wstate := { slot : option cell; alive : nat -> bool }.
Inductive impl := Pure | Accel.

Definition with_slot (s : wstate) (c : option cell) : wstate :=
  {| slot := c; alive := alive s |}.

Definition seen (c : cell) : pv :=
  match c with CNull => VNull | CRef n => VRef n | CStrong n => VObj n end.

(** BaseField.__delete__: field.py 168-173 (pure) / fieldaccel2.pyx 64-75 *)
Definition w_fdel (i : impl) (s : wstate) : wstate * res pv :=
  match slot s with
  | None => (s, Exc AttributeError)
  | Some _ => (match i with Pure => s | Accel => with_slot s None end, Ok VNone)
  end.

(** field.py 343-356 [fset]; the caller holds the object, so a dead one cannot
    be passed except through a weakref (which is dereferenced first). *)
Definition w_fset (i : impl) (s : wstate) (v : pv) : wstate * res pv :=
  let v := match v with VRef n => if alive s n then VObj n else VNone | _ => v end in
  match v with
  | VObj n => (with_slot s (Some (CRef n)), Ok (VObj n))
  | _ => match w_fdel i s with                       (* not value: NULL, None *)
         | (s', Exc e) => (s', Exc e)
         | (s', Ok _) => (s', Ok VNone)
         end
  end.

(** field.py 358-374 [fget]; super().fget materialises the default NULL *)
Definition w_fget (i : impl) (s : wstate) : wstate * res pv :=
  let '(s, c) := match slot s with
                 | Some c => (s, c)
                 | None => (with_slot s (Some CNull), CNull)
                 end in
  match c with
  | CNull => (s, Ok VNull)                            (* not value *)
  | CStrong n => (s, Ok (VObj n))
  | CRef n => if alive s n then (s, Ok (VObj n))
              else match w_fdel i s with
                   | (s', Exc e) => (s', Exc e)
                   | (s', Ok _) => (s', Ok VNone)
                   end
  end.

(** Attribute access uses BaseField.__get__/__set__ (field.py 96-116): the
    mix-in does not override them. *)
Definition w_attr_get (s : wstate) : wstate * res pv :=
  match slot s with
  | Some c => (s, Ok (seen c))
  | None => (with_slot s (Some CNull), Ok VNull)
  end.
Definition w_attr_set (s : wstate) (v : pv) : wstate * res pv :=
  match v with
  | VNone | VNull => (with_slot s (Some CNull), Ok VNone)   (* coerce None -> NULL *)
  | VObj n => (with_slot s (Some (CStrong n)), Ok VNone)
  | VRef n => (with_slot s (Some (CRef n)), Ok VNone)
  end.

Definition collect (s : wstate) (n : nat) : wstate :=
  match slot s with
  | Some (CStrong m) => if Nat.eqb m n then s
                        else {| slot := slot s; alive := fun k => if Nat.eqb k n then false else alive s k |}
  | _ => {| slot := slot s; alive := fun k => if Nat.eqb k n then false else alive s k |}
  end.

Inductive wop := WFSet (v : pv) | WFGet | WAttrGet | WAttrSet (v : pv) | WCollect (n : nat).

(** The caller can only pass live objects. *)
Definition wop_ok (s : wstate) (o : wop) : bool :=
  match o with
  | WFSet (VObj n) | WAttrSet (VObj n) => alive s n
  | _ => true
  end.

Definition wstep (i : impl) (s : wstate) (o : wop) : wstate * res pv :=
  if negb (wop_ok s o) then (s, Ok VNone) else
  match o with
  | WFSet v => w_fset i s v
  | WFGet => w_fget i s
  | WAttrGet => w_attr_get s
  | WAttrSet v => w_attr_set s v
  | WCollect n => (collect s n, Ok VNone)
  end.

Fixpoint wrun (i : impl) (s : wstate) (os : list wop) : wstate :=
  match os with [] => s | o :: os => wrun i (fst (wstep i s o)) os end.

(** ** WeakList *)
Record lstate := { refs : list nat;            (* referents of the stored weakrefs *)
                   lalive : nat -> bool }.

(** An argument: an object the caller holds, or a weakref to one. *)
Inductive arg := AObj (n : nat) | ARef (n : nat).

(** weaklist.py 30-40 [wrap]: weakref.ref(None) is a TypeError *)
Definition wrap (s : lstate) (a : arg) : res nat :=
  match a with
  | AObj n => Ok n
  | ARef n => if lalive s n then Ok n else Exc TypeError
  end.
Fixpoint wrap_all (s : lstate) (a : list arg) : res (list nat) :=
  match a with
  | [] => Ok []
  | x :: t => bind (wrap s x) (fun n => bind (wrap_all s t) (fun ns => Ok (n :: ns)))
  end.

Definition with_refs (s : lstate) (l : list nat) : lstate :=
  {| refs := l; lalive := lalive s |}.

Inductive lret := LNone | LObj (n : nat) | LBool (b : bool).

(** weaklist.py 50-56 [get]: builtin list has no __getslice__ on Python 3 *)
Definition l_get (s : lstate) : res (list nat) := Exc AttributeError.

Inductive lop :=
| LAppend (a : arg)                  (* 74-76 *)
| LInsert (i : Z) (a : arg)          (* 77-81 *)
| LExtend (a : list arg)             (* 82-86 *)
| LSetSlice (sl : pyslice) (a : list arg) (* 64-72 slice branch *)
| LSetInt (i : Z) (a : arg)          (* 64-72 integer branch *)
| LGet (i : Z)                       (* 89-91 *)
| LGetSlice (sl : pyslice)           (* 89-91 with a slice *)
| LPop (i : Z)                       (* 92-94 *)
| LDelInt (i : Z) | LDelSlice (sl : pyslice)   (* inherited *)
| LContains (a : arg) | LCount (a : arg) | LIndex (a : arg) | LRemove (a : arg)
| LSort | LCompare | LRepr           (* 96-147, all through get() *)
| LCollect (n : nat).

Definition lift (s : lstate) (r : res (list nat)) : lstate * res lret :=
  match r with Ok l => (with_refs s l, Ok LNone) | Exc e => (s, Exc e) end.
Definition via_get (s : lstate) (k : list nat -> lstate * res lret) : lstate * res lret :=
  match l_get s with Exc e => (s, Exc e) | Ok l => k l end.

Definition lstep (s : lstate) (o : lop) : lstate * res lret :=
  match o with
  | LAppend a => lift s (bind (wrap s a) (fun n => Ok (py_append (refs s) n)))
  | LInsert i a => lift s (bind (wrap s a) (fun n => Ok (py_insert (refs s) i n)))
  | LExtend a => lift s (bind (wrap_all s a) (fun ns => Ok (refs s ++ ns)))
  | LSetSlice sl a => lift s (bind (wrap_all s a) (fun ns => py_set_slice (refs s) sl ns))
  | LSetInt i a => (s, Exc NameError)              (* line 69: wrap(x), x undefined *)
  | LGet i => (s, bind (py_get (refs s) i) (fun n => Ok (LObj n)))
  | LGetSlice sl => (s, match py_get_slice (refs s) sl with
                        | Exc e => Exc e
                        | Ok _ => Exc TypeError      (* unwrap calls the list *)
                        end)
  | LPop i => match py_pop (refs s) i with
              | Ok (n, l) => (with_refs s l, Ok (LObj n))
              | Exc e => (s, Exc e)
              end
  | LDelInt i => lift s (py_del (refs s) i)
  | LDelSlice sl => lift s (py_del_slice (refs s) sl)
  | LContains a | LCount a | LIndex a | LRemove a => via_get s (fun _ => (s, Ok LNone))
  | LSort | LCompare | LRepr => via_get s (fun _ => (s, Ok LNone))
  | LCollect n =>                                     (* callbacks, 149-162 *)
      ({| refs := filter (fun k => negb (Nat.eqb k n)) (refs s);
          lalive := fun k => if Nat.eqb k n then false else lalive s k |}, Ok LNone)
  end.

(** The caller only passes objects that are alive. *)
Definition arg_ok (s : lstate) (a : arg) : bool :=
  match a with AObj n => lalive s n | ARef _ => true end.
Definition lop_ok (s : lstate) (o : lop) : bool :=
  match o with
  | LAppend a | LInsert _ a | LSetInt _ a => arg_ok s a
  | LExtend a | LSetSlice _ a => forallb (arg_ok s) a
  | _ => true
  end.
Fixpoint lrun (s : lstate) (os : list lop) : lstate :=
  match os with
  | [] => s
  | o :: os => lrun (if lop_ok s o then fst (lstep s o) else s) os
  end.

(** weaklist.py 57-62 [__iter__]: an index-based generator.  Each step is
    preceded by a list of collections. *)
Fixpoint iterate (l : list nat) (index : nat) (sched : list (list nat)) : list nat * list nat :=
  match sched with
  | [] => ([], l)
  | dead :: sched =>
      let l := filter (fun k => negb (existsb (Nat.eqb k) dead)) l in
      match nth_error l index with
      | None => ([], l)                                (* index >= len: stop *)
      | Some n => let (ys, l') := iterate l (S index) sched in (n :: ys, l')
      end
  end.
