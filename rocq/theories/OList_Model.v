(** Model of vrml/olist.py (class OList, lines 9-125).

    Objects: Leibniz equality of [A] is object identity ([is]); [eqb] is
    Python's [==]; [hashable x] tells whether hash(x) works.
    [isb] decides identity.

    Simplifications: receivers of the messages are passive (they do not call
    back into the list); the [extraArgs] keyword arguments are not recorded;
    subscripts are ints or slices. *)
From Verif Require Import Base PyList.
Open Scope Z_scope.

Section OList.
Context {A : Type}.
Variable eqb : A -> A -> bool.
Variable isb : A -> A -> bool.
Variable hashable : A -> bool.
(** [alive n t]: is the sender node [n] still alive when [t] messages have
    been sent?  (setSender keeps only a weakref, olist.py 35-36.) *)
Variable alive : nat -> nat -> bool.

(** Who a message is sent from: the list itself or the node of setSender. *)
Inductive party := PList | PNode (n : nat).

(** The four event types, olist.py 28-31. *)
Inductive message :=
| NewChild (from : party) (value : A)       (* 'new'     *)
| NewParent (from : A) (parent : party)     (* 'added'   *)
| DelChild (from : party) (value : A)       (* 'del'     *)
| DelParent (from : A) (parent : party).    (* 'removed' *)

Record state := { items : list A; sender : option nat; log : list message }.

(** olist.py 40-46 [_sender] *)
Definition cur_sender (s : state) : party :=
  match sender s with
  | None => PList
  | Some n => if alive n (length (log s)) then PNode n else PList
  end.

Definition emit (s : state) (ms : list message) : state :=
  {| items := items s; sender := sender s; log := log s ++ ms |}.

Definition with_items (s : state) (l : list A) : state :=
  {| items := l; sender := sender s; log := log s |}.

(** olist.py 47-51 [_sendAdded] *)
Definition send_added (s : state) (v : A) : state :=
  let p := cur_sender s in emit s [NewChild p v; NewParent v p].

(** olist.py 52-56 [_sendRemoved] *)
Definition send_removed (s : state) (v : A) : state :=
  let p := cur_sender s in emit s [DelChild p v; DelParent v p].

(** What a call returns. *)
Inductive ret := RNone | RVal (v : A) | RVals (vs : list A).

Definition call := (state * res ret)%type.

(** olist.py 58-62 [append] *)
Definition o_append (s : state) (v : A) : call :=
  let s := with_items s (py_append (items s) v) in
  (send_added s v, Ok (RVal v)).

(** olist.py 63-67 [insert] *)
Definition o_insert (s : state) (i : Z) (v : A) : call :=
  let s := with_items s (py_insert (items s) i v) in
  (send_added s v, Ok (RVal v)).

(** olist.py 68-74 [pop] *)
Definition o_pop (s : state) (index : option Z) : call :=
  let i := match index with None => lenZ (items s) - 1 | Some i => i end in
  match py_pop (items s) i with
  | Exc e => (s, Exc e)
  | Ok (v, l) => (send_removed (with_items s l) v, Ok (RVal v))
  end.

(** olist.py 75-79 [remove] *)
Definition o_remove (s : state) (v : A) : call :=
  match py_remove eqb (items s) v with
  | None => (s, Exc ValueError)
  | Some l => (send_removed (with_items s l) v, Ok (RVal v))
  end.

(** olist.py 80-91 [__delitem__], slice branch (82-87) *)
Definition o_del_slice (s : state) (sl : pyslice) : call :=
  match py_get_slice (items s) sl with
  | Exc e => (s, Exc e)
  | Ok current =>
      let s := fold_left send_removed current s in
      match py_del_slice (items s) sl with
      | Exc e => (s, Exc e)
      | Ok l => (with_items s l, Ok (RVals current))
      end
  end.

(** olist.py 80-91 [__delitem__], integer branch (88-91): the item is
    announced as removed; no call removes it. *)
Definition o_del_int (s : state) (i : Z) : call :=
  match py_get (items s) i with
  | Exc e => (s, Exc e)
  | Ok v => (send_removed s v, Ok (RVal v))
  end.

(** olist.py 102-109: the loop over [values]; [currents] is the frozen set,
    [previous] the shrinking list.  Hashing an unhashable value raises
    TypeError in the middle of the loop. *)
Fixpoint set_slice_loop (currents : list A) (values : list A) (s : state)
         (previous : list A) : state * res (list A) :=
  match values with
  | [] => (s, Ok previous)
  | v :: vs =>
      if negb (hashable v) then (s, Exc TypeError)
      else if negb (py_in eqb v currents)
           then set_slice_loop currents vs (send_added s v) previous
           else set_slice_loop currents vs s
                  (match py_remove eqb previous v with
                   | Some p => p | None => previous end)
  end.

(** olist.py 94-112 [__setitem__], slice branch *)
Definition o_set_slice (s : state) (sl : pyslice) (values : list A) : call :=
  match py_get_slice (items s) sl with
  | Exc e => (s, Exc e)
  | Ok previous =>
      if negb (forallb hashable previous) then (s, Exc TypeError) else
      match py_set_slice (items s) sl values with
      | Exc e => (s, Exc e)
      | Ok l =>
          match set_slice_loop previous values (with_items s l) previous with
          | (s, Exc e) => (s, Exc e)
          | (s, Ok previous') =>
              (fold_left send_removed previous' s, Ok (RVals values))
          end
      end
  end.

(** olist.py 113-120 [__setitem__], integer branch *)
Definition o_set_int (s : state) (i : Z) (v : A) : call :=
  match py_get (items s) i with
  | Exc e => (s, Exc e)
  | Ok current =>
      let s := if negb (isb current v) then send_removed s current else s in
      match py_set (items s) i v with
      | Exc e => (s, Exc e)
      | Ok l =>
          let s := with_items s l in
          (if negb (isb current v) then send_added s v else s, Ok (RVal v))
      end
  end.

(** olist.py 122-125 [__iadd__] = [extend] *)
Definition o_extend (s : state) (values : list A) : call :=
  o_set_slice s (slice2 (lenZ (items s)) (lenZ (items s))) values.

(** olist.py 34-39 [setSender] *)
Definition o_set_sender (s : state) (n : option nat) : call :=
  ({| items := items s; sender := n; log := log s |}, Ok RNone).

(** Inherited from list without override: [clear] (no messages). *)
Definition o_clear (s : state) : call := (with_items s [], Ok RNone).

Inductive op :=
| Append (v : A) | Insert (i : Z) (v : A) | Pop (i : option Z) | Remove (v : A)
| DelSlice (sl : pyslice) | DelInt (i : Z)
| SetSlice (sl : pyslice) (vs : list A) | SetInt (i : Z) (v : A)
| Extend (vs : list A) | SetSender (n : option nat) | Clear.

Definition step (s : state) (o : op) : call :=
  match o with
  | Append v => o_append s v
  | Insert i v => o_insert s i v
  | Pop i => o_pop s i
  | Remove v => o_remove s v
  | DelSlice sl => o_del_slice s sl
  | DelInt i => o_del_int s i
  | SetSlice sl vs => o_set_slice s sl vs
  | SetInt i v => o_set_int s i v
  | Extend vs => o_extend s vs
  | SetSender n => o_set_sender s n
  | Clear => o_clear s
  end.

(** A history of calls; exceptions are caught by the caller and the history
    continues.  Returns the final state and the results in order. *)
Fixpoint run (s : state) (os : list op) : state * list (res ret) :=
  match os with
  | [] => (s, [])
  | o :: os => let (s1, r) := step s o in
               let (s2, rs) := run s1 os in (s2, r :: rs)
  end.

(** The value of the *name* after [x += vs]: Python rebinds it to whatever
    [__iadd__] returns. *)
Inductive binding := BOList (s : state) | BPlain (l : list A).
Definition iadd_name (s : state) (vs : list A) : binding :=
  match o_extend s vs with
  | (s', Ok (RVals l)) => BPlain l
  | (s', _) => BOList s'
  end.
End OList.
