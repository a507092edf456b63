(** vrml/olist.py and vrml/field.py with receivers that raise.  dispatcher.send
    calls the receivers one after another and lets the exception of a receiver
    through to its caller (pydispatch/dispatcher.py send); so it leaves every
    method of the list in the middle.

    [boom l m]: does a receiver raise on message [m], sent after the messages
    [l]?  The receivers do nothing else to the list; what they raise is
    [OtherError].  A message counts as sent when the first receiver was called. *)
From Verif Require Import Base PyList OList_Model.
Local Open Scope Z_scope.

Section Watched.
Context {A : Type}.
Variable eqb : A -> A -> bool.
Variable isb : A -> A -> bool.
Variable hashable : A -> bool.
Variable alive : nat -> nat -> bool.
Variable boom : list (message (A:=A)) -> message (A:=A) -> bool.
Notation state := (state (A:=A)).
Notation call := (call (A:=A)).

(** messages sent one after another, until one raises *)
Fixpoint sends (s : state) (ms : list (message (A:=A))) : state * res unit :=
  match ms with
  | [] => (s, Ok tt)
  | m :: r => if boom (log s) m then (emit s [m], Exc OtherError) else sends (emit s [m]) r
  end.
(** olist.py 47-51 [_sendAdded] *)
Definition w_added (s : state) (v : A) : state * res unit :=
  let p := cur_sender alive s in sends s [NewChild p v; NewParent v p].
(** olist.py 52-56 [_sendRemoved] *)
Definition w_removed (s : state) (v : A) : state * res unit :=
  let p := cur_sender alive s in sends s [DelChild p v; DelParent v p].
(** [for value in ...: self._sendRemoved( value )] *)
Fixpoint w_removeds (s : state) (vs : list A) : state * res unit :=
  match vs with
  | [] => (s, Ok tt)
  | v :: r => match w_removed s v with (s, Ok _) => w_removeds s r | (s, Exc e) => (s, Exc e) end
  end.
(** the result of a call that sends last *)
Definition giving (r : ret (A:=A)) (p : state * res unit) : call :=
  match p with (s, Ok _) => (s, Ok r) | (s, Exc e) => (s, Exc e) end.

(** olist.py 58-62 *)
Definition w_append (s : state) (v : A) : call := giving (RVal v) (w_added (with_items s (py_append (items s) v)) v).
(** 63-67 *)
Definition w_insert (s : state) (i : Z) (v : A) : call := giving (RVal v) (w_added (with_items s (py_insert (items s) i v)) v).
(** 68-74 *)
Definition w_pop (s : state) (index : option Z) : call :=
  let i := match index with None => lenZ (items s) - 1 | Some i => i end in
  match py_pop (items s) i with
  | Exc e => (s, Exc e)
  | Ok (v, l) => giving (RVal v) (w_removed (with_items s l) v)
  end.
(** 75-79 *)
Definition w_remove (s : state) (v : A) : call :=
  match py_remove eqb (items s) v with
  | None => (s, Exc ValueError)
  | Some l => giving (RVal v) (w_removed (with_items s l) v)
  end.
(** 80-87 *)
Definition w_del_slice (s : state) (sl : pyslice) : call :=
  match py_get_slice (items s) sl with
  | Exc e => (s, Exc e)
  | Ok current =>
      match w_removeds s current with
      | (s, Exc e) => (s, Exc e)
      | (s, Ok _) => match py_del_slice (items s) sl with
                     | Exc e => (s, Exc e)
                     | Ok l => (with_items s l, Ok (RVals current))
                     end
      end
  end.
(** 88-91 *)
Definition w_del_int (s : state) (i : Z) : call :=
  match py_get (items s) i with
  | Exc e => (s, Exc e)
  | Ok v => giving (RVal v) (w_removed s v)
  end.
(** 102-109 *)
Fixpoint w_loop (currents : list A) (values : list A) (s : state) (previous : list A) : state * res (list A) :=
  match values with
  | [] => (s, Ok previous)
  | v :: vs =>
      if negb (hashable v) then (s, Exc TypeError)
      else if negb (py_in eqb v currents)
           then match w_added s v with
                | (s, Ok _) => w_loop currents vs s previous
                | (s, Exc e) => (s, Exc e)
                end
           else w_loop currents vs s (match py_remove eqb previous v with Some p => p | None => previous end)
  end.
(** 94-112 *)
Definition w_set_slice (s : state) (sl : pyslice) (values : list A) : call :=
  match py_get_slice (items s) sl with
  | Exc e => (s, Exc e)
  | Ok previous =>
      if negb (forallb hashable previous) then (s, Exc TypeError) else
      match py_set_slice (items s) sl values with
      | Exc e => (s, Exc e)
      | Ok l =>
          match w_loop previous values (with_items s l) previous with
          | (s, Exc e) => (s, Exc e)
          | (s, Ok previous') => giving (RVals values) (w_removeds s previous')
          end
      end
  end.
(** 113-120 *)
Definition w_set_int (s : state) (i : Z) (v : A) : call :=
  match py_get (items s) i with
  | Exc e => (s, Exc e)
  | Ok current =>
      match (if negb (isb current v) then w_removed s current else (s, Ok tt)) with
      | (s, Exc e) => (s, Exc e)
      | (s, Ok _) =>
          match py_set (items s) i v with
          | Exc e => (s, Exc e)
          | Ok l =>
              let s := with_items s l in
              if negb (isb current v) then giving (RVal v) (w_added s v) else (s, Ok (RVal v))
          end
      end
  end.
(** 122-125 *)
Definition w_extend (s : state) (values : list A) : call :=
  w_set_slice s (slice2 (lenZ (items s)) (lenZ (items s))) values.

Definition w_step (s : state) (o : op (A:=A)) : call :=
  match o with
  | Append v => w_append s v
  | Insert i v => w_insert s i v
  | Pop i => w_pop s i
  | Remove v => w_remove s v
  | DelSlice sl => w_del_slice s sl
  | DelInt i => w_del_int s i
  | SetSlice sl vs => w_set_slice s sl vs
  | SetInt i v => w_set_int s i v
  | Extend vs => w_extend s vs
  | SetSender n => o_set_sender s n
  | Clear => o_clear s
  end.
(** a history of calls; the caller catches the exceptions and goes on *)
Fixpoint w_run (s : state) (os : list (op (A:=A))) : state * list (res (ret (A:=A))) :=
  match os with
  | [] => (s, [])
  | o :: os => let (s1, r) := w_step s o in
               let (s2, rs) := w_run s1 os in (s2, r :: rs)
  end.
End Watched.

From Verif Require Field_Model.
(** Fields, with receivers that raise on a 'set' or 'del' message. *)
Section WatchedField.
Context {V : Type}.
Variable fname : nat -> nat.
Variable coerce : nat -> V -> res V.
Variable deflt : nat -> res V.
Variable fboom : list (Field_Model.msg (V:=V)) -> Field_Model.msg (V:=V) -> bool.
Import Field_Model.
Notation fstate := (Field_Model.state (V:=V)).

(** [dispatcher.send(...)], then the result of the call *)
Definition f_send (s : fstate) (m : msg) (r : out) : Field_Model.call (V:=V) :=
  (Field_Model.send s m, if fboom (Field_Model.log s) m then Exc OtherError else Ok r).
(** field.py 118-126 [fset]; fieldaccel2.pyx 35-37, 77-94 *)
Definition f_fset (s : fstate) (n f : nat) (v : V) (notify : bool) : Field_Model.call (V:=V) :=
  match set_ fname coerce s n f v with
  | (s', Exc e) => (s', Exc e)
  | (s', Ok w) => if notify then f_send s' (MSet f n w) (OVal w) else (s', Ok (OVal w))
  end.
(** field.py 108-116 [__set__] *)
Definition f_attr_set (s : fstate) (n f : nat) (v : V) : Field_Model.call (V:=V) :=
  match f_fset s n f v true with
  | (s', Ok _) => (s', Ok OUnit)
  | (s', Exc e) => (s', Exc e)
  end.
(** field.py 175-182 [fdel], pure Python *)
Definition f_py_fdel (s : fstate) (n f : nat) (notify : bool) : Field_Model.call (V:=V) :=
  match py_delete fname s n f with
  | (s', Exc e) => (s', Exc e)
  | (s', Ok _) => if notify then f_send s' (MDel f n) OUnit else (s', Ok OUnit)
  end.
(** fieldaccel2.pyx 64-75 [_del] *)
Definition f_ac_del (s : fstate) (n f : nat) (notify : bool) : Field_Model.call (V:=V) :=
  match dict s n (fname f) with
  | None => (s, Exc AttributeError)
  | Some v => let s' := put s n (fname f) None in
              if notify then f_send s' (MDel f n) (OVal v) else (s', Ok (OVal v))
  end.
(** fieldaccel2.pyx 30-33 [__delete__] *)
Definition f_ac_delete (s : fstate) (n f : nat) : Field_Model.call (V:=V) :=
  match f_ac_del s n f true with
  | (s', Ok _) => (s', Ok OUnit)
  | (s', Exc e) => (s', Exc e)
  end.
Definition f_step (i : impl) (s : fstate) (o : Field_Model.op (V:=V)) : Field_Model.call (V:=V) :=
  match o with
  | Get n f => get fname coerce deflt s n f
  | Set_ n f v => f_attr_set s n f v
  | FSet n f v b => f_fset s n f v b
  | Del n f => match i with Pure => py_delete fname s n f | Accel => f_ac_delete s n f end
  | FDel n f b => match i with Pure => f_py_fdel s n f b | Accel => f_ac_del s n f b end
  | Default f => ret_val (get_default fname coerce deflt s None f)
  | Has n f => (s, Ok (OBool (fhas fname s n f)))
  end.
Fixpoint f_run (i : impl) (s : fstate) (os : list (Field_Model.op (V:=V))) : fstate * list (res out) :=
  match os with
  | [] => (s, [])
  | o :: os => let (s1, r) := f_step i s o in
               let (s2, rs) := f_run i s1 os in (s2, r :: rs)
  end.
End WatchedField.
