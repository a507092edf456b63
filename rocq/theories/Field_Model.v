(** Model of field storage and notification.

    vrml/field.py 87-182 (pure-Python BaseField), 224-231 (Field.fhas) and
    accelerate/src/fieldaccel2.pyx 4-94 (Cython BaseField; field.py 83-84
    selects it when importable).

    A field object is a number; [fname f] is its storage name (self.name), the
    key in the client's __dict__.  [coerce f] and [deflt f] are arbitrary
    (possibly raising) functions: coerce is overridden by every field type,
    deflt is self.defaultobj or self.defaultobj() (field.py 160-163).

    Simplifications: clients are instances (the [isinstance(client, type)]
    branch of _set, field.py 140-141, is not modelled); receivers are passive;
    the message carries (kind, field, client, value). *)
From Verif Require Import Base.

Section Field.
Context {V : Type}.
Variable fname : nat -> nat.
Variable coerce : nat -> V -> res V.
Variable deflt : nat -> res V.

Inductive msg :=
| MSet (f n : nat) (v : V)      (* ('set', field) from client, value=v *)
| MDel (f n : nat).             (* ('del', field) from client *)

(** client -> storage name -> value in client.__dict__ *)
Definition store := nat -> nat -> option V.
Record state := { dict : store; log : list msg }.

Definition upd (d : store) (n k : nat) (x : option V) : store :=
  fun n' k' => if Nat.eqb n' n && Nat.eqb k' k then x else d n' k'.

Definition put (s : state) (n k : nat) (x : option V) : state :=
  {| dict := upd (dict s) n k x; log := log s |}.
Definition send (s : state) (m : msg) : state :=
  {| dict := dict s; log := log s ++ [m] |}.

Inductive out := OUnit | OVal (v : V) | OBool (b : bool).
Definition call := (state * res out)%type.

(** field.py 128-144 [_set]: ValueError and TypeError of coerce become
    ValueError, anything else escapes; the store is written only afterwards. *)
Definition wrap_exn (e : exn) : exn :=
  match e with TypeError => ValueError | _ => e end.

Definition set_ (s : state) (n f : nat) (v : V) : state * res V :=
  match coerce f v with
  | Exc e => (s, Exc (wrap_exn e))
  | Ok w => (put s n (fname f) (Some w), Ok w)
  end.

(** field.py 154-166 [getDefault] *)
Definition get_default (s : state) (client : option nat) (f : nat) : state * res V :=
  match deflt f with
  | Exc e => (s, Exc e)
  | Ok d => match client with
            | None => (s, Ok d)
            | Some n => set_ s n f d
            end
  end.

Definition ret_val (r : state * res V) : call :=
  (fst r, match snd r with Ok v => Ok (OVal v) | Exc e => Exc e end).

(** field.py 96-106 [__get__] = [fget] *)
Definition get (s : state) (n f : nat) : call :=
  match dict s n (fname f) with
  | Some v => (s, Ok (OVal v))
  | None => ret_val (get_default s (Some n) f)
  end.

(** field.py 118-126 [fset]; 108-116 [__set__] is [fset] with notify and
    result None. *)
Definition fset (s : state) (n f : nat) (v : V) (notify : bool) : call :=
  match set_ s n f v with
  | (s', Exc e) => (s', Exc e)
  | (s', Ok w) => (if notify then send s' (MSet f n w) else s', Ok (OVal w))
  end.
Definition attr_set (s : state) (n f : nat) (v : V) : call :=
  match fset s n f v true with
  | (s', Ok _) => (s', Ok OUnit)
  | (s', Exc e) => (s', Exc e)
  end.

(** field.py 168-173 [__delete__], pure Python: only *looks up* the value. *)
Definition py_delete (s : state) (n f : nat) : call :=
  match dict s n (fname f) with
  | Some _ => (s, Ok OUnit)
  | None => (s, Exc AttributeError)
  end.
(** field.py 175-182 [fdel], pure Python *)
Definition py_fdel (s : state) (n f : nat) (notify : bool) : call :=
  match py_delete s n f with
  | (s', Exc e) => (s', Exc e)
  | (s', Ok _) => (if notify then send s' (MDel f n) else s', Ok OUnit)
  end.

(** fieldaccel2.pyx 64-75 [_del] *)
Definition ac_del (s : state) (n f : nat) (notify : bool) : call :=
  match dict s n (fname f) with
  | None => (s, Exc AttributeError)
  | Some v => let s' := put s n (fname f) None in
              (if notify then send s' (MDel f n) else s', Ok (OVal v))
  end.
(** fieldaccel2.pyx 30-33 [__delete__], 38-40 [fdel] *)
Definition ac_delete (s : state) (n f : nat) : call :=
  match ac_del s n f true with
  | (s', Ok _) => (s', Ok OUnit)
  | (s', Exc e) => (s', Exc e)
  end.

(** field.py 224-231 [fhas] *)
Definition fhas (s : state) (n f : nat) : bool :=
  match dict s n (fname f) with Some _ => true | None => false end.

Inductive op :=
| Get (n f : nat)                        (* node.f / f.fget(node) *)
| Set_ (n f : nat) (v : V)               (* node.f = v *)
| FSet (n f : nat) (v : V) (notify : bool)
| Del (n f : nat)                        (* del node.f *)
| FDel (n f : nat) (notify : bool)
| Default (f : nat)                      (* f.getDefault() *)
| Has (n f : nat).

Inductive impl := Pure | Accel.

Definition step (i : impl) (s : state) (o : op) : call :=
  match o with
  | Get n f => get s n f
  | Set_ n f v => attr_set s n f v
  | FSet n f v b => fset s n f v b
  | Del n f => match i with Pure => py_delete s n f | Accel => ac_delete s n f end
  | FDel n f b => match i with Pure => py_fdel s n f b | Accel => ac_del s n f b end
  | Default f => ret_val (get_default s None f)
  | Has n f => (s, Ok (OBool (fhas s n f)))
  end.

Fixpoint run (i : impl) (s : state) (os : list op) : state * list (res out) :=
  match os with
  | [] => (s, [])
  | o :: os => let (s1, r) := step i s o in
               let (s2, rs) := run i s1 os in (s2, r :: rs)
  end.

Definition empty : state := {| dict := fun _ _ => None; log := [] |}.
End Field.
