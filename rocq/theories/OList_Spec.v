(** Specification vocabulary for C01-C04, independent of OList_Model's helpers:
    a plain builtin list receiving the same calls, and counters over the
    message log. *)
From Verif Require Import Base PyList OList_Model.
Open Scope Z_scope.

Section Spec.
Context {A : Type}.
Variable eqb : A -> A -> bool.

(** What a builtin list does for one call: new contents, and exception or the
    value the caller sees (only pop has an interesting one). *)
Definition plain_step (l : list A) (o : op (A:=A)) : list A * res (option A) :=
  match o with
  | Append v => (l ++ [v], Ok None)
  | Insert i v => (py_insert l i v, Ok None)
  | Pop i => match py_pop l (match i with Some i => i | None => -1 end) with
             | Ok (v, l') => (l', Ok (Some v))
             | Exc e => (l, Exc e)
             end
  | Remove v => match py_remove eqb l v with
                | Some l' => (l', Ok None)
                | None => (l, Exc ValueError)
                end
  | DelSlice sl => match py_del_slice l sl with
                   | Ok l' => (l', Ok None) | Exc e => (l, Exc e) end
  | DelInt i => match py_del l i with
                | Ok l' => (l', Ok None) | Exc e => (l, Exc e) end
  | SetSlice sl vs => match py_set_slice l sl vs with
                      | Ok l' => (l', Ok None) | Exc e => (l, Exc e) end
  | SetInt i v => match py_set l i v with
                  | Ok l' => (l', Ok None) | Exc e => (l, Exc e) end
  | Extend vs => (l ++ vs, Ok None)
  | SetSender _ => (l, Ok None)           (* not a list operation *)
  | Clear => ([], Ok None)
  end.

Fixpoint plain_run (l : list A) (os : list (op (A:=A))) : list A * list (res (option A)) :=
  match os with
  | [] => (l, [])
  | o :: os => let (l1, r) := plain_step l o in
               let (l2, rs) := plain_run l1 os in (l2, r :: rs)
  end.

(** The part of an OList result that is compared with the builtin list's. *)
Definition visible (o : op (A:=A)) (r : res (ret (A:=A))) : res (option A) :=
  match r with
  | Exc e => Exc e
  | Ok (RVal v) => match o with Pop _ => Ok (Some v) | _ => Ok None end
  | Ok _ => Ok None
  end.

(** The calls covered by C01: everything except deletion by integer index. *)
Definition not_int_deletion (o : op (A:=A)) : Prop :=
  match o with DelInt _ => False | _ => True end.

(** Values a call passes in. *)
Definition op_values (o : op (A:=A)) : list A :=
  match o with
  | Append v | Insert _ v | Remove v | SetInt _ v => [v]
  | SetSlice _ vs | Extend vs => vs
  | _ => []
  end.

(** Counters over a log, up to ==. *)
Fixpoint news (v : A) (ms : list (message (A:=A))) : nat :=
  match ms with
  | [] => 0
  | NewChild _ w :: t => (if eqb w v then 1 else 0) + news v t
  | _ :: t => news v t
  end%nat.
Fixpoint dels (v : A) (ms : list (message (A:=A))) : nat :=
  match ms with
  | [] => 0
  | DelChild _ w :: t => (if eqb w v then 1 else 0) + dels v t
  | _ :: t => dels v t
  end%nat.
Fixpoint occurrences (v : A) (l : list A) : nat :=
  match l with
  | [] => 0
  | w :: t => (if eqb w v then 1 else 0) + occurrences v t
  end%nat.

(** A slice assignment does not multiply an item already in the replaced part. *)
Definition no_multiplying (l : list A) (o : op (A:=A)) : Prop :=
  match o with
  | SetSlice sl vs =>
      forall prev, py_get_slice l sl = Ok prev ->
      forall v, (0 < occurrences v prev)%nat -> (occurrences v vs <= occurrences v prev)%nat
  | DelInt _ | Clear => False
  | _ => True
  end.

(** Every call of the history satisfies [no_multiplying] in the state (of the
    plain list) in which it is made. *)
Fixpoint hist_ok (l : list A) (os : list (op (A:=A))) : Prop :=
  match os with
  | [] => True
  | o :: os => no_multiplying l o /\ hist_ok (fst (plain_step l o)) os
  end.

(** Message pairing.  [alive n t]: the node [n] is alive when [t] messages
    have been sent. *)
Variable alive : nat -> nat -> bool.

(** [paired snd t ms]: [ms] consists of child/parent pairs; [t] messages were
    sent before; [sender] is fixed. *)
Definition sender_at (n : option nat) (t : nat) : party :=
  match n with None => PList | Some m => if alive m t then PNode m else PList end.

Inductive paired (n : option nat) : nat -> list (message (A:=A)) -> Prop :=
| paired_nil t : paired n t []
| paired_new t v ms : paired n (2 + t) ms ->
    paired n t (NewChild (sender_at n t) v :: NewParent v (sender_at n t) :: ms)
| paired_del t v ms : paired n (2 + t) ms ->
    paired n t (DelChild (sender_at n t) v :: DelParent v (sender_at n t) :: ms).

Definition is_set_sender (o : op (A:=A)) : option (option nat) :=
  match o with SetSender n => Some n | _ => None end.

(** The whole log of a history: a concatenation of paired segments, one per
    call, each under the sender in force at that call. *)
Fixpoint segments (n : option nat) (t : nat) (os : list (op (A:=A))) (ms : list (message (A:=A))) : Prop :=
  match os with
  | [] => ms = []
  | o :: os =>
      match is_set_sender o with
      | Some n' => segments n' t os ms
      | None => exists a b, ms = a ++ b /\ paired n t a /\ segments n (length a + t) os b
      end
  end.

End Spec.
