(** What a record of happenings says about one field and one watcher. *)
From Coq Require Import List Arith Bool.
From Verif Require Import Base Echo_Model.
Import ListNotations.
Section Spec.
Variable V : Type.
(** the values field [k] was given, oldest first *)
Fixpoint given (k : nat) (t : list (happening V)) : list V :=
  match t with
  | [] => []
  | Stored _ j v :: t => if Nat.eqb j k then v :: given k t else given k t
  | _ :: t => given k t
  end.
(** the values of field [k] that watcher [w] heard of, oldest first *)
Fixpoint heard (w k : nat) (t : list (happening V)) : list V :=
  match t with
  | [] => []
  | Called _ x j v :: t => if Nat.eqb x w && Nat.eqb j k then v :: heard w k t else heard w k t
  | _ :: t => heard w k t
  end.
(** the last of them, if any *)
Definition latest (d : V) (l : list V) : V := last l d.
(** watcher [w], called for field [k], does not assign to [k], neither itself
    nor through the watchers its assignments wake up *)
Definition leaves_alone coerce watchers react (w k : nat) : Prop :=
  forall v s t s' o, does V coerce watchers react (react w k v) s t s' o -> given k t = [].
(** a piece of code that assigns only to fields [P] *)
Fixpoint assigns_only (P : nat -> Prop) (p : prog V) : Prop :=
  match p with
  | Done _ | Raise _ _ => True
  | Get _ _ c => forall v, assigns_only P (c v)
  | Put _ k _ c => P k /\ forall o, assigns_only P (c o)
  end.
(** no chain of watchers leads back to the field it started from: the watchers of
    a field assign only to fields of a higher rank *)
Definition acyclic (watchers : nat -> list nat) (react : nat -> nat -> V -> prog V) (rank : nat -> nat) : Prop :=
  forall w k v, In w (watchers k) -> assigns_only (fun j => rank k < rank j) (react w k v).
(** nobody raised *)
Definition smooth (t : list (happening V)) : Prop := ~ In (TooDeep V) t /\ forall w k, ~ In (Threw V w k) t.
End Spec.
