(** Vocabulary for receivers that raise. *)
From Verif Require Import Base PyList OList_Model OList_Spec.

(** some of a list, in order *)
Inductive some_of {X : Type} : list X -> list X -> Prop :=
| some_nil : some_of [] []
| some_skip x l k : some_of k l -> some_of k (x :: l)
| some_take x l k : some_of k l -> some_of (x :: k) (x :: l).

(** calls that change the list before they announce anything *)
Definition changes_first {A : Type} (o : op (A:=A)) : Prop :=
  match o with
  | Append _ | Insert _ _ | Pop _ | Remove _ | SetSlice _ _ | Extend _ => True
  | _ => False
  end.

(** a receiver raised on the last message of [l] *)
Definition raised_on_last {M : Type} (boom : list M -> M -> bool) (l : list M) : Prop :=
  exists a m, l = a ++ [m] /\ boom a m = true.
