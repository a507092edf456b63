(** Specification vocabulary for the cache claims (C44, C45). *)
From Verif Require Import Base Cache_Model.

Section Spec.
Context {K D : Type}.

(** the value of the last assignment to holder h in a history *)
Definition sets (h : nat) (o : op K D) : option (option D) :=
  match o with SetData h' d => if Nat.eqb h' h then Some d else None | _ => None end.
Fixpoint last_set (h : nat) (os : list (op K D)) : option (option D) :=
  match os with
  | [] => None
  | o :: os => match last_set h os with Some d => Some d | None => sets h o end
  end.

(** steps that are not a change of a dependency of the record x of holder h, of
    the holder itself, of its client c or of the entry (c, k) *)
Definition harmless (c h : nat) (k : K) (x : holder K D) (o : op K D) : Prop :=
  match o with
  | New _ => True
  | NewHolder c' k' _ _ => ~ (c' = c /\ k' = k)
  | SetData h' _ | Depend h' _ _ | DependObj h' _ | Clear h' | Call h' => h' <> h
  | Notify n f => ~ In (n, f) (h_sigs x)
  | Collect o => o <> c /\ ~ In o (h_objs x)
  end.
(** h is the only live holder for (c, k) *)
Definition only (c h : nat) (k : K) (s : state K D) : Prop :=
  forall h' y, live s h' = true -> hold s h' = Some y -> h_client y = c -> h_key y = k -> h' = h.
End Spec.
