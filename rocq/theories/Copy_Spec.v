(** Specification vocabulary for C41, C42. *)
From Verif Require Import Base PyDict Copy_Model.

Definition val_refs (v : val) : list nat := match v with VRef l | VWeak l => [l] | _ => [] end.
Definition obj_refs (o : obj) : list nat :=
  match o with
  | ONode _ d => concat (map (fun kv => val_refs (snd kv)) d)
  | ONodes _ l => l
  | OArr _ | OStrs _ => []
  end.
(** every object and reference of the heap was allocated *)
Record wf (s : state) : Prop := {
  wf_alloc : forall l o, heap s l = Some o -> l < next s;
  wf_refs : forall l o r, heap s l = Some o -> In r (obj_refs o) -> r < next s;
  wf_defs : forall l d k r, defs s l = Some d -> In (k, Some r) d -> r < next s;
  wf_sg : forall l d, defs s l = Some d -> l < next s }.

(** following references, weak ones included *)
Inductive reach (s : state) : nat -> nat -> Prop :=
| reach_refl l : reach s l l
| reach_step l o r l' : heap s l = Some o -> In r (obj_refs o) -> reach s r l' -> reach s l l'.

(** the values a field of each kind stores *)
Definition typed (s : state) (k : kind) (v : val) : Prop :=
  match k with
  | KAtom => exists z, v = VAtom z
  | KArr => exists l a, v = VRef l /\ heap s l = Some (OArr a)
  | KStrs => exists l a, v = VRef l /\ heap s l = Some (OStrs a)
  | KNode => exists l c d, v = VRef l /\ heap s l = Some (ONode c d)
  | KNodes => exists l b a, v = VRef l /\ heap s l = Some (ONodes b a)
  | KWeak => v = VNone \/ (exists l, v = VWeak l /\ forall o, heap s l = Some o -> is_node o = true)
      \/ exists l c d, v = VRef l /\ heap s l = Some (ONode c d)
  end.
Definition node_ok (fields : nat -> list (nat * kind)) (s : state) (n : nat) : Prop :=
  exists cls d, heap s n = Some (ONode cls d) /\ NoDup (map fst (fields cls)) /\
  forall f k v, In (f, k) (fields cls) -> dget Nat.eqb d f = Some v -> typed s k v.

(** the object an operation is applied to, if it exists already *)
Definition target (o : op) : option nat :=
  match o with
  | New _ => None
  | Assign n _ _ | Delete n _ => Some n
  | Mutate l _ | Collect l => Some l
  end.

(** What belongs to a node: itself, its arrays and lists, and the object of a
    weak reference.  Sub-nodes do not. *)
Definition part_of (fields : nat -> list (nat * kind)) (s : state) (n l : nat) : Prop :=
  l = n \/ exists cls d f k, heap s n = Some (ONode cls d) /\ In (f, k) (fields cls) /\
    ((k = KArr \/ k = KStrs \/ k = KNodes) /\ dget Nat.eqb d f = Some (VRef l)
     \/ k = KWeak /\ dget Nat.eqb d f = Some (VWeak l)).
