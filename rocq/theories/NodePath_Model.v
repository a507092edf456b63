(** Model of scenegraph paths.

    vrml/nodepath.py 33-60 (common, __add__, __eq__ of the base NodePath) and
    vrml/vrml97/nodepath.py 26-29, 101-130 (parent/children bookkeeping and
    invalidate).  A node is identified by a number (its identity, [is]).

    Simplifications: paths hold strong references (NodePath, not WeakNodePath);
    list items of a path are only nodes. *)
From Verif Require Import Base.

(** nodepath.py 33-44: [for index in range(min(len(self), len(other)))] with
    [break] at the first difference; [k] is the number of iterations left. *)
Fixpoint common_loop (p q : list nat) (k index : nat) (result : list nat) : list nat :=
  match k with
  | O => result
  | S k' => match nth_error p index, nth_error q index with
            | Some a, Some b =>
                if Nat.eqb a b then common_loop p q k' (S index) (result ++ [a]) else result
            | _, _ => result            (* index < both lengths: not reached *)
            end
  end.
Definition common (p q : list nat) : list nat :=
  common_loop p q (Nat.min (length p) (length q)) 0 [].

(** nodepath.py 53-60 *)
Fixpoint eq_loop (p q : list nat) (k index : nat) : bool :=
  match k with
  | O => true
  | S k' => match nth_error p index, nth_error q index with
            | Some a, Some b => if Nat.eqb a b then eq_loop p q k' (S index) else false
            | _, _ => false             (* not reached: equal lengths *)
            end
  end.
Definition path_eq (p q : list nat) : bool :=
  if negb (Nat.eqb (length p) (length q)) then false else eq_loop p q (length p) 0.

(** nodepath.py 45-49; the operand is a node or a list/path *)
Inductive operand := ONode (n : nat) | OList_ (l : list nat).
Definition operand_items (o : operand) : list nat :=
  match o with ONode n => [n] | OList_ l => l end.
Definition path_add (p : list nat) (o : operand) : list nat := p ++ operand_items o.

(** ** Parent/child bookkeeping of vrml97 paths (vrml97/nodepath.py 26-29, 101-130)

    Path objects are numbers, allocated in order.  [kids p] is the list of weak
    references held in self.children (None and [] are not distinguished). *)
Record pstate := {
  next : nat;                      (* allocation counter *)
  items : nat -> list nat;         (* the nodes on the path *)
  parent : nat -> option nat;      (* self.parent *)
  kids : nat -> list nat;          (* referents of self.children, in order *)
  broken : nat -> bool;            (* self.broken *)
  plive : nat -> bool              (* object not collected *)
}.

Definition set_at {A} (f : nat -> A) (k : nat) (x : A) : nat -> A :=
  fun j => if Nat.eqb j k then x else f j.

Definition pempty : pstate :=
  {| next := 0; items := fun _ => []; parent := fun _ => None; kids := fun _ => [];
     broken := fun _ => false; plive := fun _ => false |}.

(** NodePath(items) *)
Definition pnew (s : pstate) (l : list nat) : pstate :=
  {| next := S (next s); items := set_at (items s) (next s) l;
     parent := set_at (parent s) (next s) None; kids := set_at (kids s) (next s) [];
     broken := set_at (broken s) (next s) false; plive := set_at (plive s) (next s) true |}.

(** vrml97/nodepath.py 101-110 *)
Definition padd (s : pstate) (p : nat) (o : operand) : pstate :=
  let c := next s in
  {| next := S c; items := set_at (items s) c (path_add (items s p) o);
     parent := set_at (parent s) c (Some p);
     kids := set_at (set_at (kids s) c []) p (kids s p ++ [c]);
     broken := set_at (broken s) c false; plive := set_at (plive s) c true |}.

(** vrml97/nodepath.py 111-119: yields the live children, and drops the dead
    references (a dead reference equals only itself, so [remove] drops exactly
    that entry). *)
Definition iterchildren (s : pstate) (p : nat) : pstate * list nat :=
  let l := filter (plive s) (kids s p) in
  ({| next := next s; items := items s; parent := parent s; kids := set_at (kids s) p l;
      broken := broken s; plive := plive s |}, l).

Definition mark (s : pstate) (p : nat) : pstate :=
  {| next := next s; items := items s; parent := parent s; kids := kids s;
     broken := set_at (broken s) p true; plive := plive s |}.

(** vrml97/nodepath.py 120-130: invalidate marks self, then each item produced
    by iterdescendents (a child, then that child's children), as produced. *)
Definition mark_children (s : pstate) (p : nat) : pstate :=
  let (s1, l) := iterchildren s p in fold_left mark l s1.
Definition mark_descendents (s : pstate) (p : nat) : pstate :=
  let (s1, l) := iterchildren s p in
  fold_left (fun s c => mark_children (mark s c) c) l s1.
Definition invalidate (s : pstate) (p : nat) : pstate := mark_descendents (mark s p) p.

(** A path may be collected when no live path has it as parent (parent is a
    strong reference). *)
Definition has_live_child (s : pstate) (p : nat) : bool :=
  existsb (fun c => plive s c && match parent s c with Some q => Nat.eqb q p | None => false end)
          (seq 0 (next s)).
Definition pcollect (s : pstate) (p : nat) : pstate :=
  if has_live_child s p then s else
  {| next := next s; items := items s; parent := parent s; kids := kids s;
     broken := broken s; plive := set_at (plive s) p false |}.

Inductive pop_ := PNew (l : list nat) | PAdd (p : nat) (o : operand)
               | PInvalidate (p : nat) | PCollect (p : nat).
(** Operations are only possible on live path objects. *)
Definition pstep (s : pstate) (o : pop_) : pstate :=
  match o with
  | PNew l => pnew s l
  | PAdd p x => if plive s p then padd s p x else s
  | PInvalidate p => if plive s p then invalidate s p else s
  | PCollect p => pcollect s p
  end.
Definition prun (s : pstate) (os : list pop_) : pstate := fold_left pstep os s.
