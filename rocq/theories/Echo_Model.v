(** vrml/field.py 89-142, 300-316: setting fields whose watchers set fields.
    (accelerate/src/fieldaccel2.pyx does the same.)

    A watcher is called while the assignment that it hears of is under way, and
    what it assigns is stored and announced before it goes on.  A call is an
    arbitrary program over fields; what a watcher keeps for itself is a field
    nobody watches.

    Simplifications: the connections do not change; a field that has no value yet
    has its default, which reading stores without a message; the fields of all
    nodes are numbered. *)
From Coq Require Import List.
From Verif Require Import Base.
Import ListNotations.

Section Echo.
(** values *)
Variable V : Type.
(** what a piece of code does next: end, raise, read a field, or assign to one;
    after an assignment it learns whether that raised *)
Inductive outcome : Type := Ret | Raised (e : exn).
Inductive prog : Type :=
| Done
| Raise (e : exn)
| Get (k : nat) (c : V -> prog)
| Put (k : nat) (v : V) (c : outcome -> prog).

(** coerce of each field, and the receivers that dispatcher.send finds for
    ('set', field) and its node, in the order of their calls *)
Variable coerce : nat -> V -> res V.
Variable watchers : nat -> list nat.
(** what watcher [w] does on a message that field [k] is now [v] *)
Variable react : nat -> nat -> V -> prog.

Definition store : Type := nat -> V.
Definition put (s : store) (k : nat) (v : V) : store := fun j => if Nat.eqb j k then v else s j.

(** what happens, in order: a value is stored; a watcher is called; a call
    raises; the interpreter refuses to nest calls any deeper *)
Inductive happening : Type :=
| Stored (k : nat) (v : V)
| Called (w k : nat) (v : V)
| Threw (w k : nat)
| TooDeep.

(** 101-109 __set__, 112-120 fset, 122-142 _set: coerce, store, send;
    dispatcher.send: the receivers one after the other *)
Inductive sets : nat -> V -> store -> list happening -> store -> outcome -> Prop :=
| s_refused k v s e : coerce k v = Exc e -> sets k v s [] s (Raised ValueError)
| s_deep k v s : sets k v s [TooDeep] s (Raised RecursionError)
| s_done k v v' s tr s' o : coerce k v = Ok v' -> sends (watchers k) k v' (put s k v') tr s' o ->
    sets k v s (Stored k v' :: tr) s' o
with sends : list nat -> nat -> V -> store -> list happening -> store -> outcome -> Prop :=
| c_none k v s : sends [] k v s [] s Ret
| c_deep w ws k v s : sends (w :: ws) k v s [TooDeep] s (Raised RecursionError)
| c_next w ws k v s t1 s1 t2 s2 o : does (react w k v) s t1 s1 Ret -> sends ws k v s1 t2 s2 o ->
    sends (w :: ws) k v s (Called w k v :: t1 ++ t2) s2 o
| c_threw w ws k v s t1 s1 e : does (react w k v) s t1 s1 (Raised e) ->
    sends (w :: ws) k v s (Called w k v :: t1 ++ [Threw w k]) s1 (Raised e)
with does : prog -> store -> list happening -> store -> outcome -> Prop :=
| d_done s : does Done s [] s Ret
| d_raise e s : does (Raise e) s [] s (Raised e)
| d_get k c s t s' o : does (c (s k)) s t s' o -> does (Get k c) s t s' o
| d_put k v c s t1 s1 o1 t2 s2 o : sets k v s t1 s1 o1 -> does (c o1) s1 t2 s2 o -> does (Put k v c) s (t1 ++ t2) s2 o.
End Echo.
