(** Specification vocabulary for routing (C32-C36): what links a list of ROUTE
    and IS objects establishes between (node, field) cells. *)
From Verif Require Import Base Route_Model.
From Coq Require Import Relations.

(** a ROUTE carries from source to destination, an IS in both directions *)
Definition linked (ls : list link) (a b : cell) : Prop :=
  In (LRoute a b) ls \/ In (LIS a b) ls \/ In (LIS b a) ls.
(** IS mappings join a prototype node and another node *)
Definition proper (ls : list link) : Prop := forall a b, In (LIS a b) ls -> fst a <> fst b.
(** [downstream ls a b]: b is connected to a by one or more links *)
Definition downstream (ls : list link) : cell -> cell -> Prop := clos_trans cell (linked ls).

(** [carried ls coerce a v c w]: w is v, set on a, coerced along some chain of
    links from a to c *)
Inductive carried {V} (ls : list link) (coerce : cell -> V -> res V) (a : cell) (v : V) : cell -> V -> Prop :=
| carried_here : carried ls coerce a v a v
| carried_on c w d w' : carried ls coerce a v c w -> linked ls c d -> coerce d w = Ok w' ->
    carried ls coerce a v d w'.

(** how many times a cell occurs in a list of deliveries *)
Definition times {V} (x : cell) (t : list (cell * V)) : nat :=
  length (filter (fun p => cell_eqb (fst p) x) t).
