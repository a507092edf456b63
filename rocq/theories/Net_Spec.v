(** What it means for a scene's ROUTEs to be in effect. *)
From Verif Require Import Base Text Route_Model Net_Model.
From Coq Require Import Relations.
Local Open Scope nat_scope.

Section Spec.
Variable port : nat -> text -> option nat.

(** the ROUTE has a source, and its field is c *)
Definition comes_from (o : robj) (c : cell) : Prop :=
  r_src o = Some (fst c) /\ r_sf o <> [] /\ port (fst c) (r_sf o) = Some (snd c).
(** the ROUTE has a destination, and its field is c *)
Definition goes_to (o : robj) (c : cell) : Prop :=
  r_dst o = Some (fst c) /\ r_df o <> [] /\ port (fst c) (r_df o) = Some (snd c).

(** someone refers to the ROUTE: the scene or the user *)
Definition kept (n : net) (x : recv) : Prop := In x (n_routes n) \/ In x (n_held n).
(** some ROUTE that is kept leads from a to b *)
Definition leads (n : net) (a b : cell) : Prop :=
  exists r, kept n (Route r) /\ comes_from (n_obj n r) a /\ goes_to (n_obj n r) b.
Definition reaches (n : net) : cell -> cell -> Prop := clos_trans cell (leads n).

(** histories in which no ROUTE is given another source after it was made *)
Definition keeps_sources (o : op) : Prop :=
  match o with SetSrc _ _ | SetSf _ _ => False | _ => True end.
End Spec.
