(** C47-C49: vrml/nodepath.py and the bookkeeping of vrml/vrml97/nodepath.py. *)
From Verif Require Import Base NodePath_Model NodePath_Proofs.

(** C47.  [prefix_of a b := exists t, b = a ++ t]. *)
Theorem C47_common_longest :
  forall p q,
  prefix_of (common p q) p /\ prefix_of (common p q) q /\
  (forall r, prefix_of r p -> prefix_of r q -> prefix_of r (common p q)).
Proof. exact common_spec. Qed.
Print Assumptions C47_common_longest.
Theorem C47_common_commutes : forall p q, common p q = common q p.
Proof. exact common_comm. Qed.
Print Assumptions C47_common_commutes.

(** C48.  Path equality is equality of the sequences of identities, hence an
    equivalence and a congruence for +. *)
Theorem C48_eq_is_identity : forall p q, path_eq p q = true <-> p = q.
Proof. exact path_eq_spec. Qed.
Print Assumptions C48_eq_is_identity.
Theorem C48_add_node_and_list :
  forall p q n, path_add p (ONode n) = p ++ [n] /\ path_add p (OList_ q) = p ++ q.
Proof. intros; split; reflexivity. Qed.
Print Assumptions C48_add_node_and_list.
Theorem C48_add_congruent :
  forall p p' q q', path_eq p p' = true -> path_eq q q' = true ->
  path_eq (path_add p (OList_ q)) (path_add p' (OList_ q')) = true.
Proof. intros p p' q q'. rewrite !path_eq_spec. intros -> ->. reflexivity. Qed.
Print Assumptions C48_add_congruent.

(** C49.  In every reachable state, invalidating a live path breaks exactly the
    path, the live paths built from it by +, and those built from these. *)
Theorem C49_invalidate_exact :
  forall os p q,
  let s := prun pempty os in
  plive s p = true -> plive s q = true ->
  let s' := pstep s (PInvalidate p) in
  (broken s' q = true <->
   broken s q = true \/ q = p \/ parent s q = Some p \/
   exists c, parent s q = Some c /\ parent s c = Some p).
Proof. exact invalidate_exact. Qed.
Print Assumptions C49_invalidate_exact.
Theorem C49_invalidate_changes_nothing_else :
  forall os p,
  let s := prun pempty os in
  let s' := pstep s (PInvalidate p) in
  items s' = items s /\ parent s' = parent s /\ plive s' = plive s.
Proof. exact invalidate_frame. Qed.
Print Assumptions C49_invalidate_changes_nothing_else.

(** C49 (wider claim refuted): a live descendant three levels below stays
    unbroken. *)
Theorem C49_deep_descendants_missed_refuted :
  exists os p c d q,
  let s := prun pempty os in
  parent s q = Some d /\ parent s d = Some c /\ parent s c = Some p /\
  plive s q = true /\ plive s p = true /\ broken (pstep s (PInvalidate p)) q = false.
Proof.
  exists [PNew [1]; PAdd 0 (ONode 2); PAdd 1 (ONode 3); PAdd 2 (ONode 4)], 0, 1, 2, 3.
  vm_compute. repeat split.
Qed.
Print Assumptions C49_deep_descendants_missed_refuted.

(** Non-vacuity: a history with two children, a collection and a second
    generation. *)
Definition ex_paths := [PNew [1]; PAdd 0 (ONode 2); PAdd 0 (ONode 3); PAdd 1 (OList_ [4;5]);
                        PCollect 2; PNew [9]].
Example C49_hyps :
  let s := prun pempty ex_paths in
  plive s 0 = true /\ plive s 3 = true /\ plive s 2 = false /\ items s 3 = [1;2;4;5] /\
  map (broken (pstep s (PInvalidate 0))) [0;1;3;4] = [true;true;true;false].
Proof. vm_compute. repeat split. Qed.
Example C47_ex : common [1;2;3;4] [1;2;5] = [1;2].
Proof. reflexivity. Qed.
