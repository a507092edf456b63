(** C37-C40: names, prototypes and roots of scenegraphs. *)
From Verif Require Import Base Text PyDict SceneGraph_Model SceneGraph_Proofs.
Local Open Scope nat_scope.

(** C37.  A registration history [h] is a list of (name, node), oldest first.
    Every table entry agrees with the node's own DEF. *)
Theorem C37_table_agrees_with_nodes :
  forall h d o, getDEF (reg_all dempty h) d = Some o -> ndef (reg_all dempty h) o = d.
Proof. exact (fun h => proj2 (reg_all_inv h dempty dinv_empty)). Qed.
Print Assumptions C37_table_agrees_with_nodes.

(** C37.  Hence no node is listed under two names. *)
Theorem C37_one_name_per_node :
  forall h d d' o, getDEF (reg_all dempty h) d = Some o ->
  getDEF (reg_all dempty h) d' = Some o -> d = d'.
Proof.
  intros h d d' o H1 H2. apply C37_table_agrees_with_nodes in H1, H2. congruence.
Qed.
Print Assumptions C37_one_name_per_node.

(** C37.  Complete description: d names o iff (d,o) was registered and since then
    neither was d registered for any node nor o under any name. *)
Theorem C37_lookup_is_last_registration :
  forall h d o, getDEF (reg_all dempty h) d = Some o <->
  exists h1 h2, h = h1 ++ (d, o) :: h2 /\
    (forall o', ~ In (d, o') h2) /\ (forall d', ~ In (d', o) h2).
Proof. exact reg_history. Qed.
Print Assumptions C37_lookup_is_last_registration.
Theorem C37_node_name_is_last_registration :
  forall h o, ndef (reg_all dempty h) o =
  match find (fun p => Nat.eqb (snd p) o) (rev h) with Some p => fst p | None => [] end.
Proof. exact reg_all_ndef. Qed.
Print Assumptions C37_node_name_is_last_registration.

(** C37 (refuted outside the API): after a plain assignment to node.DEF the
    table entry is stale and survives re-registration. *)
Theorem C37_direct_assignment_refuted :
  exists d d' e o, d <> e /\
  let s := regDefName (assignDEF (regDefName dempty d o) d' o) e o in
  getDEF s d = Some o /\ getDEF s e = Some o.
Proof. exists (lit "A"), (lit "B"), (lit "C"), 1. split; [discriminate|split; reflexivity]. Qed.
Print Assumptions C37_direct_assignment_refuted.

(** C38.  [chain s g l]: the scenegraphs g, root g, root (root g), ... as far as
    the (weakly held) roots are alive.  In every reachable state the chain is
    finite and lookup returns the definition of the nearest that has one. *)
Theorem C38_nearest_definition :
  forall os g name, let s := grun gempty os in
  exists l, chain s g l /\
  exists r, getProto s g name = Some r /\
  match r with
  | Some p => exists near g' far, l = near ++ g' :: far /\
      dget text_eqb (protos s g') name = Some p /\
      forall x, In x near -> dget text_eqb (protos s x) name = None
  | None => forall x, In x l -> dget text_eqb (protos s x) name = None
  end.
Proof.
  intros os g name s. destruct (ginv_run os) as [I _]. fold s in I.
  destruct (chain_exists s I g) as [l C]. exists l. split; [exact C|].
  exists (first_def s l name). split; [apply getProto_fuel_spec; auto|].
  destruct (first_def s l name) as [p|] eqn:E; [apply first_def_some, E|apply first_def_none, E].
Qed.
Print Assumptions C38_nearest_definition.

(** C39.  The pre-scan always terminates ([Some s']); endpoints with a DEF keep
    it; an endpoint without one gets PROTO_n with a name that was not in the
    table, resolves to it, and all PROTO_i with i < n are taken; nothing else
    is renamed. *)
Theorem C39_routed_nodes_named :
  forall proto s rs, NoDup (map fst (defs s)) ->
  exists s', preroutes proto s rs = Some s' /\
  (forall c, ndef s c <> [] -> ndef s' c = ndef s c) /\
  (forall c, ~ In c (endpoints rs) -> ndef s' c = ndef s c) /\
  (forall c, In c (endpoints rs) -> ndef s' c <> []) /\
  (forall c, In c (endpoints rs) -> ndef s c = [] ->
     exists n, ndef s' c = auto_name (proto c) n /\ getDEF s (auto_name (proto c) n) = None /\
               getDEF s' (auto_name (proto c) n) = Some c /\
               forall i, i < n -> getDEF s' (auto_name (proto c) i) <> None).
Proof.
  intros proto s rs ND. rewrite preroutes_visit.
  destruct (visit_all_spec proto (endpoints rs) s ND) as (s' & E & _ & [_ G] & A & B & C).
  exists s'. auto.
Qed.
Print Assumptions C39_routed_nodes_named.

(** C39.  If the table was consistent, all endpoints that had no DEF or were
    registered resolve to themselves afterwards. *)
Theorem C39_endpoints_resolve :
  forall proto h rs s', preroutes proto (reg_all dempty h) rs = Some s' ->
  forall c, In c (endpoints rs) ->
  ndef (reg_all dempty h) c = [] \/ getDEF (reg_all dempty h) (ndef (reg_all dempty h) c) = Some c ->
  getDEF s' (ndef s' c) = Some c.
Proof.
  intros proto h rs s' E c I H. set (s := reg_all dempty h) in *.
  destruct (reg_all_inv h dempty dinv_empty) as [ND _]. fold s in ND.
  rewrite preroutes_visit in E.
  destruct (visit_all_spec proto (endpoints rs) s ND) as (s2 & E2 & _ & [G1 G2] & _ & _ & C).
  rewrite E in E2. injection E2 as <-.
  destruct (list_eq_dec N.eq_dec (ndef s c) []) as [Z|Z].
  - destruct (C c I Z) as (n & -> & _ & X & _). exact X.
  - destruct H as [H|H]; [contradiction|]. rewrite G2 by exact Z. apply G1; assumption.
Qed.
Print Assumptions C39_endpoints_resolve.

(** C39 (refuted for names not in the table): a node whose DEF was assigned
    directly can get a namesake. *)
Theorem C39_unregistered_name_clash_refuted :
  exists proto s rs s' a b, a <> b /\ preroutes proto s rs = Some s' /\ ndef s' a = ndef s' b /\
  NoDup (map fst (defs s)).
Proof.
  exists (fun _ => lit "Transform"), (assignDEF dempty (lit "Transform_0") 1), [(1, 2)].
  eexists. exists 1, 2. split; [discriminate|]. split; [reflexivity|]. split; [reflexivity|constructor].
Qed.
Print Assumptions C39_unregistered_name_clash_refuted.

(** C40.  [child_of kids c p := In c (kids p)]; [Acc] = no infinite descending
    path below n, i.e. (finitely branching) an acyclic graph below n.  With
    enough recursion depth the call returns (the scenegraph [v] has a root
    already, as every constructed one has, or is the node itself); exactly the reachable nodes get
    the root; no DEF changes; every reachable node's DEF resolves to a
    reachable node of that name; other names resolve as before. *)
Theorem C40_root_reaches_exactly_descendants :
  forall kids n, Acc (child_of kids) n ->
  exists depth, forall fuel s v, depth <= fuel -> rroot s v <> None \/ v = n ->
  NoDup (map fst (defs (rdefs s))) ->
  exists s', set_root kids fuel s v n = Some s' /\
  (forall m, reach kids n m -> rroot s' m = Some v) /\
  (forall m, ~ reach kids n m -> rroot s' m = rroot s m) /\
  (forall m, ndef (rdefs s') m = ndef (rdefs s) m) /\
  (forall m, reach kids n m -> exists m', reach kids n m' /\
     ndef (rdefs s) m' = ndef (rdefs s) m /\ getDEF (rdefs s') (ndef (rdefs s) m) = Some m') /\
  (forall d, (forall m, reach kids n m -> ndef (rdefs s) m <> d) ->
     getDEF (rdefs s') d = getDEF (rdefs s) d).
Proof.
  intros kids n A. destruct (set_root_acyclic kids n A) as [d H]. exists d.
  intros fuel s v L Hv ND. destruct (H fuel s v L Hv ND) as (s' & E & [a b c _ f g]).
  exists s'. auto 10.
Qed.
Print Assumptions C40_root_reaches_exactly_descendants.

(** C40 (refuted for cyclic graphs): no recursion depth suffices. *)
Theorem C40_cycle_never_terminates_refuted :
  forall kids n m c, reach kids n m -> In c (kids m) -> reach kids c m ->
  forall fuel s v, set_root kids fuel s v n = None.
Proof. exact set_root_cycle_diverges. Qed.
Print Assumptions C40_cycle_never_terminates_refuted.

(** *** Non-vacuity *)
Example C37_ex :
  let s := reg_all dempty [(lit "A", 1); (lit "B", 2); (lit "A", 2); (lit "C", 1)] in
  map (getDEF s) [lit "A"; lit "B"; lit "C"] = [Some 2; None; Some 1] /\ ndef s 2 = lit "A".
Proof. split; reflexivity. Qed.
Example C38_ex :
  let s := grun gempty [GNew None; GAddProto 0 (lit "P") 10; GNew (Some 0); GNew (Some 1);
                        GAddProto 1 (lit "P") 11; GAddProto 0 (lit "Q") 12] in
  getProto s 2 (lit "P") = Some (Some 11) /\ getProto s 2 (lit "Q") = Some (Some 12) /\
  getProto s 2 (lit "R") = Some None /\
  getProto (gstep s (GCollect 0)) 2 (lit "Q") = Some None.
Proof. repeat split. Qed.
Example C39_ex :
  exists s', preroutes (fun n => if Nat.even n then lit "Group" else lit "Switch")
    (reg_all dempty [(lit "Group_0", 8)]) [(2, 3); (8, 4)] = Some s' /\
  map (ndef s') [2; 3; 4; 8] = [lit "Group_1"; lit "Switch_0"; lit "Group_2"; lit "Group_0"].
Proof. eexists. split; reflexivity. Qed.
(** a diamond-shaped graph *)
Definition ex_kids (n : nat) : list nat :=
  match n with 0 => [1; 2] | 1 => [3] | 2 => [3; 4] | _ => [] end.
Lemma ex_kids_acc n : Acc (child_of ex_kids) n.
Proof.
  assert (H : forall m, 3 <= m -> Acc (child_of ex_kids) m).
  { intros m L. constructor. intros c I. unfold child_of in I.
    destruct m as [|[|[|m]]]; cbn in I; lia || contradiction. }
  assert (H2 : Acc (child_of ex_kids) 2).
  { constructor. intros c I. unfold child_of in I. cbn in I. destruct I as [<-|[<-|[]]]; apply H; lia. }
  assert (H1 : Acc (child_of ex_kids) 1).
  { constructor. intros c I. unfold child_of in I. cbn in I. destruct I as [<-|[]]; apply H; lia. }
  destruct n as [|[|[|n]]]; [|exact H1|exact H2|apply H; lia].
  constructor. intros c I. unfold child_of in I. cbn in I. destruct I as [<-|[<-|[]]]; assumption.
Qed.
Example C40_ex :
  exists s', set_root ex_kids 5 {| rroot := fun n => if Nat.eqb n 9 then Some 9 else None;
     rdefs := assignDEF dempty (lit "leaf") 4 |} 9 0 = Some s' /\
  map (rroot s') [0;1;2;3;4;5] = [Some 9; Some 9; Some 9; Some 9; Some 9; None] /\
  getDEF (rdefs s') (lit "leaf") = Some 4.
Proof. eexists. split; [reflexivity|split; reflexivity]. Qed.
Example C40_cycle_ex : reach (fun n => [1 - n]) 0 0 /\ In 1 [1 - 0] /\ reach (fun n => [1 - n]) 1 0.
Proof.
  split; [apply reach_refl|]. split; [left; reflexivity|].
  eapply reach_cons; [left; reflexivity|apply reach_refl].
Qed.
