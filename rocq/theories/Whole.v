(** A scene, or the body of a PROTO: written as text and built again. *)
From Coq Require Import Reals Permutation SpecFloat.
From Flocq Require Import Core.Core IEEE754.BinarySingleNaN.
From Verif Require Import Base Text PyDict PyDict_Proofs Float Coerce_Model Coerce_Spec Grammar_Model Lex_Spec Lex_Proofs
  Doc_Spec Doc_Proofs SceneGraph_Model SceneGraph_Proofs VrmlStr_Model VrmlStr_Spec VrmlStr_Proofs VrmlStr_Values Scene_Model Linearise_Model
  Build_Model Scene_Spec Linearise_Proofs Drop_Proofs Layout_Proofs Written Rebuilt Scene_Proofs.
Local Open Scope nat_scope.
Local Open Scope list_scope.
Notation RNode := Scene_Model.RNode.

(** what is written for a well-formed scene, behind [pre] *)
Lemma written_roots P fstr protos st S ism pre ew k : wf_protos P protos -> wf_scene P protos S -> ok_settings st -> faithful fstr ->
  (forall n f v pn, fget P S n f = Ok v -> ism n (f_name f) = Some pn -> is_name pn = true /\ ref_ids v = []) ->
  sep_text ew -> ends_name (ew ++ k) = true ->
  exists s t rl N dn D' is, scene_body P fstr protos st N ism pre (depth S) = LOk s /\ l_buf s = pre ++ t /\
    t ++ ew = show_roots rl /\ ok_roots rl k /\ (exists r w l, rl = RCons r w l) /\ N = with_defs S dn /\ named S = Some N /\
    (forall n, node_def N n = node_def S n \/ (node_def S n = [] /\ routed S n)) /\
    (forall n nd, s_node S n = Some nd -> node_def N n <> [] ->
       is_name (node_def N n) = true /\ getDEF (s_defs N) (node_def N n) = Some n) /\
    (forall n, routed S n -> node_def N n <> []) /\
    walk_refs P protos N ism [] (s_kids S) D' is /\
    Forall (fun i => match i with SNode _ _ _ | SUse _ => True | _ => False end) is /\
    sk_roots rl = map SRItem is ++ map (route_sk_of N) (s_routes S) /\
    (forall n, reach P protos S n -> In n D').
Proof.
  intros WP WS ST FS MP He Hk. destruct (named_ok P protos S _ _ WP WS) as (dn & En & H1 & H2 & H3 & H4). set (N := with_defs S dn) in *.
  assert (Rn : forall n, reach P protos S n -> exists nd, s_node S n = Some nd).
  { intros n H. induction H as [n H|m n _ [nd IH] H].
    - destruct (wf_kids _ _ _ WS) as [_ F]. rewrite Forall_forall in F. exact (F _ H).
    - unfold node_refs in H. rewrite IH in H. destruct (wf_nodes _ _ _ WS m nd IH) as (fs & Pr & V). rewrite Pr in H.
      apply in_flat_map in H as (f & Hf & H). destruct (V f Hf) as (v & G & Ov). rewrite G in H. unfold ok_value in Ov.
      destruct (f_kind f), v as [v|r|l]; try contradiction.
      + destruct r as [|x]; [destruct H|]. destruct H as [<-|[]]. destruct Ov as [Q|Q]; [discriminate|exact Q].
      + apply in_flat_map in H as (r & Hr & H). rewrite Forall_forall in Ov. specialize (Ov r Hr). destruct r; [destruct H|].
        destruct H as [<-|[]]. exact Ov. }
  destruct (roots_text P fstr protos st N ism FS ST WP) with (pre := pre) (ew := ew) (k := k)
    as (s & rl & D' & is & E & (t & B & Et) & Okd & Ne & Wk & Nn & Sk).
  - exact (wf_ids _ _ _ WS).
  - exact (wf_nodes _ _ _ WS).
  - intros n nd Nd Hn. exact (proj1 (H2 n nd Nd Hn)).
  - exact MP.
  - intros n U. destruct (H3 n U) as (U1 & U2). destruct (wf_shared _ _ _ WS n) as [H|[H|H]]; [exact H|contradiction|contradiction].
  - exact (wf_kids _ _ _ WS).
  - intros r Hr. destruct (wf_routes _ _ _ WS r Hr) as (Ra & Rb & Na & Nb). destruct (Rn _ Ra) as [nda Nda]. destruct (Rn _ Rb) as [ndb Ndb].
    split; [apply (H2 _ _ Nda), H4; exists r; auto|]. split; [exact Na|]. split; [apply (H2 _ _ Ndb), H4; exists r; auto|exact Nb].
  - exact He.
  - exact Hk.
  - exists s, t, rl, N, dn, D', is. split; [exact E|]. split; [exact B|]. split; [exact Et|]. split; [exact Okd|]. split; [exact Ne|].
    split; [reflexivity|]. split; [exact En|]. split; [exact H1|]. split; [exact H2|]. split; [exact H4|].
    split; [exact Wk|]. split; [exact Nn|]. split; [exact Sk|].
    intros n Hn. apply (reached P protos N ism D' is Wk). clear - Hn. induction Hn as [n H|m n _ IH H]; [apply reach_kid; exact H|eapply reach_field; [exact IH|exact H]].
Qed.
Lemma unique_names N S : (forall n nd, s_node S n = Some nd -> node_def N n <> [] ->
    is_name (node_def N n) = true /\ getDEF (s_defs N) (node_def N n) = Some n) -> 
  forall a b x y, s_node S a = Some x -> s_node S b = Some y -> node_def N a = node_def N b -> node_def N a <> [] -> a = b.
Proof.
  intros H a b x y Ha Hb E Na. destruct (H a x Ha Na) as [_ G]. rewrite E in G, Na. destruct (H b y Hb Na) as [_ G2]. congruence.
Qed.

(** ... and what is built from that, in context [c0] when the PROTOs [tab] have
    been declared *)
Lemma rebuilt_roots P base c0 tab protos S ism N dn D' is ch :
  let c := mkctx (c_in c0) (tab ++ c_env c0) (c_outer c0) in
  wf_protos P protos -> wf_scene P protos S ->
  (forall n nd fs, s_node S n = Some nd -> proto protos (n_gi nd) = Some fs ->
     exists fs', proto (known base c) (n_gi nd) = Some fs' /\ inst_ok base c (n_gi nd) = Ok tt /\ fields_ok P fs fs') ->
  (forall n nd fs f v, s_node S n = Some nd -> proto protos (n_gi nd) = Some fs -> In f fs ->
     fget P S n f = Ok v -> ism n (f_name f) = None -> dropped f v = Ok false -> sets_one base c S n (n_gi nd) f) ->
  (forall n nm pn, ism n nm = Some pn -> c_in c0 = true) ->
  N = with_defs S dn ->
  (forall n nd, s_node S n = Some nd -> node_def N n <> [] ->
       is_name (node_def N n) = true /\ getDEF (s_defs N) (node_def N n) = Some n) ->
  (forall n, routed S n -> node_def N n <> []) ->
  walk_refs P protos N ism [] (s_kids S) D' is ->
  Forall (fun i => match i with SNode _ _ _ | SUse _ => True | _ => False end) is ->
  (forall n, reach P protos S n -> In n D') ->
  map erase ch = map et_root (map SRItem is ++ map (route_sk_of N) (s_routes S)) ->
  exists S' rho, build_scene P base c0 ch (tab, scene0) = Ok (tab, S') /\
    bi N rho S' /\ Forall (node_ok P protos N ism rho S') rho /\
    Forall2 (same_ref (Rho rho)) (s_kids S) (s_kids S') /\ Forall2 (same_route (Rho rho)) (s_routes S) (s_routes S').
Proof.
  intros c WP WS TY ASG CIN EN H2 H4 Wk Nn Rc Ech. rewrite map_app in Ech.
  assert (exists l1 l2, ch = l1 ++ l2 /\ map erase l1 = map et_root (map SRItem is) /\ map erase l2 = map et_root (map (route_sk_of N) (s_routes S)))
    as (l1 & l2 & -> & E1 & E2).
  { clear - Ech. revert ch Ech. induction (map SRItem is) as [|i l IH]; intros ch E; [exists [], ch; auto|].
    destruct ch as [|t ch]; [discriminate|]. cbn in E. injection E as Et E. destruct (IH ch E) as (l1 & l2 & -> & A & B).
    exists (t :: l1), l2. cbn. rewrite A, Et. auto. }
  assert (NodesN : forall n nd, s_node N n = Some nd -> exists fs, proto protos (n_gi nd) = Some fs /\
    forall f, In f fs -> exists v, fget P N n f = Ok v /\ ok_value N f v).
  { subst N. exact (wf_nodes _ _ _ WS). }
  assert (UN : forall a b x y, s_node N a = Some x -> s_node N b = Some y -> node_def N a = node_def N b -> node_def N a <> [] -> a = b).
  { pose proof (unique_names N S H2) as Q. subst N. exact Q. }
  assert (TYN : forall n nd fs, s_node N n = Some nd -> proto protos (n_gi nd) = Some fs ->
     exists fs', proto (known base c) (n_gi nd) = Some fs' /\ inst_ok base c (n_gi nd) = Ok tt /\ fields_ok P fs fs') by (subst N; exact TY).
  assert (ASGN : forall n nd fs f v, s_node N n = Some nd -> proto protos (n_gi nd) = Some fs -> In f fs ->
     fget P N n f = Ok v -> ism n (f_name f) = None -> dropped f v = Ok false -> sets_one base c N n (n_gi nd) f) by (subst N; exact ASG).
  destruct (kids_build P base c0 tab protos N ism WP NodesN UN TYN ASGN CIN (s_kids S) [] D' is l1 scene0 [] Wk Nn E1) as (B1 & kl & rho & Eb & I & M & Okn & K & Rt & Sl & _).
  { split; try constructor; try (intros; contradiction).
    - intros m nd H. discriminate.
    - intros m nm pn (xs & H & _). destruct H. }
  { reflexivity. }
  { reflexivity. }
  { constructor. }
  destruct (routes_build P base c0 tab protos N ism rho (s_routes S) l2 B1 I Okn) as (B2 & rl & Eb2 & I2 & Okn2 & K2 & Rt2 & Sr).
  { intros r Hr. destruct (wf_routes _ _ _ WS r Hr) as (Ra & Rb & _). rewrite M. split; [apply Rc; exact Ra|]. split; [apply Rc; exact Rb|].
    split; apply H4; exists r; auto. }
  { exact E2. }
  exists B2, rho. split; [rewrite build_scene_app, Eb; exact Eb2|].
  split; [exact I2|]. split; [exact Okn2|].
  rewrite K2, K, Rt2, Rt. split; [exact Sl|exact Sr].
Qed.
