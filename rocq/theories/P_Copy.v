(** C41, C42: copying nodes and scenegraphs. *)
From Verif Require Import Base PyDict PyDict_Proofs Copy_Model Copy_Spec Copy_Proofs.

Section Claims.
Variable fields : nat -> list (nat * kind).
Hypothesis fields_nodup : forall cls, NoDup (map fst (fields cls)).
Notation copyNode := (copyNode fields).
Notation copy := (copy fields).
Notation read := (read fields).
Notation node_ok := (node_ok fields).
Notation part_of := (part_of fields).
(** f is a field of node n *)
Definition has_field (s : state) (n f : nat) : Prop :=
  forall cls d, heap s n = Some (ONode cls d) -> In f (map fst (fields cls)).

Lemma copyNode_copy s n s' c' m : wf s -> copyNode s [] n = Some (s', c', m) ->
  pass s s' c' /\ ext s s' /\ next s <= m /\ m < next s' /\ is_copy fields s s' n m.
Proof.
  intros W H.
  assert (Ln : n < next s).
  { unfold Copy_Model.copyNode in H. cbn in H. destruct (heap s n) eqn:E; [eapply wf_alloc; eauto|discriminate]. }
  destruct (copyNode_spec fields fields_nodup s s [] n s' c' m W (pass_start s W) Ln H) as (P & X & D & _ & C).
  destruct (C eq_refl) as (L & I). destruct (p_cop _ _ _ P _ _ D) as (L2 & _). split; [exact P|]. split; [exact X|]. split; [exact L|]. split; [lia|exact I].
Qed.

(** C41.  Every node can be copied, and the copy is a new node ... *)
Theorem C41_copy_is_new_node : forall s n cls d, wf s -> heap s n = Some (ONode cls d) ->
  exists s' c' m d', copyNode s [] n = Some (s', c', m) /\ heap s m = None /\ heap s' m = Some (ONode cls d').
Proof.
  intros s n cls d W E.
  assert (X : exists s' c' m, copyNode s [] n = Some (s', c', m)).
  { unfold Copy_Model.copyNode. cbn. rewrite E. destruct (copyDict s (fields cls) d []) as [s1 d1]. cbn. eauto. }
  destruct X as (s' & c' & m & H). destruct (copyNode_copy s n s' c' m W H) as (P & _ & L & L2 & cl & dd & d' & E1 & E2 & _).
  rewrite E in E1. injection E1 as <- <-. exists s', c', m, d'. split; [exact H|]. split; [|exact E2].
  destruct (heap s m) eqn:Em; [|reflexivity]. apply (wf_alloc _ W) in Em. lia.
Qed.

(** ... with equal field values: the same atoms and sub-nodes, arrays and lists
    with the same contents, unset fields unset.  The original is unchanged. *)
Theorem C41_copy_equal : forall s n s' c' m f, wf s -> copyNode s [] n = Some (s', c', m) ->
  has_field s n f -> read s' m f = read s n f /\ heap s' n = heap s n /\ read s' n f = read s n f.
Proof.
  intros s n s' c' m f W H If. destruct (copyNode_copy s n s' c' m W H) as (P & X & L & L2 & cls & d & d' & E1 & E2 & F & _).
  assert (Ln : n < next s) by (eapply wf_alloc; eauto).
  assert (En : heap s' n = heap s n) by (apply (e_heap _ _ X), Ln).
  split; [|split; [exact En|]].
  - unfold Copy_Model.read. rewrite E1, E2. specialize (If _ _ E1). apply in_map_iff in If as ([f' k] & <- & If). cbn in *.
    specialize (F _ _ If). destruct (dget Nat.eqb d f') as [v|] eqn:Ef; [|rewrite F; reflexivity].
    destruct F as (v' & Ev & En'). rewrite Ev. rewrite (In_dget Nat.eqb nat_eqb_spec _ _ _ (fields_nodup cls) If).
    apply (n_see _ _ _ _ _ En').
  - unfold Copy_Model.read. rewrite En, E1. destruct (dget Nat.eqb d f) as [v|] eqn:Ef; [|reflexivity].
    apply see_ext; [exact X|exact W|]. intros r I. eapply (wf_refs _ W); [exact E1|]. cbn. eapply val_refs_In; eauto.
Qed.

Lemma copy_node_ok s n s' c' m : wf s -> node_ok s n -> copyNode s [] n = Some (s', c', m) -> node_ok s' m.
Proof.
  intros W (cls & d & E & _ & Ty) H. destruct (copyNode_copy s n s' c' m W H) as (P & X & L & L2 & cl & dd & d' & E1 & E2 & F & _).
  rewrite E in E1. injection E1 as <- <-. exists cls, d'. split; [exact E2|]. split; [apply fields_nodup|].
  intros f k v' I Ev'. specialize (F _ _ I). destruct (dget Nat.eqb d f) as [v|] eqn:Ef; [|congruence].
  destruct F as (v2 & Ev2 & En). rewrite Ev' in Ev2. injection Ev2 as <-. apply (n_typed _ _ _ _ _ En). eapply Ty; eauto.
Qed.
(** the copy's arrays and lists did not exist before *)
Theorem C41_parts_fresh : forall s n s' c' m l, wf s -> node_ok s n -> copyNode s [] n = Some (s', c', m) ->
  part_of s' m l -> heap s l = None /\ next s <= l < next s'.
Proof.
  intros s n s' c' m l W (cls & d & E & _ & Ty) H Pl.
  destruct (copyNode_copy s n s' c' m W H) as (P & X & L & L2 & cl & dd & d' & E1 & E2 & F & _).
  rewrite E in E1. injection E1 as <- <-.
  assert (Ll : next s <= l < next s').
  { split; [|eapply (part_lt fields s' m); eauto; apply (p_wf _ _ _ P)].
    destruct Pl as [->|(cl & dd & f & k & E' & I & Hv)]; [exact L|]. rewrite E2 in E'. injection E' as <- <-.
    specialize (F _ _ I). destruct (dget Nat.eqb d f) as [v|] eqn:Ef; [|destruct Hv as [(_ & Hv)|(_ & Hv)]; congruence].
    destruct F as (v2 & Ev2 & En). pose proof (n_fresh _ _ _ _ _ En (Ty _ _ _ I Ef)) as Fr.
    destruct Hv as [(Hk & Hv)|(-> & Hv)]; rewrite Ev2 in Hv; injection Hv as ->.
    - destruct Hk as [-> | [-> | ->]]; destruct Fr as (l' & El' & Fr); injection El' as <-; exact Fr.
    - exfalso. eapply Fr. reflexivity. }
  split; [|exact Ll]. destruct (heap s l) eqn:El; [|reflexivity]. apply (wf_alloc _ W) in El. lia.
Qed.

(** C41.  Whatever is later done to the original, its arrays and lists, or any
    other object that existed before the copy or is made afterwards, every field
    of the copy keeps the value it was given ... *)
Theorem C41_copy_independent : forall s n s' c' m later f, wf s -> node_ok s n ->
  copyNode s [] n = Some (s', c', m) -> has_field s n f ->
  Forall (fun o => forall t, target o = Some t -> t < next s \/ next s' <= t) later ->
  read (run s' later) m f = read s n f.
Proof.
  intros s n s' c' m later f W Ok H If Fo.
  pose proof (copyNode_copy s n s' c' m W H) as (P & X & L & L2 & cls & d & d' & E1 & E2 & _).
  rewrite <- (proj1 (C41_copy_equal s n s' c' m f W H If)).
  apply view_read; [apply (p_wf _ _ _ P)|eapply copy_node_ok; eauto| |].
  - apply run_view; [apply (p_wf _ _ _ P)|exact L2|apply view_refl|].
    eapply Forall_impl; [|exact Fo]. cbn. intros o Ho t Ht Pt. specialize (Ho t Ht).
    destruct (C41_parts_fresh s n s' c' m t W Ok H Pt) as (_ & Lt). lia.
  - intros cl dd E. rewrite E2 in E. injection E as <- <-. apply (If _ _ E1).
Qed.
(** ... and the other way round. *)
Theorem C41_original_independent : forall s n s' c' m later f, wf s -> node_ok s n ->
  copyNode s [] n = Some (s', c', m) -> has_field s n f ->
  Forall (fun o => forall t, target o = Some t -> next s <= t) later ->
  read (run s' later) n f = read s n f.
Proof.
  intros s n s' c' m later f W Ok H If Fo.
  pose proof (copyNode_copy s n s' c' m W H) as (P & X & L & L2 & cls & d & d' & E1 & E2 & _).
  assert (Ln : n < next s) by (eapply wf_alloc; eauto).
  assert (En : heap s' n = heap s n) by (apply (e_heap _ _ X), Ln).
  destruct (C41_copy_equal s n s' c' m f W H If) as (_ & _ & R). rewrite <- R.
  apply view_read; [apply (p_wf _ _ _ P)| | |].
  - destruct Ok as (cl & dd & E & ND & Ty). exists cl, dd. split; [congruence|]. split; [exact ND|].
    intros f' k v I Ev. eapply typed_ext; [exact X| |eapply Ty; eauto].
    intros r Ir. eapply (wf_refs _ W); [exact E|]. cbn. eapply val_refs_In; eauto.
  - apply run_view; [apply (p_wf _ _ _ P)| |apply view_refl|].
    + pose proof (e_next _ _ X). lia.
    + eapply Forall_impl; [|exact Fo]. cbn. intros o Ho t Ht Pt. specialize (Ho t Ht).
      assert (t < next s); [|lia].
      apply (part_lt fields s n t W Ln). destruct Pt as [->|(cl & dd & g & k & E & Hr)]; [left; reflexivity|].
      right. exists cl, dd, g, k. rewrite <- En. auto.
  - intros cl dd E. apply (If cl dd). congruence.
Qed.

(** C41.  Within one pass a node is copied once: a second copy is the first. *)
Theorem C41_one_copy_per_pass : forall s0 s c n s1 c1 m x s2 c2 y fuel, wf s0 -> pass s0 s c ->
  n < next s0 -> x < next s0 ->
  copyNode s c n = Some (s1, c1, m) -> copy fuel s1 c1 x = Some (s2, c2, y) ->
  copyNode s2 c2 n = Some (s2, c2, m).
Proof.
  intros s0 s c n s1 c1 m x s2 c2 y fuel W P Ln Lx H1 H2.
  destruct (copyNode_spec fields fields_nodup s0 s c n s1 c1 m W P Ln H1) as (P1 & _ & D1 & _).
  destruct (copy_spec fields fields_nodup s0 W fuel s1 c1 x s2 c2 y P1 Lx H2) as (_ & _ & M).
  unfold Copy_Model.copyNode. rewrite (M _ _ D1). reflexivity.
Qed.

(** C41 (refuted).  Sub-nodes are not copied: the copy's sub-node is the
    original's, for every node and every node field. *)
Theorem C41_deep_copy_refuted : forall s n s' c' m f child, wf s -> copyNode s [] n = Some (s', c', m) ->
  has_field s n f -> read s n f = SNode child -> read s' m f = SNode child.
Proof. intros s n s' c' m f child W H If <-. apply (C41_copy_equal s n s' c' m f W H If). Qed.
(** The weak reference to the root becomes a strong one in the copy. *)
Theorem C41_weak_root_refuted : forall s n s' c' m cls d f root o, wf s -> copyNode s [] n = Some (s', c', m) ->
  heap s n = Some (ONode cls d) -> In (f, KWeak) (fields cls) ->
  dget Nat.eqb d f = Some (VWeak root) -> heap s root = Some o -> is_node o = true ->
  exists d', heap s' m = Some (ONode cls d') /\ dget Nat.eqb d' f = Some (VRef root).
Proof.
  intros s n s' c' m cls d f root o W H E I Ef Er No.
  destruct (copyNode_copy s n s' c' m W H) as (P & X & L & L2 & cl & dd & d' & E1 & E2 & F & _).
  rewrite E in E1. injection E1 as <- <-. exists d'. split; [exact E2|].
  specialize (F _ _ I). rewrite Ef in F. destruct F as (v' & Ev & En). rewrite Ev. f_equal.
  assert (Ty : typed s KWeak (VWeak root)).
  { right. left. exists root. split; [reflexivity|]. intros o' Eo. congruence. }
  pose proof (n_fresh _ _ _ _ _ En Ty) as NW. pose proof (n_see _ _ _ _ _ En) as Se.
  cbn [fget] in Se. rewrite Er in Se. cbn [see] in Se. rewrite Er in Se. destruct o; try discriminate. 
  destruct v' as [z|l|l|]; cbn in Se; try discriminate.
  - destruct (heap s' l) as [[]|]; congruence.
  - exfalso. eapply NW. reflexivity.
Qed.

(** C42 (refuted, for every scenegraph).  After copying a scenegraph, looking up
    any DEF name gives a new node that is not in the copied tree. *)
Theorem C42_copied_DEF_in_copy_refuted : forall fuel s n s' c' m table name x, wf s ->
  defs s n = Some table -> NoDup (dkeys table) -> In (name, Some x) table -> name <> 0 ->
  copy fuel s [] n = Some (s', c', m) ->
  exists table' x', defs s' m = Some table' /\ dget Nat.eqb table' name = Some (Some x') /\
    heap s x' = None /\ x' <> x /\ ~ reach s' m x'.
Proof.
  intros fuel s n s' c' m table name x W Ed ND Ix Nz H.
  assert (Ln : n < next s) by (eapply wf_sg; eauto).
  assert (Nx : x <> n).
  { intros ->. destruct name as [|k]; [congruence|].
    rewrite (copy_diverges fields fields_nodup s n table k W Ed Ix fuel s [] (pass_start s W)) in H. discriminate. }
  destruct fuel as [|fuel]; [discriminate|]. rewrite copy_S, Ed in H.
  destruct (entries (copy fuel) s [] table []) as [[[s1 c1] new]|] eqn:Ee; [|discriminate].
  destruct (entries_spec s (copy fuel) W (copy_spec fields fields_nodup s W fuel) table s [] [] s1 c1 new (pass_start s W)) as (P1 & M1 & A1 & _ & N1); auto.
  { intros k r I. eapply (wf_defs _ W); eauto. }
  { intros k r []. }
  destruct (N1 ND _ _ Ix Nz) as (x' & Gx & Cx).
  destruct (Copy_Model.copyNode fields s1 c1 n) as [[[s2 c2] m2]|] eqn:En; [|discriminate]. injection H as <- <- <-.
  destruct (copyNode_spec fields fields_nodup s s1 c1 n s2 c2 m2 W P1 Ln En) as (P2 & X2 & D2 & M2 & _).
  exists new, x'. cbn. rewrite upd_same. split; [reflexivity|]. split; [exact Gx|].
  apply M2 in Cx. destruct (p_cop _ _ _ P2 _ _ Cx) as (Lx & cl & dd & Hx).
  assert (Lx0 : x < next s) by (eapply (wf_defs _ W); eauto).
  split; [|split; [lia|]].
  - destruct (heap s x') eqn:E; [apply (wf_alloc _ W) in E; lia|reflexivity].
  - intros Re.
    assert (P3 : pass s (set_defs s2 m2 new) c2).
    { apply pass_set_defs; [exact P2|apply (p_cop _ _ _ P2 _ _ D2)|].
      intros k r I. destruct (A1 _ _ I) as (y & Hy). apply (p_cop _ _ _ P2 y). apply M2, Hy. }
    destruct (reach_fresh s _ c2 m2 x' W P3 Re) as (_ & _ & R3).
    destruct R3 as [->|[R3|(o & Ho & No)]].
    + apply (p_cop _ _ _ P2 _ _ D2).
    + apply Nx. eapply (p_inj _ _ _ P2); eauto.
    + lia.
    + cbn in Ho. rewrite Hx in Ho. injection Ho as <-. discriminate.
Qed.
(** C42 (refuted).  A scenegraph that has a DEF name itself (so that its own
    table contains it) cannot be copied at all: RecursionError. *)
Theorem C42_named_scenegraph_copy_refuted : forall s n table name, wf s ->
  defs s n = Some table -> In (name, Some n) table -> name <> 0 ->
  forall stack, copy stack s [] n = None.
Proof.
  intros s n table name W Ed I Nz stack. destruct name as [|k]; [congruence|].
  eapply copy_diverges; eauto. apply pass_start, W.
Qed.
End Claims.

Print Assumptions C41_copy_is_new_node.
Print Assumptions C41_copy_equal.
Print Assumptions C41_parts_fresh.
Print Assumptions C41_copy_independent.
Print Assumptions C41_original_independent.
Print Assumptions C41_one_copy_per_pass.
Print Assumptions C41_deep_copy_refuted.
Print Assumptions C41_weak_root_refuted.
Print Assumptions C42_copied_DEF_in_copy_refuted.
Print Assumptions C42_named_scenegraph_copy_refuted.

(** A scenegraph (location 0, class 1) with a child list (location 3) holding a
    node (1) DEF-named 5 that has an array (4) and a sub-node (2). *)
Definition ex_fields (c : nat) : list (nat * kind) :=
  match c with
  | 1 => [(10, KNodes); (11, KWeak); (12, KAtom)]
  | _ => [(20, KArr); (21, KNode); (11, KWeak); (12, KAtom)]
  end.
Definition ex_heap (l : nat) : option obj :=
  match l with
  | 0 => Some (ONode 1 [(10, VRef 3); (11, VWeak 0)])
  | 1 => Some (ONode 2 [(20, VRef 4); (21, VRef 2); (11, VWeak 0); (12, VAtom 77%Z)])
  | 2 => Some (ONode 2 [])
  | 3 => Some (ONodes true [1])
  | 4 => Some (OArr [1; 2; 3]%Z)
  | _ => None
  end.
Definition ex : state := {| next := 5; heap := ex_heap; defs := fun l => match l with 0 => Some [(0, Some 2); (5, Some 1)] | _ => None end |}.
Lemma ex_wf : wf ex.
Proof.
  split; cbn.
  - intros l o. do 5 (destruct l as [|l]; [lia|]). discriminate.
  - intros l o r. do 5 (destruct l as [|l]; [intros [= <-] I; cbn in I; intuition lia|]). discriminate.
  - intros l d k r. destruct l; [|discriminate]. intros [= <-] I. cbn in I. destruct I as [I|[I|[]]]; injection I; lia.
  - intros l d. destruct l; [lia|discriminate].
Qed.
Example C41_nonvacuous :
  (forall c, NoDup (map fst (ex_fields c))) /\ node_ok ex_fields ex 1 /\
  (exists s' c' m, copyNode ex_fields ex [] 1 = Some (s', c', m) /\
     Copy_Model.read ex_fields (Copy_Model.run s' [Mutate 4 (OArr [9]%Z); Assign 1 12 (VAtom 5%Z)]) m 20 = SArr [1; 2; 3]%Z /\
     Copy_Model.read ex_fields (Copy_Model.run s' [Mutate 4 (OArr [9]%Z); Assign 1 12 (VAtom 5%Z)]) 1 20 = SArr [9]%Z).
Proof.
  split; [|split].
  - intros c. do 2 (destruct c as [|c]; cbn; [repeat constructor; cbn; intuition lia|]). cbn. repeat constructor; cbn; intuition lia.
  - exists 2. eexists. split; [reflexivity|]. split; [cbn; repeat constructor; cbn; intuition lia|].
    intros f k v I E. cbn in I. destruct I as [I|[I|[I|[I|[]]]]]; injection I as <- <-; cbn in E; injection E as <-; cbn.
    + do 2 eexists; split; reflexivity.
    + do 3 eexists; split; reflexivity.
    + right. left. eexists. split; [reflexivity|]. cbn. intros o [= <-]. reflexivity.
    + eexists; reflexivity.
  - cbn. do 3 eexists. split; [reflexivity|]. split; reflexivity.
Qed.
Example C42_nonvacuous : exists s' c' m,
  copy ex_fields 3 ex [] 0 = Some (s', c', m) /\ Copy_Model.read ex_fields s' m 10 = SNodes [1] /\
  defs s' m = Some [(5, Some 6)].
Proof. cbn. do 3 eexists. split; [reflexivity|]. split; reflexivity. Qed.
