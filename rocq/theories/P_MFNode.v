(** C60: changes of node-list fields are announced. *)
From Verif Require Import Base PyList PyList_Proofs OList_Model OList_Spec OList_Proofs P_OList MFNode_Model.
Local Open Scope nat_scope.

(** operations that keep the field's list in place *)
Definition keeps (n f : nat) (o : op) : Prop :=
  match o with
  | Assign n' f' _ | Delete n' f' | Iadd n' f' _ => ~ (n' = n /\ f' = f)
  | Mutate _ (SetSender _) => False
  | _ => True
  end.
Definition sets_sender (o : lop) : bool := match o with SetSender _ => true | _ => false end.
(** the announcement of field f of node n, in the code's form *)
Definition announces (n f : nat) (a : announcement) : Prop := a_node a = n /\ a_field a = f.
(** what an operation announces *)
Definition announced (w w' : world) : list announcement := skipn (length (sent w)) (sent w').

Lemma lstep_sends (s : olist) (o : lop) : sets_sender o = false ->
  sender (lstep s o) = sender s /\
  exists ms, log (lstep s o) = log s ++ ms /\ paired (fun _ _ => true) (sender s) (length (log s)) ms.
Proof.
  intros H. pose proof (step_sends Nat.eqb Nat.eqb (fun _ => true) (fun _ _ => true) s o) as X.
  assert (S : is_set_sender o = None) by (destruct o; try reflexivity; discriminate).
  rewrite S in X. unfold lstep. exact X.
Qed.

Definition ann (n f : nat) : announcement := {| a_node := n; a_field := f; a_value := PayNode n |}.
Lemma react_paired regs n : forall t ms, paired (fun _ _ => true) n t ms ->
  flat_map (react regs) ms =
  match n with
  | Some n => concat (repeat (map (ann n) (regs n)) (length ms / 2))
  | None => []
  end /\ Nat.Even (length ms).
Proof.
  intros t ms H. induction H as [t|t v ms H [IH E]|t v ms H [IH E]].
  - destruct n; cbn; split; auto; exists 0; reflexivity.
  - destruct n as [n|]; cbn [flat_map react sender_at app length]; rewrite IH.
    + replace (S (S (length ms)) / 2) with (S (length ms / 2)) by (change (S (S (length ms))) with (1 * 2 + length ms); rewrite Nat.div_add_l; lia).
      split; [reflexivity|]. destruct E as (k & ->). exists (S k). lia.
    + split; [reflexivity|]. destruct E as (k & ->). exists (S k). lia.
  - destruct n as [n|]; cbn [flat_map react sender_at app length]; rewrite IH.
    + replace (S (S (length ms)) / 2) with (S (length ms / 2)) by (change (S (S (length ms))) with (1 * 2 + length ms); rewrite Nat.div_add_l; lia).
      split; [reflexivity|]. destruct E as (k & ->). exists (S k). lia.
    + split; [reflexivity|]. destruct E as (k & ->). exists (S k). lia.
Qed.

Lemma announced_mutate w l o : announced w (mutate w l o) =
  flat_map (react (regs w)) (skipn (length (log (lists w l))) (log (lstep (lists w l) o))).
Proof. unfold announced, mutate. cbn. rewrite skipn_app, skipn_all, Nat.sub_diag. reflexivity. Qed.

(** C60.  Exactly what a call on a list announces: nothing if the list has no
    sender, otherwise for each child added or removed one announcement for every
    registered field of the sender node. *)
Lemma mutate_announces w l o : sets_sender o = false ->
  exists k, length (log (lstep (lists w l) o)) = length (log (lists w l)) + 2 * k /\
  announced w (mutate w l o) =
  match sender (lists w l) with
  | Some n => concat (repeat (map (ann n) (regs w n)) k)
  | None => []
  end.
Proof.
  intros H. destruct (lstep_sends (lists w l) o H) as (_ & ms & E & P).
  destruct (react_paired (regs w) _ _ _ P) as (R & k & Ek).
  exists k. rewrite announced_mutate, E, app_length, skipn_app, skipn_all, Nat.sub_diag. cbn [app skipn].
  rewrite R, Ek. split; [lia|]. rewrite Nat.mul_comm, Nat.div_mul by lia. reflexivity.
Qed.

(** wiring of a field's list *)
Record wired (w : world) (n f l : nat) : Prop := {
  w_dict : dict w n f = Some l;
  w_send : sender (lists w l) = Some n;
  w_reg : In f (regs w n) }.
Definition bounded (w : world) : Prop := forall n f l, dict w n f = Some l -> l < nextl w.

Lemma upd_same {A} (m : nat -> A) k a : upd m k a k = a.
Proof. unfold upd. now rewrite Nat.eqb_refl. Qed.
Lemma upd_other {A} (m : nat -> A) k a x : x <> k -> upd m k a x = m x.
Proof. unfold upd. intros H. destruct (Nat.eqb_spec x k); congruence. Qed.
Lemma upd2_spec {A} (m : nat -> nat -> A) k f a x g :
  upd2 m k f a x g = a /\ x = k /\ g = f \/ upd2 m k f a x g = m x g /\ ~ (x = k /\ g = f).
Proof. unfold upd2. destruct (Nat.eqb_spec x k), (Nat.eqb_spec g f); cbn; auto; right; split; auto; tauto. Qed.

Lemma bounded_assign w n f vs : bounded w -> bounded (assign w n f vs).
Proof.
  intros B a b l. cbn. destruct (upd2_spec (dict w) n f (Some (nextl w)) a b) as [(-> & _)|(-> & _)].
  - intros [= <-]. lia.
  - intros H. apply B in H. lia.
Qed.
Lemma bounded_mutate w l o : bounded w -> bounded (mutate w l o).
Proof. intros B. exact B. Qed.
Lemma bounded_get w n f : bounded w -> bounded (fst (get w n f)).
Proof.
  intros B. unfold get. destruct (dict w n f); [exact B|]. intros a b l. cbn.
  destruct (upd2_spec (dict w) n f (Some (nextl w)) a b) as [(-> & _)|(-> & _)].
  - intros [= <-]. lia.
  - intros H. apply B in H. lia.
Qed.
Lemma bounded_step w o : bounded w -> bounded (step w o).
Proof.
  intros B. destruct o as [n f vs|n f vs|n f|n f|l o|n f vs]; cbn [step].
  - unfold fset. destruct (dict w n f); [exact B|]. intros a b l. cbn.
    destruct (upd2_spec (dict w) n f (Some (nextl w)) a b) as [(-> & _)|(-> & _)].
    + intros [= <-]. lia.
    + intros H. apply B in H. lia.
  - apply bounded_assign, B.
  - apply bounded_get, B.
  - destruct (dict w n f); [|exact B]. intros a b l. cbn.
    destruct (upd2_spec (dict w) n f None a b) as [(-> & _)|(-> & _)]; [discriminate|apply B].
  - exact B.
  - pose proof (bounded_get w n f B) as B'. unfold iadd. destruct (get w n f) as [w' l]. cbn in B'.
    destruct (OList_Model.step _ _ _ _ _ _) as [s [[]|]]; try apply bounded_assign; apply bounded_mutate, B'.
Qed.
Lemma bounded_run os : forall w, bounded w -> bounded (run w os).
Proof. induction os as [|o os IH]; intros w B; [exact B|]. apply IH, bounded_step, B. Qed.

Lemma wired_mutate w n f l l' o : sets_sender o = false -> wired w n f l -> wired (mutate w l' o) n f l.
Proof.
  intros H [D S R]. split; cbn; [exact D| |exact R].
  unfold upd. destruct (Nat.eqb_spec l l') as [->|]; [|exact S].
  rewrite (proj1 (lstep_sends (lists w l') o H)). exact S.
Qed.
Lemma wired_assign w n f l n' f' vs : bounded w -> ~ (n' = n /\ f' = f) -> wired w n f l -> wired (assign w n' f' vs) n f l.
Proof.
  intros B N [D S R]. split; cbn; [| |exact R].
  - destruct (upd2_spec (dict w) n' f' (Some (nextl w)) n f) as [(_ & -> & ->)|(-> & _)]; [tauto|exact D].
  - rewrite upd_other; [exact S|]. apply B in D. lia.
Qed.
Lemma wired_get w n f l n' f' : bounded w -> wired w n f l -> wired (fst (get w n' f')) n f l.
Proof.
  intros B W. unfold get. destruct (dict w n' f') eqn:E; [exact W|]. destruct W as [D S R]. split; cbn; [| |exact R].
  - destruct (upd2_spec (dict w) n' f' (Some (nextl w)) n f) as [(_ & -> & ->)|(-> & _)]; [congruence|exact D].
  - rewrite upd_other; [exact S|]. apply B in D. lia.
Qed.
Lemma wired_step w n f l o : bounded w -> keeps n f o -> wired w n f l -> wired (step w o) n f l.
Proof.
  intros B Kp W. destruct o as [n' f' vs|n' f' vs|n' f'|n' f'|l' o|n' f' vs]; cbn [step keeps] in *.
  - unfold fset. destruct (dict w n' f') eqn:E; [apply wired_mutate; auto|].
    destruct W as [D S R]. split; cbn.
    + destruct (upd2_spec (dict w) n' f' (Some (nextl w)) n f) as [(_ & -> & ->)|(-> & _)]; [congruence|exact D].
    + apply B in D. rewrite !upd_other by lia. exact S.
    + unfold upd. destruct (Nat.eqb_spec n n') as [->|]; [apply in_or_app; auto|exact R].
  - apply wired_assign; auto.
  - apply wired_get; auto.
  - destruct (dict w n' f') eqn:E; [|exact W]. destruct W as [D S R]. split; cbn; [|exact S|exact R].
    destruct (upd2_spec (dict w) n' f' None n f) as [(_ & -> & ->)|(-> & _)]; [tauto|exact D].
  - apply wired_mutate; [destruct o; try reflexivity; destruct Kp|exact W].
  - pose proof (bounded_get w n' f' B) as B'. pose proof (wired_get w n f l n' f' B W) as W'.
    unfold iadd. destruct (get w n' f') as [w' l']. cbn in B', W'.
    destruct (OList_Model.step _ _ _ _ _ _) as [s [[]|]]; try apply wired_assign; auto; apply wired_mutate; auto.
Qed.
Lemma wired_run os : forall w n f l, bounded w -> Forall (keeps n f) os -> wired w n f l -> wired (run w os) n f l.
Proof.
  induction os as [|o os IH]; intros w n f l B F W; [exact W|]. inversion F; subst.
  apply IH; auto using bounded_step, wired_step.
Qed.
Lemma empty_bounded : bounded empty.
Proof. intros n f l. discriminate. Qed.
Lemma fset_wires w n f vs : dict w n f = None -> wired (fset w n f vs) n f (nextl w).
Proof.
  intros D. unfold fset. rewrite D. split; cbn.
  - destruct (upd2_spec (dict w) n f (Some (nextl w)) n f) as [(-> & _)|(_ & X)]; [reflexivity|tauto].
  - rewrite upd_same. reflexivity.
  - rewrite upd_same. apply in_or_app. cbn. auto.
Qed.

(** C60.  A field whose list was first set through fset (constructor argument,
    parser, route) and not assigned or deleted since: every call on its list
    that changes how often some node occurs announces the field from the node. *)
Theorem C60_changes_announced : forall before n f vs after o v,
  dict (run empty before) n f = None -> Forall (keeps n f) after -> sets_sender o = false ->
  let w := run empty (before ++ Fset n f vs :: after) in
  exists l, dict w n f = Some l /\
    let now := items (lists w l) in
    let later := items (lists (step w (Mutate l o)) l) in
    (no_multiplying Nat.eqb now o ->
     occurrences Nat.eqb v later <> occurrences Nat.eqb v now ->
     exists a, In a (announced w (step w (Mutate l o))) /\ announces n f a).
Proof.
  intros before n f vs after o v D F So w.
  assert (B : bounded (run empty before)) by apply bounded_run, empty_bounded.
  assert (Ew : w = run (step (run empty before) (Fset n f vs)) after)
    by (unfold w, run; rewrite fold_left_app; reflexivity).
  assert (W : wired w n f (nextl (run empty before))).
  { rewrite Ew. apply wired_run; [apply bounded_step, B|exact F|]. apply fset_wires, D. }
  set (l := nextl (run empty before)) in *. exists l. split; [apply W|].
  cbv zeta. intros NM NE. cbn [step].
  destruct (mutate_announces w l o So) as (k & Ek & Ea).
  rewrite Ea, (w_send _ _ _ _ W).
  destruct k as [|k].
  - exfalso. apply NE. cbn [mutate lists announce]. cbn. rewrite upd_same.
    destruct (lstep_sends (lists w l) o So) as (_ & ms & E & _).
    assert (ms = []) by (rewrite E, app_length in Ek; destruct ms; [reflexivity|cbn in Ek; lia]). subst ms.
    rewrite app_nil_r in E.
    pose proof (C02_event_balance nat Nat.eqb Nat.eqb (fun _ => true) (fun _ _ => true) Nat.eqb_sym) as Bal.
    specialize (Bal ltac:(intros x y z; rewrite !Nat.eqb_eq; congruence) ltac:(intros x y; apply Nat.eqb_eq) v [o] (lists w l)).
    assert (HT : forall xs : list nat, Forall (fun _ => true = true) xs) by (intros xs; apply Forall_forall; reflexivity).
    cbn [OList_Model.run] in Bal.
    unfold lstep in *. destruct (OList_Model.step Nat.eqb Nat.eqb (fun _ => true) (fun _ _ => true) (lists w l) o) as [s' r].
    cbn [fst] in *. rewrite E in Bal.
    specialize (Bal (conj NM I) (HT _) ltac:(constructor; [apply HT|constructor])). lia.
  - exists (ann n f). split; [|split; reflexivity]. cbn [repeat concat].
    apply in_or_app. left. apply in_map, (w_reg _ _ _ _ W).
Qed.

(** C60 (refuted).  The value announced is the node, never the list ... *)
Theorem C60_announced_value_refuted : forall w l o a, sets_sender o = false ->
  In a (announced w (step w (Mutate l o))) -> a_value a = PayNode (a_node a).
Proof.
  intros w l o a So I. destruct (mutate_announces w l o So) as (k & _ & Ea). cbn [step] in I. rewrite Ea in I.
  destruct (sender (lists w l)) as [n|]; [|destruct I].
  apply in_concat in I as (x & Ix & I). apply repeat_spec in Ix. subst x.
  apply in_map_iff in I as (f & <- & _). reflexivity.
Qed.
(** ... a change of one field's list also announces every other registered
    node-list field of the node ... *)
Theorem C60_other_field_announced_refuted : forall w n f g l o v, wired w n f l -> In g (regs w n) ->
  sets_sender o = false -> no_multiplying Nat.eqb (items (lists w l)) o ->
  occurrences Nat.eqb v (items (lists (step w (Mutate l o)) l)) <> occurrences Nat.eqb v (items (lists w l)) ->
  exists a, In a (announced w (step w (Mutate l o))) /\ announces n g a.
Proof.
  intros w n f g l o v W Ig So NM NE. cbn [step] in *.
  destruct (mutate_announces w l o So) as (k & Ek & Ea). rewrite Ea, (w_send _ _ _ _ W).
  destruct k as [|k].
  - exfalso. apply NE. cbn. rewrite upd_same.
    destruct (lstep_sends (lists w l) o So) as (_ & ms & E & _).
    assert (ms = []) by (rewrite E, app_length in Ek; destruct ms; [reflexivity|cbn in Ek; lia]). subst ms.
    rewrite app_nil_r in E.
    pose proof (C02_event_balance nat Nat.eqb Nat.eqb (fun _ => true) (fun _ _ => true) Nat.eqb_sym) as Bal.
    specialize (Bal ltac:(intros x y z; rewrite !Nat.eqb_eq; congruence) ltac:(intros x y; apply Nat.eqb_eq) v [o] (lists w l)).
    assert (HT : forall xs : list nat, Forall (fun _ => true = true) xs) by (intros xs; apply Forall_forall; reflexivity).
    cbn [OList_Model.run] in Bal.
    unfold lstep in *. destruct (OList_Model.step Nat.eqb Nat.eqb (fun _ => true) (fun _ _ => true) (lists w l) o) as [s' r].
    cbn [fst] in *. rewrite E in Bal.
    specialize (Bal (conj NM I) (HT _) ltac:(constructor; [apply HT|constructor])). lia.
  - exists (ann n g). split; [|split; reflexivity]. cbn [repeat concat].
    apply in_or_app. left. apply in_map, Ig.
Qed.
(** ... and a list that the field got by attribute assignment or by a default
    read announces nothing, whatever is done to it. *)
Theorem C60_assigned_list_silent_refuted : forall before n f vs o, sets_sender o = false ->
  let w := run empty (before ++ [Assign n f vs]) in
  exists l, dict w n f = Some l /\ announced w (step w (Mutate l o)) = [].
Proof.
  intros before n f vs o So w. unfold w, run. rewrite fold_left_app. cbn [fold_left].
  fold (run empty before). set (w0 := run empty before). cbn [step].
  exists (nextl w0). split.
  - cbn. destruct (upd2_spec (dict w0) n f (Some (nextl w0)) n f) as [(-> & _)|(_ & X)]; [reflexivity|tauto].
  - destruct (mutate_announces (assign w0 n f vs) (nextl w0) o So) as (k & _ & ->). cbn. rewrite upd_same. reflexivity.
Qed.
Theorem C60_default_list_silent_refuted : forall before n f o, sets_sender o = false ->
  dict (run empty before) n f = None ->
  let w := run empty (before ++ [Read n f]) in
  exists l, dict w n f = Some l /\ announced w (step w (Mutate l o)) = [].
Proof.
  intros before n f o So D w. unfold w, run. rewrite fold_left_app. cbn [fold_left].
  fold (run empty before). set (w0 := run empty before) in *. cbn [step]. unfold get. rewrite D. cbn [fst new_list].
  exists (nextl w0). split.
  - cbn. destruct (upd2_spec (dict w0) n f (Some (nextl w0)) n f) as [(-> & _)|(_ & X)]; [reflexivity|tauto].
  - match goal with |- announced ?x _ = _ => destruct (mutate_announces x (nextl w0) o So) as (k & _ & ->) end.
    cbn. rewrite upd_same. reflexivity.
Qed.
(** C60 (refuted).  node.f += vs throws away the nodes that were there: the
    field's list is afterwards a new one with just vs. *)
Theorem C60_iadd_loses_children_refuted : forall before n f vs,
  let w := run empty (before ++ [Iadd n f vs]) in
  exists l, dict w n f = Some l /\ items (lists w l) = vs.
Proof.
  intros before n f vs w. unfold w, run. rewrite fold_left_app. cbn [fold_left].
  fold (run empty before). set (w0 := run empty before). cbn [step]. unfold iadd.
  destruct (get w0 n f) as [w1 l1].
  assert (HT : forall xs : list nat, Forall (fun _ => true = true) xs) by (intros xs; apply Forall_forall; reflexivity).
  pose proof (C04_iadd_rebinds_refuted nat Nat.eqb (fun _ => true) (fun _ _ => true) (lists w1 l1) vs (HT _) (HT _)) as H.
  unfold iadd_name in H. cbn [OList_Model.step].
  destruct (o_extend Nat.eqb (fun _ => true) (fun _ _ => true) (lists w1 l1) vs) as [s' [[]|]]; try discriminate.
  injection H as ->. exists (nextl (mutate w1 l1 (Extend vs))). cbn. rewrite upd_same.
  destruct (upd2_spec (dict w1) n f (Some (nextl w1)) n f) as [(-> & _)|(_ & X)]; [auto|tauto].
Qed.
Print Assumptions C60_changes_announced.
Print Assumptions C60_announced_value_refuted.
Print Assumptions C60_other_field_announced_refuted.
Print Assumptions C60_assigned_list_silent_refuted.
Print Assumptions C60_default_list_silent_refuted.
Print Assumptions C60_iadd_loses_children_refuted.

(** *** what the fields hold *)
(** the nodes a reader of the field sees *)
Definition shows (w : world) (n f : nat) : option (list nat) :=
  match dict w n f with Some l => Some (items (lists w l)) | None => None end.
(** no list belongs to two fields *)
Definition apart (w : world) : Prop := forall n f n' f' l, dict w n f = Some l -> dict w n' f' = Some l -> n' = n /\ f' = f.

Lemma full_slice (l vs : list nat) : py_set_slice l {| sl_start := None; sl_stop := None; sl_step := None |} vs = Ok vs.
Proof.
  unfold py_set_slice, slice_indices, adjust_bound. simpl. f_equal.
  rewrite skipn_all2 by (unfold lenZ; lia). apply app_nil_r.
Qed.
Lemma lstep_items (s : olist) o : not_int_deletion o -> items (lstep s o) = fst (plain_step Nat.eqb (items s) o).
Proof.
  intros H. unfold lstep. apply step_plain; auto; try (intros x y; apply Nat.eqb_sym); apply Forall_forall; reflexivity.
Qed.
Lemma new_dict w n f l a b : dict (set_dict w n f l) a b = l /\ a = n /\ b = f \/ dict (set_dict w n f l) a b = dict w a b /\ ~ (a = n /\ b = f).
Proof. apply upd2_spec. Qed.

Lemma apart_new w n f ls rg sn : bounded w -> apart w ->
  apart {| nextl := S (nextl w); lists := ls; dict := upd2 (dict w) n f (Some (nextl w)); regs := rg; sent := sn |}.
Proof.
  intros B A a b a' b' l. cbn [dict].
  destruct (upd2_spec (dict w) n f (Some (nextl w)) a b) as [(-> & -> & ->)|(-> & N)],
           (upd2_spec (dict w) n f (Some (nextl w)) a' b') as [(-> & -> & ->)|(-> & N')]; auto.
  - intros [= <-] D. apply B in D. lia.
  - intros D [= <-]. apply B in D. lia.
  - apply A.
Qed.
Lemma apart_get w n f : bounded w -> apart w -> apart (fst (get w n f)).
Proof. intros B A. unfold get. destruct (dict w n f); [exact A|]. exact (apart_new w n f _ _ _ B A). Qed.
Lemma apart_assign w n f vs : bounded w -> apart w -> apart (assign w n f vs).
Proof. intros B A. exact (apart_new w n f _ _ _ B A). Qed.
Lemma apart_step w o : bounded w -> apart w -> apart (step w o).
Proof.
  intros B A. destruct o as [n f vs|n f vs|n f|n f|l o|n f vs]; cbn [step].
  - unfold fset. destruct (dict w n f); [exact A|]. exact (apart_new w n f _ _ _ B A).
  - apply apart_assign; auto.
  - apply apart_get; auto.
  - destruct (dict w n f); [|exact A]. intros a b a' b' l'. cbn.
    destruct (upd2_spec (dict w) n f None a b) as [(-> & _)|(-> & _)]; [discriminate|].
    destruct (upd2_spec (dict w) n f None a' b') as [(-> & _)|(-> & _)]; [discriminate|apply A].
  - exact A.
  - pose proof (bounded_get w n f B) as B'. pose proof (apart_get w n f B A) as A'. unfold iadd. destruct (get w n f) as [w' l]. cbn in B', A'.
    destruct (OList_Model.step _ _ _ _ _ _) as [s [[]|]]; try apply apart_assign; auto.
Qed.
Lemma apart_run os : forall w, bounded w -> apart w -> apart (run w os).
Proof. induction os as [|o os IH]; intros w B A; [exact A|]. apply IH; auto using bounded_step, apart_step. Qed.
Lemma empty_apart : apart empty.
Proof. intros n f n' f' l. discriminate. Qed.

(** C60.  After any history: setting a node-list field by constructor argument,
    parser or route makes it show exactly the given nodes; a list that was
    there before stays the field's list. *)
Theorem C60_set_shows_nodes : forall before n f vs,
  let w := run empty before in let w' := step w (Fset n f vs) in
  shows w' n f = Some vs /\ (forall l, dict w n f = Some l -> dict w' n f = Some l).
Proof.
  intros before n f vs w w'. unfold shows, w'. cbn [step]. unfold fset. destruct (dict w n f) as [l|] eqn:D.
  - cbn. rewrite D, upd_same, lstep_items by exact I. cbn [plain_step]. rewrite full_slice. auto.
  - cbn. destruct (upd2_spec (dict w) n f (Some (nextl w)) n f) as [(-> & _)|(_ & X)]; [|tauto].
    rewrite !upd_same. split; [reflexivity|discriminate].
Qed.
(** so does attribute assignment, which binds the field to a new list and
    announces that list once *)
Theorem C60_assignment_announced : forall before n f vs,
  let w := run empty before in let w' := step w (Assign n f vs) in
  shows w' n f = Some vs /\
  exists l, dict w' n f = Some l /\ announced w w' = [{| a_node := n; a_field := f; a_value := PayList l |}].
Proof.
  intros before n f vs w w'. unfold shows, w'. cbn. 
  destruct (upd2_spec (dict w) n f (Some (nextl w)) n f) as [(-> & _)|(_ & X)]; [|tauto].
  rewrite upd_same. split; [reflexivity|]. exists (nextl w). split; [reflexivity|].
  unfold announced. cbn. rewrite skipn_app, skipn_all, Nat.sub_diag. reflexivity.
Qed.
(** the first setting through fset is announced once *)
Theorem C60_first_set_announced : forall before n f vs,
  let w := run empty before in let w' := step w (Fset n f vs) in
  dict w n f = None ->
  exists l, dict w' n f = Some l /\ announced w w' = [{| a_node := n; a_field := f; a_value := PayList l |}].
Proof.
  intros before n f vs w w' D. unfold w'. cbn [step]. unfold fset. rewrite D. cbn.
  destruct (upd2_spec (dict w) n f (Some (nextl w)) n f) as [(-> & _)|(_ & X)]; [|tauto].
  exists (nextl w). split; [reflexivity|].
  unfold announced. cbn. rewrite skipn_app, skipn_all, Nat.sub_diag. reflexivity.
Qed.
(** C60.  A call on the list of a field, anything but del l[i], makes the field show
    what the call makes of a plain list. *)
Theorem C60_list_calls_show : forall before n f l o, not_int_deletion o ->
  let w := run empty before in let w' := step w (Mutate l o) in
  dict w n f = Some l ->
  shows w' n f = Some (fst (plain_step Nat.eqb (items (lists w l)) o)).
Proof.
  intros before n f l o No w w' D. unfold shows, w'. cbn. rewrite D, upd_same, lstep_items by exact No. reflexivity.
Qed.
(** C60.  No operation on one field, or on its list, changes what another field
    shows. *)
Definition on_field (w : world) (n f : nat) (o : op) : Prop :=
  match o with
  | Fset n' f' _ | Assign n' f' _ | Read n' f' | Delete n' f' | Iadd n' f' _ => n' = n /\ f' = f
  | Mutate l _ => dict w n f = Some l
  end.
Theorem C60_fields_independent : forall before n f o n' f',
  let w := run empty before in
  on_field w n f o -> ~ (n' = n /\ f' = f) -> shows (step w o) n' f' = shows w n' f'.
Proof.
  intros before n f o n' f' w H N.
  assert (B : bounded w) by apply bounded_run, empty_bounded.
  assert (A : apart w) by (apply apart_run; [apply empty_bounded|apply empty_apart]).
  assert (Od : forall x, upd2 (dict w) n f x n' f' = dict w n' f').
  { intros x. destruct (upd2_spec (dict w) n f x n' f') as [(_ & X)|(-> & _)]; [tauto|reflexivity]. }
  assert (M : forall l o, dict w n f = Some l -> shows (mutate w l o) n' f' = shows w n' f').
  { intros l o' D. unfold shows. cbn. destruct (dict w n' f') as [l'|] eqn:D'; [|reflexivity].
    rewrite upd_other; [reflexivity|]. intros ->. destruct (A _ _ _ _ _ D D'). tauto. }
  assert (G : forall v : world, bounded v -> dict v n' f' = dict w n' f' -> nextl w <= nextl v -> (forall l', dict w n' f' = Some l' -> items (lists v l') = items (lists w l')) ->
    forall vs, shows (assign v n f vs) n' f' = shows w n' f').
  { intros v Bv Ed Hn Hl vs. unfold shows. cbn. destruct (upd2_spec (dict v) n f (Some (nextl v)) n' f') as [(_ & X)|(-> & _)]; [tauto|].
    rewrite Ed. destruct (dict w n' f') as [l'|] eqn:D'; [|reflexivity]. rewrite upd_other; [rewrite Hl; reflexivity|]. apply B in D'. lia. }
  destruct o as [n0 f0 vs|n0 f0 vs|n0 f0|n0 f0|l0 o|n0 f0 vs]; cbn [on_field step] in *;
    try match type of H with _ /\ _ => destruct H as [-> ->] end.
  - unfold fset. destruct (dict w n f) as [l|] eqn:D; [apply M; reflexivity|].
    unfold shows. cbn. rewrite Od. destruct (dict w n' f') as [l'|] eqn:D'; [|reflexivity].
    apply B in D'. rewrite !upd_other by lia. reflexivity.
  - apply G; auto.
  - unfold get. destruct (dict w n f) as [l|] eqn:D; [reflexivity|]. unfold shows. cbn. rewrite Od.
    destruct (dict w n' f') as [l'|] eqn:D'; [|reflexivity]. apply B in D'. rewrite upd_other by lia. reflexivity.
  - destruct (dict w n f) as [l|] eqn:D; [|reflexivity]. unfold shows. cbn. rewrite Od. reflexivity.
  - apply M, H.
  - unfold iadd, get. destruct (dict w n f) as [l|] eqn:D.
    + assert (Ms : forall o, shows (mutate w l o) n' f' = shows w n' f') by (intros; apply M; reflexivity).
      destruct (OList_Model.step _ _ _ _ _ _) as [s [[]|]]; try apply Ms.
      apply G; auto. intros l' D'. specialize (Ms (Extend vs)). unfold shows in Ms. cbn [mutate announce dict] in Ms.
      rewrite D' in Ms. injection Ms as Ms. exact Ms.
    + cbn [new_list]. set (w1 := set_dict _ n f _).
      assert (B1 : bounded w1) by (pose proof (bounded_get w n f B) as X; unfold get in X; rewrite D in X; exact X).
      assert (E1 : dict w1 n' f' = dict w n' f') by apply Od.
      assert (M1 : forall o, shows (mutate w1 (nextl w) o) n' f' = shows w n' f').
      { intros o'. unfold shows. cbn. rewrite Od. destruct (dict w n' f') as [l'|] eqn:D'; [|reflexivity].
        apply B in D'. rewrite !upd_other by lia. reflexivity. }
      destruct (OList_Model.step _ _ _ _ _ _) as [s [[]|]]; try apply M1.
      apply G; auto; [cbn; lia|]. intros l' D'. specialize (M1 (Extend vs)). unfold shows in M1. cbn [mutate announce dict] in M1.
      rewrite E1, D' in M1. injection M1 as M1. exact M1.
Qed.
Print Assumptions C60_set_shows_nodes.
Print Assumptions C60_assignment_announced.
Print Assumptions C60_first_set_announced.
Print Assumptions C60_list_calls_show.
Print Assumptions C60_fields_independent.

(** a node 1 with fields 5 and 6, both set by the constructor; 5 then gets one
    more node and loses one *)
Example C60_nonvacuous :
  let w := run empty [Fset 1 5 [7; 8]; Fset 1 6 []; Mutate 0 (Remove 7)] in
  wired w 1 5 0 /\ regs w 1 = [5; 6] /\
  announced w (step w (Mutate 0 (Append 9))) = [ann 1 5; ann 1 6] /\
  items (lists w 0) = [8].
Proof. cbn. split; [split; vm_compute; auto|]. vm_compute. auto. Qed.
Example C60_nonvacuous_shows :
  let w := run empty [Fset 1 5 [7; 8]; Assign 1 6 [3]; Read 2 5; Fset 1 5 [8; 9; 8]; Mutate 1 (Append 4)] in
  shows w 1 5 = Some [8; 9; 8] /\ shows w 1 6 = Some [3; 4] /\ shows w 2 5 = Some [] /\ shows w 2 6 = None /\
  on_field w 1 6 (Mutate 1 (Append 4)).
Proof. vm_compute. auto. Qed.
