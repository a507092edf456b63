From Verif Require Import Base NodePath_Model.

Definition prefix_of (a b : list nat) : Prop := exists t, b = a ++ t.

(** a closed form for the loop *)
Fixpoint lcp (p q : list nat) : list nat :=
  match p, q with
  | a :: p', b :: q' => if Nat.eqb a b then a :: lcp p' q' else []
  | _, _ => []
  end.

Lemma nth_error_app_len {A} (l m : list A) : nth_error (l ++ m) (length l) = nth_error m 0.
Proof. rewrite nth_error_app2 by lia. rewrite Nat.sub_diag. reflexivity. Qed.

Lemma common_loop_gen p q pre pre' res_ :
  length pre = length pre' ->
  common_loop (pre ++ p) (pre' ++ q) (Nat.min (length p) (length q)) (length pre) res_
  = res_ ++ lcp p q.
Proof.
  revert q pre pre' res_. induction p as [|a p IH]; intros q pre pre' r L.
  - simpl. rewrite app_nil_r. reflexivity.
  - destruct q as [|b q]; [simpl; rewrite app_nil_r; reflexivity|].
    cbn [length Nat.min common_loop]. rewrite nth_error_app_len, L, nth_error_app_len. cbn [nth_error].
    cbn [lcp]. destruct (Nat.eqb_spec a b) as [->|N].
    + specialize (IH q (pre ++ [b]) (pre' ++ [b]) (r ++ [b])).
      rewrite !app_length in IH. cbn [length] in IH.
      rewrite <- !app_assoc in IH. cbn [app] in IH.
      rewrite L in IH. rewrite Nat.add_1_r in IH.
      apply IH. lia.
    + rewrite app_nil_r. reflexivity.
Qed.

Lemma common_lcp p q : common p q = lcp p q.
Proof. exact (common_loop_gen p q [] [] [] eq_refl). Qed.

Lemma lcp_prefix_l p q : prefix_of (lcp p q) p.
Proof.
  revert q. induction p as [|a p IH]; intros [|b q]; cbn [lcp]; try (exists []; reflexivity).
  - eexists; reflexivity.
  - destruct (Nat.eqb a b); [|eexists; reflexivity].
    destruct (IH q) as [t E]. exists t. cbn. f_equal. exact E.
Qed.
Lemma lcp_comm p q : lcp p q = lcp q p.
Proof.
  revert q. induction p as [|a p IH]; intros [|b q]; cbn [lcp]; auto.
  rewrite Nat.eqb_sym. destruct (Nat.eqb_spec b a) as [->|]; [|reflexivity]. f_equal. apply IH.
Qed.
Lemma lcp_greatest p q r : prefix_of r p -> prefix_of r q -> prefix_of r (lcp p q).
Proof.
  revert p q. induction r as [|x r IH]; intros p q [t1 E1] [t2 E2].
  - eexists; reflexivity.
  - subst p q. cbn [lcp app]. rewrite Nat.eqb_refl.
    destruct (IH (r ++ t1) (r ++ t2)) as [t E]; try (eexists; reflexivity).
    exists t. cbn. f_equal. exact E.
Qed.

Theorem common_spec p q :
  prefix_of (common p q) p /\ prefix_of (common p q) q /\
  (forall r, prefix_of r p -> prefix_of r q -> prefix_of r (common p q)).
Proof.
  rewrite common_lcp. split; [apply lcp_prefix_l|split].
  - rewrite lcp_comm. apply lcp_prefix_l.
  - intros r. apply lcp_greatest.
Qed.
Theorem common_comm p q : common p q = common q p.
Proof. rewrite !common_lcp. apply lcp_comm. Qed.

Lemma eq_loop_gen p q pre pre' :
  length pre = length pre' -> length p = length q ->
  eq_loop (pre ++ p) (pre' ++ q) (length p) (length pre) = true <-> p = q.
Proof.
  revert q pre pre'. induction p as [|a p IH]; intros [|b q] pre pre' L E; try discriminate.
  - simpl. tauto.
  - cbn [length eq_loop]. rewrite nth_error_app_len, L, nth_error_app_len. cbn [nth_error].
    destruct (Nat.eqb_spec a b) as [->|N].
    + specialize (IH q (pre ++ [b]) (pre' ++ [b])). rewrite !app_length in IH. cbn [length] in IH.
      rewrite <- !app_assoc in IH. cbn [app] in IH. rewrite L, Nat.add_1_r in IH.
      rewrite IH by (cbn [length] in E; lia). split; [intros ->; reflexivity|intros [= ->]; reflexivity].
    + split; [discriminate|intros [= ? ?]; contradiction].
Qed.
Theorem path_eq_spec p q : path_eq p q = true <-> p = q.
Proof.
  unfold path_eq. destruct (Nat.eqb_spec (length p) (length q)) as [E|N]; cbn [negb].
  - exact (eq_loop_gen p q [] [] eq_refl E).
  - split; [discriminate|intros ->; congruence].
Qed.

(** ** Invalidation *)
Lemma set_at_same {A} (f : nat -> A) k x : set_at f k x k = x.
Proof. unfold set_at. rewrite Nat.eqb_refl. reflexivity. Qed.
Lemma set_at_other {A} (f : nat -> A) k x j : j <> k -> set_at f k x j = f j.
Proof. unfold set_at. intros H. destruct (Nat.eqb_spec j k); [contradiction|reflexivity]. Qed.

(** Invariant of reachable states *)
Record pinv (s : pstate) : Prop := {
  pi_kids : forall p c, plive s c = true -> (In c (kids s p) <-> parent s c = Some p);
  pi_parent_live : forall c p, plive s c = true -> parent s c = Some p -> plive s p = true;
  pi_bound : forall c, plive s c = true -> c < next s;
  pi_parent_lt : forall c p, plive s c = true -> parent s c = Some p -> p < c;
  pi_kids_lt : forall p c, In c (kids s p) -> c < next s
}.

(** two states that differ at most in [broken] and dead references *)
Definition same_shape (s t : pstate) : Prop :=
  next s = next t /\ items s = items t /\ parent s = parent t /\ plive s = plive t /\
  (forall p c, plive s c = true -> (In c (kids t p) <-> In c (kids s p))) /\
  (forall p c, In c (kids t p) -> In c (kids s p)).

Lemma shape_refl s : same_shape s s.
Proof. repeat split; auto. Qed.
Lemma shape_trans s t u : same_shape s t -> same_shape t u -> same_shape s u.
Proof.
  intros (A&B&C&D&E&F) (A'&B'&C'&D'&E'&F'). repeat split; try congruence.
  - intros X. apply E; [assumption|]. apply F'. exact X.
  - intros X. apply E'; [congruence|]. apply E; assumption.
  - auto.
Qed.
Lemma shape_mark s p : same_shape s (mark s p).
Proof. repeat split; auto. Qed.
Lemma shape_iter s p : same_shape s (fst (iterchildren s p)).
Proof.
  repeat split; cbn; unfold set_at.
  - destruct (Nat.eqb_spec p0 p) as [->|]; [rewrite filter_In; tauto|auto].
  - destruct (Nat.eqb_spec p0 p) as [->|]; [rewrite filter_In; tauto|auto].
  - intros p0 c. destruct (Nat.eqb_spec p0 p) as [->|]; [rewrite filter_In; tauto|auto].
Qed.
Lemma shape_marks l s : same_shape s (fold_left mark l s).
Proof.
  revert s. induction l as [|x l IH]; intros s; cbn; [apply shape_refl|].
  eapply shape_trans; [apply shape_mark|apply IH].
Qed.
Lemma shape_mark_children s p : same_shape s (mark_children s p).
Proof.
  unfold mark_children. destruct (iterchildren s p) as [s1 l] eqn:E.
  eapply shape_trans; [|apply shape_marks]. change s1 with (fst (s1, l)). rewrite <- E. apply shape_iter.
Qed.

Lemma broken_marks l s q : broken (fold_left mark l s) q = true <-> broken s q = true \/ In q l.
Proof.
  revert s. induction l as [|x l IH]; intros s; cbn [fold_left].
  - simpl. tauto.
  - rewrite IH. cbn. unfold set_at. destruct (Nat.eqb_spec q x) as [->|N]; intuition congruence.
Qed.
Lemma broken_mark_children s p q :
  broken (mark_children s p) q = true <->
  broken s q = true \/ (plive s q = true /\ In q (kids s p)).
Proof.
  unfold mark_children. cbn. rewrite broken_marks. cbn. rewrite filter_In. tauto.
Qed.

Lemma descend_fold l s :
  same_shape s (fold_left (fun s c => mark_children (mark s c) c) l s).
Proof.
  revert s. induction l as [|x l IH]; intros s; cbn [fold_left]; [apply shape_refl|].
  eapply shape_trans; [|apply IH]. eapply shape_trans; [apply shape_mark|apply shape_mark_children].
Qed.
Lemma broken_descend l s q : plive s q = true ->
  broken (fold_left (fun s c => mark_children (mark s c) c) l s) q = true <->
  broken s q = true \/ In q l \/ exists c, In c l /\ In q (kids s c).
Proof.
  revert s. induction l as [|x l IH]; intros s Lq; cbn [fold_left].
  - simpl. split; [tauto|]. intros [H|[[]|(c & [] & _)]]; exact H.
  - pose proof (shape_trans _ _ _ (shape_mark s x) (shape_mark_children (mark s x) x)) as SH.
    destruct SH as (_&_&_&PL&KI&_).
    rewrite IH by (rewrite <- PL; exact Lq).
    rewrite broken_mark_children. cbn [plive mark kids broken].
    unfold set_at at 1.
    split.
    + intros [[H|[_ H]]|[H|(c & H & K)]].
      * destruct (Nat.eqb_spec q x) as [->|]; [right; left; left; reflexivity|left; exact H].
      * right. right. exists x. split; [left; reflexivity|exact H].
      * right. left. right. exact H.
      * right. right. exists c. split; [right; exact H|]. apply KI in K; [exact K|exact Lq].
    + intros [H|[[->|H]|(c & [->|H] & K)]].
      * left. left. destruct (Nat.eqb_spec q x); [reflexivity|exact H].
      * left. left. rewrite Nat.eqb_refl. reflexivity.
      * right. left. exact H.
      * left. right. split; [exact Lq|exact K].
      * right. right. exists c. split; [exact H|]. apply KI; [exact Lq|exact K].
Qed.

Lemma shape_invalidate s p : same_shape s (invalidate s p).
Proof.
  unfold invalidate, mark_descendents. cbn [iterchildren].
  eapply shape_trans; [apply (shape_mark s p)|].
  eapply shape_trans; [apply (shape_iter (mark s p) p)|]. apply descend_fold.
Qed.

Lemma broken_invalidate_kids s p q : plive s q = true ->
  broken (invalidate s p) q = true <->
  broken s q = true \/ q = p \/ In q (kids s p) \/
  exists c, plive s c = true /\ In c (kids s p) /\ In q (kids s c).
Proof.
  intros Lq. unfold invalidate, mark_descendents. cbn [iterchildren].
  rewrite broken_descend by exact Lq. cbn. unfold set_at.
  rewrite filter_In.
  split.
  - intros [H|[H|(c & H & K)]].
    + destruct (Nat.eqb_spec q p); auto.
    + tauto.
    + right. right. apply filter_In in H. destruct H as [H L].
      right. exists c. repeat split; auto.
      destruct (Nat.eqb_spec c p) as [->|]; [|exact K]. apply filter_In in K. tauto.
  - intros [H|[->|[H|(c & L & H & K)]]].
    + left. destruct (Nat.eqb_spec q p); auto.
    + left. rewrite Nat.eqb_refl. reflexivity.
    + right. left. tauto.
    + right. right. exists c. split; [apply filter_In; tauto|].
      destruct (Nat.eqb_spec c p) as [->|]; [|exact K]. apply filter_In. tauto.
Qed.

Lemma pinv_shape s t : pinv s -> same_shape s t -> pinv t.
Proof.
  intros [K P B L KL] (E1&E2&E3&E4&E5&E6). split.
  - intros p c H. rewrite <- E3. rewrite <- E4 in H. rewrite E5 by exact H. apply K; exact H.
  - intros c p. rewrite <- E3, <- E4. apply P.
  - intros c. rewrite <- E1, <- E4. apply B.
  - intros c p. rewrite <- E3, <- E4. apply L.
  - intros p c H. rewrite <- E1. eapply KL. eapply E6. exact H.
Qed.

Lemma pinv_empty : pinv pempty.
Proof. split; cbn; try discriminate; contradiction. Qed.

Lemma pinv_step s o : pinv s -> pinv (pstep s o).
Proof.
  intros I. pose proof I as [K P B L KL]. destruct o as [l|p x|p|p]; cbn [pstep].
  - split; cbn; unfold set_at.
    + intros p c. destruct (Nat.eqb_spec c (next s)) as [->|N]; intros H.
      * destruct (Nat.eqb_spec p (next s)); [split; [intros []|discriminate]|].
        split; [|discriminate]. intros H0. apply KL in H0. lia.
      * destruct (Nat.eqb_spec p (next s)) as [->|]; [|apply K; exact H].
        split; [intros []|]. intros H0. apply L in H0; [|exact H]. apply B in H. lia.
    + intros c p. destruct (Nat.eqb_spec c (next s)); [discriminate|].
      intros H1 H2. destruct (Nat.eqb_spec p (next s)); [reflexivity|]. eapply P; eassumption.
    + intros c. destruct (Nat.eqb_spec c (next s)); [lia|]. intros H. apply B in H. lia.
    + intros c p. destruct (Nat.eqb_spec c (next s)); [discriminate|]. apply L.
    + intros p c. destruct (Nat.eqb_spec p (next s)); [intros []|]. intros H. apply KL in H. lia.
  - destruct (plive s p) eqn:Lp; [|exact I].
    split; cbn; unfold set_at.
    + intros q c. destruct (Nat.eqb_spec c (next s)) as [->|N]; intros H.
      * destruct (Nat.eqb_spec q p) as [->|Nq].
        -- split; [reflexivity|]. intros _. apply in_or_app. right. left. reflexivity.
        -- destruct (Nat.eqb_spec q (next s)); [split; [intros []|congruence]|].
           split; [|congruence]. intros H0. apply KL in H0. lia.
      * destruct (Nat.eqb_spec q p) as [->|Nq].
        -- rewrite in_app_iff. rewrite K by exact H. simpl. intuition congruence.
        -- destruct (Nat.eqb_spec q (next s)) as [->|]; [|apply K; exact H].
           split; [intros []|]. intros H0. apply L in H0; [|exact H]. apply B in H. lia.
    + intros c q. destruct (Nat.eqb_spec c (next s)) as [->|N].
      * intros _ [= <-]. destruct (Nat.eqb_spec p (next s)); [reflexivity|exact Lp].
      * intros H1 H2. destruct (Nat.eqb_spec q (next s)); [reflexivity|]. eapply P; eassumption.
    + intros c. destruct (Nat.eqb_spec c (next s)); [lia|]. intros H. apply B in H. lia.
    + intros c q. destruct (Nat.eqb_spec c (next s)) as [->|N]; [|apply L].
      intros _ [= <-]. apply B. exact Lp.
    + intros q c. destruct (Nat.eqb_spec q p) as [->|].
      * rewrite in_app_iff. intros [H|[<-|[]]]; [apply KL in H; lia|lia].
      * destruct (Nat.eqb_spec q (next s)); [intros []|]. intros H. apply KL in H. lia.
  - destruct (plive s p); [|exact I]. eapply pinv_shape; [exact I|apply shape_invalidate].
  - unfold pcollect. destruct (has_live_child s p) eqn:HC; [exact I|].
    assert (NC : forall c, plive s c = true -> parent s c = Some p -> False).
    { intros c H1 H2. assert (has_live_child s p = true); [|congruence].
      unfold has_live_child. apply existsb_exists. exists c. split.
      - apply in_seq. apply B in H1. lia.
      - rewrite H1, H2, Nat.eqb_refl. reflexivity. }
    split; cbn; unfold set_at.
    + intros q c. destruct (Nat.eqb_spec c p); [discriminate|]. apply K.
    + intros c q. destruct (Nat.eqb_spec c p); [discriminate|]. intros H1 H2.
      destruct (Nat.eqb_spec q p) as [->|]; [exfalso; eapply NC; eassumption|]. eapply P; eassumption.
    + intros c. destruct (Nat.eqb_spec c p); [discriminate|]. apply B.
    + intros c q. destruct (Nat.eqb_spec c p); [discriminate|]. apply L.
    + exact KL.
Qed.
Lemma pinv_run os s : pinv s -> pinv (prun s os).
Proof.
  revert s. induction os as [|o os IH]; intros s I; cbn; [exact I|]. apply IH, pinv_step, I.
Qed.

Lemma invalidate_exact os p q :
  let s := prun pempty os in
  plive s p = true -> plive s q = true ->
  let s' := pstep s (PInvalidate p) in
  (broken s' q = true <->
   broken s q = true \/ q = p \/ parent s q = Some p \/
   exists c, parent s q = Some c /\ parent s c = Some p).
Proof.
  intros s Lp Lq s'. pose proof (pinv_run os pempty pinv_empty) as I. fold s in I.
  subst s'. cbn [pstep]. rewrite Lp, broken_invalidate_kids by exact Lq.
  destruct I as [K P B L KL]. rewrite K by exact Lq.
  split.
  - intros [H|[H|[H|(c & Lc & H1 & H2)]]]; auto.
    right. right. right. exists c. rewrite K in H1, H2 by assumption. tauto.
  - intros [H|[H|[H|(c & H1 & H2)]]]; auto.
    right. right. right. exists c. assert (plive s c = true) by (eapply P; eassumption).
    rewrite !K by assumption. tauto.
Qed.
Lemma invalidate_frame os p :
  let s := prun pempty os in
  let s' := pstep s (PInvalidate p) in
  items s' = items s /\ parent s' = parent s /\ plive s' = plive s.
Proof.
  intros s s'. subst s'. cbn [pstep]. destruct (plive s p); [|auto].
  destruct (shape_invalidate s p) as (A&B&C&D&_). auto.
Qed.
(** what a path holds is fixed at creation *)
Lemma items_step s o q : pinv s -> plive s q = true -> items (pstep s o) q = items s q.
Proof.
  intros [K P B L KL] H. apply B in H. destruct o as [l|p x|p|p]; cbn [pstep].
  - cbn. apply set_at_other. lia.
  - destruct (plive s p); [|reflexivity]. cbn. apply set_at_other. lia.
  - destruct (plive s p); [|reflexivity]. destruct (shape_invalidate s p) as (_&E&_). rewrite E. reflexivity.
  - unfold pcollect. destruct (has_live_child s p); reflexivity.
Qed.
