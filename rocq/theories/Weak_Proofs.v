From Verif Require Import Base PyList PyList_Proofs Weak_Model.
Open Scope Z_scope.

(** ** WeakField *)
Definition winv (s : wstate) : Prop := forall n, slot s = Some (CStrong n) -> alive s n = true.

Lemma wstep_inv i s o : winv s -> winv (fst (wstep i s o)).
Proof.
  intros H. unfold wstep. destruct (wop_ok s o) eqn:E; simpl; [|exact H].
  destruct o as [v| | |v|n]; simpl in *.
  - unfold w_fset. destruct v as [| |n|n]; simpl;
    try (destruct (alive s n)); unfold w_fdel; 
    try (destruct (slot s) eqn:Es; simpl; try destruct i; simpl); intros m Hm; simpl in *;
    try discriminate; try (rewrite Es in Hm; discriminate);
    try (apply H; congruence).
  - unfold w_fget. destruct (slot s) as [[|n|n]|] eqn:Es; simpl.
    + exact H.
    + destruct (alive s n) eqn:Ea; [exact H|]. unfold w_fdel. rewrite Es. simpl.
      destruct i; [exact H|]. intros m Hm. discriminate.
    + exact H.
    + intros m Hm. discriminate.
  - unfold w_attr_get. destruct (slot s); [exact H|]. intros m Hm. discriminate.
  - destruct v; simpl; intros m Hm; simpl in *; try discriminate. injection Hm as <-. exact E.
  - unfold collect. destruct (slot s) as [[|m|m]|] eqn:Es; intros k Hk; simpl in *; try congruence.
    destruct (Nat.eqb_spec m n) as [->|Hn].
    + apply H. exact Hk.
    + simpl in *. injection Hk as <-.
      destruct (Nat.eqb_spec m n); [congruence|]. apply H. exact Es.
Qed.

Lemma wrun_inv i os : forall s, winv s -> winv (wrun i s os).
Proof. induction os as [|o os IH]; intros s H; simpl; [exact H|]. apply IH, wstep_inv, H. Qed.

Lemma fget_live i s v :
  winv s -> snd (wstep i s WFGet) = Ok v ->
  v = VNone \/ v = VNull \/ exists n, v = VObj n /\ alive s n = true.
Proof.
  intros H. unfold wstep. simpl. unfold w_fget. destruct (slot s) as [[|n|n]|] eqn:Es; simpl.
  - intros E. injection E as <-. auto.
  - destruct (alive s n) eqn:Ea; simpl.
    + intros E. injection E as <-. right. right. eauto.
    + unfold w_fdel. rewrite Es. simpl. intros E. injection E as <-. auto.
  - intros E. injection E as <-. right. right. exists n. split; [reflexivity|]. apply H. exact Es.
  - intros E. injection E as <-. auto.
Qed.

Lemma fget_total i s : exists v, snd (wstep i s WFGet) = Ok v.
Proof.
  unfold wstep. simpl. unfold w_fget. destruct (slot s) as [[|n|n]|] eqn:Es; simpl; eauto.
  destruct (alive s n); simpl; eauto. unfold w_fdel. rewrite Es. simpl. eauto.
Qed.

(** ** WeakList *)
Definition linv (s : lstate) : Prop := Forall (fun n => lalive s n = true) (refs s).

Lemma wrap_live s a n : arg_ok s a = true -> wrap s a = Ok n -> lalive s n = true.
Proof.
  destruct a as [m|m]; simpl; intros H E; [injection E as <-; exact H|].
  destruct (lalive s m) eqn:El; [injection E as <-; exact El|discriminate].
Qed.
Lemma wrap_all_live s a : forall ns,
  forallb (arg_ok s) a = true -> wrap_all s a = Ok ns -> Forall (fun n => lalive s n = true) ns.
Proof.
  induction a as [|x t IH]; intros ns H E; simpl in *.
  - injection E as <-. constructor.
  - apply andb_prop in H. destruct H as [H1 H2].
    destruct (wrap s x) as [n|] eqn:Ex; [|discriminate]. simpl in E.
    destruct (wrap_all s t) as [ns'|] eqn:Et; [|discriminate]. injection E as <-.
    constructor; [eapply wrap_live; eassumption|]. apply IH; auto.
Qed.

Lemma lift_inv s r : linv s -> (forall l, r = Ok l -> Forall (fun n => lalive s n = true) l) ->
  linv (fst (lift s r)).
Proof. intros H K. destruct r as [l|e]; simpl; [apply K; reflexivity|exact H]. Qed.

Lemma lstep_inv s o : linv s -> lop_ok s o = true -> linv (fst (lstep s o)).
Proof.
  intros H Ho. destruct o as [a|i a|a|sl a|i a|i|sl|i|i|sl|a|a|a|a| | | |n]; simpl in *; try exact H.
  - apply lift_inv; [exact H|]. destruct (wrap s a) as [n|] eqn:E; simpl; [|discriminate].
    intros l El. injection El as <-. unfold py_append. apply Forall_app. split; [exact H|].
    constructor; [eapply wrap_live; eassumption|constructor].
  - apply lift_inv; [exact H|]. destruct (wrap s a) as [n|] eqn:E; simpl; [|discriminate].
    intros l El. injection El as <-. unfold py_insert. apply Forall_app. split.
    + apply Forall_firstn. exact H.
    + constructor; [eapply wrap_live; eassumption|]. apply Forall_skipn. exact H.
  - apply lift_inv; [exact H|]. destruct (wrap_all s a) as [ns|] eqn:E; simpl; [|discriminate].
    intros l El. injection El as <-. apply Forall_app. split; [exact H|].
    eapply wrap_all_live; eassumption.
  - apply lift_inv; [exact H|]. destruct (wrap_all s a) as [ns|] eqn:E; simpl; [|discriminate].
    intros l El. eapply Forall_set_slice; [eassumption|exact H|eapply wrap_all_live; eassumption].
  - unfold py_pop. destruct (norm_index _ i) as [k|]; [|exact H].
    destruct (nth_error (refs s) k); [|exact H]. simpl. apply Forall_remove_nth. exact H.
  - apply lift_inv; [exact H|]. unfold py_del. destruct (norm_index _ i); [|discriminate].
    intros l El. injection El as <-. apply Forall_remove_nth. exact H.
  - apply lift_inv; [exact H|]. unfold py_del_slice. destruct (slice_indices _ sl) as [[[x y] z]|]; [|discriminate].
    intros l El. injection El as <-. apply Forall_drop. exact H.
  - unfold linv in *. simpl. rewrite Forall_forall in *. intros k Hk.
    apply filter_In in Hk. destruct Hk as [Hk1 Hk2]. destruct (Nat.eqb k n); [discriminate|]. apply H; exact Hk1.
Qed.

Lemma lrun_inv os : forall s, linv s -> linv (lrun s os).
Proof.
  induction os as [|o os IH]; intros s H; simpl; [exact H|]. apply IH.
  destruct (lop_ok s o) eqn:E; [apply lstep_inv; assumption|exact H].
Qed.

(** subsequences *)
Inductive subseq {A} : list A -> list A -> Prop :=
| sub_nil l : subseq [] l
| sub_take x a b : subseq a b -> subseq (x :: a) (x :: b)
| sub_skip x a b : subseq a b -> subseq a (x :: b).

Lemma subseq_filter {A} (p : A -> bool) l : subseq (filter p l) l.
Proof. induction l as [|x t IH]; simpl; [constructor|]. destruct (p x); constructor; exact IH. Qed.
Lemma subseq_trans {A} (a b c : list A) : subseq a b -> subseq b c -> subseq a c.
Proof.
  intros H1 H2. revert a H1; induction H2 as [l|x b c H2 IH|x b c H2 IH]; intros a H1.
  - inversion H1; subst. constructor.
  - inversion H1; subst; [constructor|constructor; apply IH; assumption|].
    apply sub_skip. apply IH. assumption.
  - apply sub_skip. apply IH. exact H1.
Qed.
Lemma subseq_refl {A} (a : list A) : subseq a a.
Proof. induction a; constructor; assumption. Qed.
Lemma subseq_skipn {A} n (l : list A) : subseq (skipn n l) l.
Proof.
  revert l; induction n as [|n IH]; intros l; simpl; [apply subseq_refl|].
  destruct l as [|x t]; [constructor|]. apply sub_skip, IH.
Qed.
Lemma subseq_In {A} (a b : list A) x : subseq a b -> In x a -> In x b.
Proof. intros H. induction H; simpl; intuition. Qed.
Lemma subseq_skip_mono {A} n (a b : list A) : subseq a b -> subseq (skipn n a) (skipn n b).
Proof.
  intros H. revert n; induction H as [l|x a b H IH|x a b H IH]; intros n.
  - destruct n; simpl; constructor.
  - destruct n; simpl; [constructor; exact H|]. apply IH.
  - destruct n as [|n]; simpl; [apply sub_skip; exact H|].
    assert (G : forall k, subseq (skipn (S k) a) (skipn k a)).
    { clear. intros k; revert a; induction k as [|k IH]; intros a.
      - destruct a; simpl; [constructor|]. apply sub_skip, subseq_refl.
      - destruct a as [|y t]; [constructor|]. simpl. apply (IH t). }
    apply (subseq_trans _ (skipn n a)); [apply (G n)|apply IH].
Qed.

Lemma skipn_nth {A} (l : list A) i x : nth_error l i = Some x -> skipn i l = x :: skipn (S i) l.
Proof.
  revert l; induction i as [|i IH]; intros l H; destruct l as [|y t]; try discriminate.
  - injection H as ->. reflexivity.
  - simpl in *. rewrite (IH t H). reflexivity.
Qed.

Lemma iterate_subseq sched : forall l i, subseq (fst (iterate l i sched)) (skipn i l).
Proof.
  induction sched as [|dead sched IH]; intros l i; simpl; [constructor|].
  set (l1 := filter (fun k => negb (existsb (Nat.eqb k) dead)) l).
  destruct (nth_error l1 i) as [x|] eqn:E; simpl; [|constructor].
  specialize (IH l1 (S i)). destruct (iterate l1 (S i) sched) as [ys l']. simpl in *.
  apply (subseq_trans _ (skipn i l1)).
  - rewrite (skipn_nth _ _ _ E). constructor. exact IH.
  - apply subseq_skip_mono. apply subseq_filter.
Qed.

Lemma iterate_complete l : forall i k,
  (length l - i <= k)%nat -> iterate l i (repeat [] k) = (skipn i l, l).
Proof.
  assert (F : filter (fun k => negb (existsb (Nat.eqb k) [])) l = l).
  { induction l as [|x t IH]; simpl; [reflexivity|]. f_equal. exact IH. }
  intros i k; revert i; induction k as [|k IH]; intros i H; cbn [repeat iterate].
  - rewrite skipn_all2 by lia. reflexivity.
  - rewrite F. destruct (nth_error l i) as [x|] eqn:E.
    + assert ((i < length l)%nat) by (apply nth_error_Some; congruence).
      rewrite IH by lia. rewrite (skipn_nth _ _ _ E). reflexivity.
    + apply nth_error_None in E. rewrite skipn_all2 by lia. reflexivity.
Qed.

(** every yielded item was alive (not among those collected before its step) *)
Lemma iterate_live sched : forall l i k y,
  nth_error (fst (iterate l i sched)) k = Some y ->
  Forall (fun dead => ~ In y dead) (firstn (S k) sched).
Proof.
  induction sched as [|dead sched IH]; intros l i k y H; cbn [iterate] in *; [destruct k; discriminate|].
  set (l1 := filter (fun k => negb (existsb (Nat.eqb k) dead)) l) in *.
  destruct (nth_error l1 i) as [x|] eqn:E; simpl in *; [|destruct k; discriminate].
  pose proof (iterate_subseq sched l1 (S i)) as HS.
  specialize (IH l1 (S i)). destruct (iterate l1 (S i) sched) as [ys l']. simpl fst in *.
  assert (L1 : forall z, In z l1 -> ~ In z dead).
  { intros z Hz Hd. unfold l1 in Hz. apply filter_In in Hz. destruct Hz as [_ Hz].
    assert (existsb (Nat.eqb z) dead = true) as X by (apply existsb_exists; exists z; rewrite Nat.eqb_refl; auto).
    rewrite X in Hz. discriminate. }
  destruct k as [|k]; simpl in H.
  - injection H as ->. constructor; [|constructor]. apply L1. eapply nth_error_In. exact E.
  - constructor; [|apply (IH k y H)]. apply L1. eapply subseq_In; [apply (subseq_skipn (S i))|].
    eapply subseq_In; [exact HS|eapply nth_error_In; exact H].
Qed.
