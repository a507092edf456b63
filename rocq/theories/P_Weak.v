(** C05-C07 (vrml/weaklist.py) and C14 (WeakField). *)
From Verif Require Import Base PyList Weak_Model Weak_Proofs.
Open Scope Z_scope.

(** C05.  After every interleaving of list operations and collections, all
    members of the weak list are alive. *)
Theorem C05_members_alive :
  forall (os : list lop) (s : lstate),
  Forall (fun n => lalive s n = true) (refs s) ->
  Forall (fun n => lalive (lrun s os) n = true) (refs (lrun s os)).
Proof. exact lrun_inv. Qed.
Print Assumptions C05_members_alive.

(** C05.  A collection removes all entries of the collected object and nothing
    else, keeping the order; entries are otherwise those of a builtin list
    holding the objects. *)
Theorem C05_collection_removes_exactly :
  forall (s : lstate) (n : nat),
  refs (fst (lstep s (LCollect n))) = filter (fun k => negb (Nat.eqb k n)) (refs s).
Proof. reflexivity. Qed.
Print Assumptions C05_collection_removes_exactly.
Theorem C05_operations_as_builtin :
  forall (s : lstate) (i : Z) (n : nat) (ns : list nat) (sl : pyslice),
  refs (fst (lstep s (LAppend (AObj n)))) = refs s ++ [n] /\
  refs (fst (lstep s (LInsert i (AObj n)))) = py_insert (refs s) i n /\
  refs (fst (lstep s (LExtend (map AObj ns)))) = refs s ++ ns /\
  (forall l, py_set_slice (refs s) sl ns = Ok l ->
     refs (fst (lstep s (LSetSlice sl (map AObj ns)))) = l) /\
  (forall x l, py_pop (refs s) i = Ok (x, l) ->
     lstep s (LPop i) = ({| refs := l; lalive := lalive s |}, Ok (LObj x))) /\
  (forall x, py_get (refs s) i = Ok x -> lstep s (LGet i) = (s, Ok (LObj x))).
Proof.
  intros s i n ns sl.
  assert (W : wrap_all s (map AObj ns) = Ok ns).
  { induction ns as [|x t IH]; simpl; [reflexivity|]. rewrite IH. reflexivity. }
  cbn [lstep]. rewrite W. repeat split; try reflexivity.
  - intros l E. simpl. rewrite E. reflexivity.
  - intros x l E. rewrite E. reflexivity.
  - intros x E. rewrite E. reflexivity.
Qed.
Print Assumptions C05_operations_as_builtin.

(** C06.  Without collections during the iteration: all members, in order. *)
Theorem C06_iteration_complete :
  forall (l : list nat) (k : nat), (length l <= k)%nat ->
  iterate l 0 (repeat [] k) = (l, l).
Proof. intros l k H. apply (iterate_complete l 0 k). lia. Qed.
Print Assumptions C06_iteration_complete.

(** C06.  Under any schedule of collections the yielded sequence is a
    subsequence of the list (no entry twice, order kept) ... *)
Theorem C06_iteration_subsequence :
  forall (sched : list (list nat)) (l : list nat), subseq (fst (iterate l 0 sched)) l.
Proof. intros sched l. apply (iterate_subseq sched l 0). Qed.
Print Assumptions C06_iteration_subsequence.

(** ... and each yielded item had not been collected when it was yielded. *)
Theorem C06_yielded_alive :
  forall (sched : list (list nat)) (l : list nat) (k y : nat),
  nth_error (fst (iterate l 0 sched)) k = Some y ->
  Forall (fun dead => ~ In y dead) (firstn (S k) sched).
Proof. exact (fun sched l => iterate_live sched l 0). Qed.
Print Assumptions C06_yielded_alive.

(** C06 (refuted for the wider claim): a member alive throughout is skipped. *)
Theorem C06_live_member_skipped_refuted :
  exists l sched y, In y l /\ Forall (fun d => ~ In y d) sched /\
    (length l <= length sched)%nat /\ ~ In y (fst (iterate l 0 sched)).
Proof.
  exists [1;2;3]%nat, [[]; [1]; []]%nat, 2%nat. repeat split.
  - simpl. auto.
  - repeat constructor; simpl; intuition discriminate.
  - simpl. lia.
  - vm_compute. intuition discriminate.
Qed.
Print Assumptions C06_live_member_skipped_refuted.

(** C07 (refuted).  On Python 3 these calls raise for every list. *)
Theorem C07_queries_raise_refuted :
  forall (s : lstate) (a : arg) (i : Z),
  Forall (fun o => lstep s o = (s, Exc AttributeError))
         [LContains a; LCount a; LIndex a; LRemove a; LSort; LCompare; LRepr] /\
  lstep s (LSetInt i a) = (s, Exc NameError).
Proof. intros s a i. split; [repeat constructor|reflexivity]. Qed.
Print Assumptions C07_queries_raise_refuted.

(** C14.  fget after any interleaving of sets, reads and collections: None,
    NULL, or an object that is alive; it never raises. *)
Theorem C14_weak_field_never_dead :
  forall i (os : list wop) (al : nat -> bool),
  let s := wrun i {| slot := None; alive := al |} os in
  exists v, snd (wstep i s WFGet) = Ok v /\
    (v = VNone \/ v = VNull \/ exists n, v = VObj n /\ alive s n = true).
Proof.
  intros i os al s. destruct (fget_total i s) as [v Hv]. exists v. split; [exact Hv|].
  apply (fget_live i s v); [|exact Hv]. apply wrun_inv. intros n H. discriminate.
Qed.
Print Assumptions C14_weak_field_never_dead.

(** A live object stored by fset is what fget returns. *)
Theorem C14_set_then_get :
  forall i s n, alive s n = true ->
  let s' := fst (wstep i s (WFSet (VObj n))) in
  snd (wstep i s' WFGet) = Ok (VObj n).
Proof.
  intros i s n H. unfold wstep. simpl. rewrite H. unfold w_fget. simpl. rewrite H. reflexivity.
Qed.
Print Assumptions C14_set_then_get.

(** Clearing: with the accelerator a falsy value clears a set field ... *)
Theorem C14_falsy_clears_accel :
  forall s c v, slot s = Some c -> v = VNone \/ v = VNull ->
  slot (fst (wstep Accel s (WFSet v))) = None.
Proof. intros s c v H [->| ->]; unfold wstep; simpl; unfold w_fset, w_fdel; rewrite H; reflexivity. Qed.
Print Assumptions C14_falsy_clears_accel.

(** ... but in pure Python it is left in place, and on an unset field both
    implementations raise AttributeError (refuted). *)
Theorem C14_falsy_does_not_clear_pure_refuted :
  forall s c v, slot s = Some c -> v = VNone \/ v = VNull ->
  wstep Pure s (WFSet v) = (s, Ok VNone).
Proof. intros s c v H [->| ->]; unfold wstep; simpl; unfold w_fset, w_fdel; rewrite H; reflexivity. Qed.
Print Assumptions C14_falsy_does_not_clear_pure_refuted.
Theorem C14_falsy_on_unset_raises_refuted :
  forall i s v, slot s = None -> v = VNone \/ v = VNull ->
  wstep i s (WFSet v) = (s, Exc AttributeError).
Proof. intros i s v H [->| ->]; unfold wstep; simpl; unfold w_fset, w_fdel; rewrite H; reflexivity. Qed.
Print Assumptions C14_falsy_on_unset_raises_refuted.

(** Setting through a weakref is setting its object, or, once that is gone,
    setting None; what fset returns is never a dead object. *)
Theorem C14_set_through_reference :
  forall i s n,
  (alive s n = true -> wstep i s (WFSet (VRef n)) = wstep i s (WFSet (VObj n))) /\
  (alive s n = false -> wstep i s (WFSet (VRef n)) = wstep i s (WFSet VNone)).
Proof. intros i s n. split; intros H; unfold wstep; simpl; unfold w_fset; rewrite H; reflexivity. Qed.
Print Assumptions C14_set_through_reference.
Theorem C14_fset_returns_live :
  forall i s v n, snd (wstep i s (WFSet v)) = Ok (VObj n) -> alive s n = true.
Proof.
  intros i s v n. unfold wstep, w_fset, w_fdel. destruct v as [| |m|m]; simpl;
    try (destruct (alive s m) eqn:A; simpl); try (destruct (slot s), i; simpl); try discriminate; intros [= <-]; exact A.
Qed.
Print Assumptions C14_fset_returns_live.

(** Attribute access returns the raw reference, dead or alive (refuted). *)
Theorem C14_attribute_returns_raw_reference_refuted :
  forall i s n, alive s n = true ->
  let s' := fst (wstep i s (WFSet (VObj n))) in
  snd (wstep i s' WAttrGet) = Ok (VRef n) /\
  snd (wstep i (fst (wstep i s' (WCollect n))) WAttrGet) = Ok (VRef n) /\
  alive (fst (wstep i s' (WCollect n))) n = false.
Proof.
  intros i s n H. unfold wstep. simpl. rewrite H. simpl. rewrite Nat.eqb_refl. repeat split.
Qed.
Print Assumptions C14_attribute_returns_raw_reference_refuted.

(** *** Non-vacuity *)
Example C05_hyps :
  refs (lrun {| refs := []; lalive := fun _ => true |}
    [LAppend (AObj 1); LExtend [AObj 2; AObj 3; AObj 1]; LCollect 1; LInsert 0 (AObj 4);
     LAppend (ARef 1); LSetSlice (slice2 1 2) [AObj 5; ARef 4]]) = [4;5;4;3]%nat.
Proof. vm_compute. reflexivity. Qed.
Example C14_hyps :
  let s := wrun Accel {| slot := None; alive := fun _ => true |} [WFGet; WFSet (VObj 3); WCollect 4] in
  snd (wstep Accel s WFGet) = Ok (VObj 3) /\
  snd (wstep Accel (fst (wstep Accel s (WCollect 3))) WFGet) = Ok VNone.
Proof. vm_compute. split; reflexivity. Qed.
