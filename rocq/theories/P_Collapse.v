(** C16: flattening nested lists. *)
From Verif Require Import Base Collapse_Model Collapse_Spec.

Section S.
Context {A : Type}.
Implicit Types (h : heap A) (l : list (item A)).

Lemma leaves_app h l1 l2 ls1 ls2 :
  leaves_of h l1 ls1 -> leaves_of h l2 ls2 -> leaves_of h (l1 ++ l2) (ls1 ++ ls2).
Proof.
  induction 1; cbn; intros; auto.
  - constructor; auto.
  - rewrite <- app_assoc. constructor; auto.
Qed.
Lemma leaves_app_inv h l1 l2 ls :
  leaves_of h (l1 ++ l2) ls -> exists ls1 ls2, ls = ls1 ++ ls2 /\ leaves_of h l1 ls1 /\ leaves_of h l2 ls2.
Proof.
  revert ls. induction l1 as [|x l1 IH]; cbn; intros ls H.
  - exists [], ls. repeat split; auto. constructor.
  - inversion H; subst.
    + apply IH in H3 as (a & b & -> & ? & ?). exists (x0 :: a), b. repeat split; auto. constructor; auto.
    + apply IH in H4 as (a & b & -> & ? & ?). exists (ls1 ++ a), b. rewrite app_assoc.
      repeat split; auto. constructor; auto.
Qed.

Lemma set_last h l l' : set (h ++ [l]) (length h) l' = h ++ [l'].
Proof. induction h; cbn; congruence. Qed.
Lemma get_last h l : get (h ++ [l]) (length h) = l.
Proof. unfold get. rewrite app_nth2, Nat.sub_diag; auto. Qed.
Lemma get_old h l j : j < length h -> get (h ++ [l]) j = nth j h [].
Proof. intros. unfold get. now rewrite app_nth1. Qed.

(** one run of the loop, with [pre] already flattened *)
Lemma collapse_fwd h (W : wf_heap h) :
  forall sfx ls, leaves_of h sfx ls -> Forall (fun it => forall j, it = IList j -> j < length h) sfx ->
  forall pre, exists n, forall fuel rest,
    _collapse (n + fuel) (h ++ [map (@ILeaf A) pre ++ sfx ++ rest]) (length h) (length pre)
    = _collapse fuel (h ++ [map (@ILeaf A) (pre ++ ls) ++ rest]) (length h) (length (pre ++ ls)).
Proof.
  intros sfx ls H. induction H as [|x r ls H IH|j r ls1 ls2 H1 IH1 H2 IH2]; intros B pre.
  - exists 0. intros. cbn. rewrite app_nil_r. reflexivity.
  - inversion B as [|? ? _ B']; subst. destruct (IH B' (pre ++ [x])) as [n Hn]. exists (S n). intros fuel rest. cbn [Nat.add _collapse].
    rewrite get_last. rewrite nth_error_app2 by (rewrite map_length; lia).
    rewrite map_length, Nat.sub_diag. cbn [nth_error app].
    specialize (Hn fuel rest). rewrite map_app, <- !app_assoc in Hn. cbn [map app] in Hn.
    rewrite !app_length in Hn. cbn [length] in Hn. rewrite Nat.add_1_r in Hn.
    rewrite Hn. rewrite app_length. cbn [length]. reflexivity.
  - inversion B as [|? ? Bj B']; subst. specialize (Bj j eq_refl).
    destruct (IH1) with (pre := pre) as [n1 Hn1].
    { apply Forall_forall. intros it Hit j' ->. eapply W; eauto. }
    destruct (IH2 B' (pre ++ ls1)) as [n2 Hn2].
    exists (S (n1 + n2)). intros fuel rest. cbn [Nat.add _collapse].
    rewrite get_last. rewrite nth_error_app2 by (rewrite map_length; lia).
    rewrite map_length, Nat.sub_diag. cbn [nth_error app].
    rewrite get_old by auto.
    rewrite firstn_app, map_length, Nat.sub_diag, <- (map_length (@ILeaf A) pre) at 1.
    rewrite firstn_all. cbn [firstn]. rewrite app_nil_r.
    replace (skipn (S (length pre)) (map ILeaf pre ++ IList j :: r ++ rest)) with (r ++ rest).
    2:{ rewrite skipn_app, map_length. replace (S (length pre) - length pre) with 1 by lia.
        rewrite skipn_all2 by (rewrite map_length; lia). reflexivity. }
    rewrite set_last. replace (n1 + n2 + fuel) with (n1 + (n2 + fuel)) by lia.
    rewrite Hn1, Hn2. now rewrite app_assoc.
Qed.

(** and backwards: a run that ends has found a finite nesting *)
Lemma collapse_bwd h (W : wf_heap h) : forall fuel pre sfx h',
  Forall (fun it => forall j, it = IList j -> j < length h) sfx ->
  _collapse fuel (h ++ [map (@ILeaf A) pre ++ sfx]) (length h) (length pre) = Some h' ->
  exists ls, leaves_of h sfx ls.
Proof.
  induction fuel as [|f IH]; intros pre sfx h' B H; [discriminate|].
  cbn [_collapse] in H. rewrite get_last in H.
  rewrite nth_error_app2 in H by (rewrite map_length; lia).
  rewrite map_length, Nat.sub_diag in H. destruct sfx as [|[j|x] r]; cbn [nth_error] in H.
  - exists []. constructor.
  - inversion B as [|? ? Bj B']; subst. specialize (Bj j eq_refl). rewrite get_old in H by auto.
    rewrite firstn_app, map_length, Nat.sub_diag, <- (map_length (@ILeaf A) pre) in H at 1.
    rewrite firstn_all in H. cbn [firstn] in H. rewrite app_nil_r in H.
    replace (skipn (S (length pre)) (map ILeaf pre ++ IList j :: r)) with r in H.
    2:{ rewrite skipn_app, map_length. replace (S (length pre) - length pre) with 1 by lia.
        rewrite skipn_all2 by (rewrite map_length; lia). reflexivity. }
    rewrite set_last in H. apply IH in H as [ls Hl].
    2:{ apply Forall_app. split; auto. apply Forall_forall. intros it Hit j' ->. eapply W; eauto. }
    apply leaves_app_inv in Hl as (a & b & -> & ? & ?). exists (a ++ b). constructor; auto.
  - inversion B; subst.
    replace (map ILeaf pre ++ ILeaf x :: r) with (map ILeaf (pre ++ [x]) ++ r) in H
      by (rewrite map_app, <- app_assoc; reflexivity).
    replace (S (length pre)) with (length (pre ++ [x])) in H by (rewrite app_length; cbn; lia).
    apply IH in H as [ls Hl]; auto. exists (x :: ls). constructor; auto.
Qed.

Lemma leaves_fun h l ls1 ls2 : leaves_of h l ls1 -> leaves_of h l ls2 -> ls1 = ls2.
Proof.
  intros H. revert ls2. induction H; intros ls' H'; inversion H'; subst; auto; f_equal; auto.
Qed.

Lemma collapse_mono : forall f1 h id ind r, _collapse f1 h id ind = Some r ->
  forall f2, f1 <= f2 -> _collapse f2 h id ind = Some r.
Proof.
  induction f1 as [|f1 IH]; intros h id ind r H f2 L; [discriminate|].
  destruct f2; [lia|]. cbn in *. destruct (nth_error _ _) as [[]|]; auto; eapply IH; eauto; lia.
Qed.

(** C16.  Flattening a finite nesting of lists ends, returns a new list
    object holding exactly the leaves in order, and changes no existing list
    (the final heap is the old one plus the result). *)
Theorem C16_collapse_finite h id ls :
  wf_heap h -> id < length h -> leaves_of h (nth id h []) ls ->
  exists n, forall fuel, n <= fuel ->
    collapse fuel h id = Some (h ++ [map (@ILeaf A) ls], length h).
Proof.
  intros W Hid H.
  destruct (collapse_fwd h W _ _ H) with (pre := @nil A) as [n Hn].
  { apply Forall_forall. intros it Hit j ->. eapply W; eauto. }
  exists (n + 1). intros fuel L. unfold collapse.
  pose proof (Hn 1 []) as E. cbn [map app length] in E. rewrite !app_nil_r in E.
  cbn [_collapse] in E. rewrite get_last in E.
  replace (nth_error (map ILeaf ls) (length ls)) with (@None (item A)) in E.
  2:{ symmetry. apply nth_error_None. rewrite map_length. lia. }
  unfold get at 1. rewrite (collapse_mono _ _ _ _ _ E fuel) by lia. reflexivity.
Qed.

(** ... and it ends only for finite nestings: a list that contains itself,
    directly or not, is never flattened. *)
Theorem C16_collapse_terminates_only_if_finite h id fuel r :
  wf_heap h -> collapse fuel h id = Some r -> exists ls, leaves_of h (nth id h []) ls.
Proof.
  intros W. unfold collapse. destruct (_collapse _ _ _ _) eqn:E; [|discriminate]. intros _.
  eapply (collapse_bwd h W fuel [] (get h id)); eauto.
  apply Forall_forall. intros it Hit j ->. eapply W; eauto.
Qed.

(** what is stored is determined: the leaves of a nesting are unique *)
Theorem C16_leaves_unique h l ls1 ls2 : leaves_of h l ls1 -> leaves_of h l ls2 -> ls1 = ls2.
Proof. apply leaves_fun. Qed.
End S.

(** the list [1, [[], [2, [3]]], 4] with a shared sub-list *)
Definition ex_heap : heap nat :=
  [ [ILeaf 1; IList 1; IList 3; ILeaf 4]; [IList 2; IList 3]; []; [ILeaf 2; IList 4]; [ILeaf 3] ].
Example ex_leaves : leaves_of ex_heap (nth 0 ex_heap []) [1; 2; 3; 2; 3; 4].
Proof.
  assert (E4 : leaves_of ex_heap [IList 4] [3]).
  { apply (lv_list _ 4 _ [3] []); cbn; repeat constructor. }
  assert (E3 : leaves_of ex_heap [IList 3] [2; 3]).
  { apply (lv_list _ 3 _ [2; 3] []); cbn; [constructor; exact E4|constructor]. }
  cbn. constructor. apply (lv_list _ 1 _ [2; 3] [2; 3; 4]); cbn.
  - apply (lv_list _ 2 _ [] [2; 3]); cbn; [constructor|exact E3].
  - apply (leaves_app _ [IList 3] [ILeaf 4] [2; 3] [4]); [exact E3|repeat constructor].
Qed.
Example ex_collapse : collapse 20 ex_heap 0 = Some (ex_heap ++ [map ILeaf [1; 2; 3; 2; 3; 4]], 5).
Proof. reflexivity. Qed.
Example ex_cyclic : ~ exists fuel r, collapse fuel [[@IList nat 0]] 0 = Some r.
Proof.
  intros (fuel & r & H). apply C16_collapse_terminates_only_if_finite in H.
  2:{ intros j i. destruct i as [|[|i]]; cbn; [intros [[= <-]|[]]; lia|intros []|intros []]. }
  assert (N : forall l ls, leaves_of [[@IList nat 0]] l ls -> l = [IList 0] -> False).
  { induction 1; intros E; inversion E; subst. auto. }
  destruct H as [ls H]. exact (N _ _ H eq_refl).
Qed.

Print Assumptions C16_collapse_finite.
Print Assumptions C16_collapse_terminates_only_if_finite.
