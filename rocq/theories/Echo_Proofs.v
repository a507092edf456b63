(** Proofs about watchers that set fields. *)
From Coq Require Import List Arith Bool Permutation Lia.
From Verif Require Import Base Echo_Model Echo_Spec.
Import ListNotations.

Scheme sets_m := Minimality for sets Sort Prop
  with sends_m := Minimality for sends Sort Prop
  with does_m := Minimality for does Sort Prop.
Combined Scheme echo_ind from sets_m, sends_m, does_m.

Section Proofs.
Variable V : Type.
Variable coerce : nat -> V -> res V.
Variable watchers : nat -> list nat.
Variable react : nat -> nat -> V -> prog V.
Notation sets := (sets V coerce watchers react).
Notation sends := (sends V coerce watchers react).
Notation does := (does V coerce watchers react).
Notation given := (given V).
Notation heard := (heard V).

Lemma given_app k a b : given k (a ++ b) = given k a ++ given k b.
Proof. induction a as [|[j v|w j v|w j|] a IH]; cbn; auto. destruct (Nat.eqb j k); cbn; congruence. Qed.
Lemma heard_app w k a b : heard w k (a ++ b) = heard w k a ++ heard w k b.
Proof. induction a as [|[j v|x j v|x j|] a IH]; cbn; auto. destruct (Nat.eqb x w && Nat.eqb j k); cbn; congruence. Qed.
Lemma last_app (a b : list V) d : last (a ++ b) d = last b (last a d).
Proof.
  revert d. induction a as [|x a IH]; intros d; [reflexivity|]. destruct a as [|y a]; cbn [app].
  - destruct b as [|z b]; [reflexivity|]. cbn [last]. clear. revert z. induction b as [|u b IHb]; intros z; [reflexivity|]. cbn [last] in *. apply IHb.
  - change (last (x :: y :: a ++ b) d) with (last ((y :: a) ++ b) d). rewrite IH. reflexivity.
Qed.
Lemma last_cons (x : V) l d : last (x :: l) d = last l x.
Proof. exact (last_app [x] l d). Qed.

(** *** the store is what was last stored *)
Lemma store_all :
  (forall k v s t s' o, sets k v s t s' o -> forall j, s' j = latest V (s j) (given j t)) /\
  (forall ws k v s t s' o, sends ws k v s t s' o -> forall j, s' j = latest V (s j) (given j t)) /\
  (forall p s t s' o, does p s t s' o -> forall j, s' j = latest V (s j) (given j t)).
Proof.
  unfold latest. apply echo_ind; intros; cbn [Echo_Spec.given]; try reflexivity; auto.
  - rewrite H1. unfold put. rewrite (Nat.eqb_sym k j). destruct (Nat.eqb j k); [rewrite last_cons|]; reflexivity.
  - rewrite given_app, last_app, H2, H0. reflexivity.
  - rewrite given_app, last_app, H0. reflexivity.
  - rewrite given_app, last_app, H2, H0. reflexivity.
Qed.
Lemma coerced_all :
  (forall k v s t s' o, sets k v s t s' o -> forall j x, In (Stored V j x) t -> exists r, coerce j r = Ok x) /\
  (forall ws k v s t s' o, sends ws k v s t s' o -> forall j x, In (Stored V j x) t -> exists r, coerce j r = Ok x) /\
  (forall p s t s' o, does p s t s' o -> forall j x, In (Stored V j x) t -> exists r, coerce j r = Ok x).
Proof.
  apply echo_ind; intros.
  1, 2, 4, 5, 8, 9: cbn in *; intuition discriminate.
  - destruct H2 as [E|I]; [injection E as <- <-; eauto|]. eapply H1; eauto.
  - destruct H3 as [E|I]; [discriminate|]. apply in_app_iff in I as [I|I]; eauto.
  - destruct H1 as [E|I]; [discriminate|]. apply in_app_iff in I as [I|[I|[]]]; [eauto|discriminate].
  - eauto.
  - apply in_app_iff in H3 as [I|I]; eauto.
Qed.

(** *** who hears of what *)
Definition due (w k : nat) (ws : list nat) (k0 : nat) (v : V) : list V := if Nat.eqb k0 k && existsb (Nat.eqb w) ws then [v] else [].
Lemma due_in w k ws k0 v : In w ws -> due w k ws k0 v = if Nat.eqb k0 k then [v] else [].
Proof. intros I. unfold due. assert (existsb (Nat.eqb w) ws = true) as -> by (apply existsb_exists; exists w; split; [exact I|apply Nat.eqb_refl]). rewrite andb_true_r. reflexivity. Qed.
Lemma due_out w k ws k0 v : ~ In w ws -> due w k ws k0 v = [].
Proof.
  intros I. unfold due. assert (existsb (Nat.eqb w) ws = false) as ->; [|rewrite andb_false_r; reflexivity].
  destruct (existsb (Nat.eqb w) ws) eqn:E; [|reflexivity]. apply existsb_exists in E as (x & X & Y). apply Nat.eqb_eq in Y. subst. contradiction.
Qed.
Lemma due_cons w k x ws k0 v : NoDup (x :: ws) -> due w k (x :: ws) k0 v = (if Nat.eqb x w && Nat.eqb k0 k then [v] else []) ++ due w k ws k0 v.
Proof.
  intros N. inversion N; subst. unfold due. cbn [existsb]. rewrite (Nat.eqb_sym w x). destruct (Nat.eqb x w) eqn:E, (Nat.eqb k0 k) eqn:E2; cbn; auto.
  apply Nat.eqb_eq in E. subst. pose proof (due_out w k ws k0 v H1) as D. unfold due in D. rewrite E2 in D. cbn in D. rewrite D. reflexivity.
Qed.
Lemma at_most_all (ND : forall k, NoDup (watchers k)) :
  (forall k0 v s t s' o, sets k0 v s t s' o -> forall w k, exists rest, Permutation (heard w k t ++ rest) (given k t)) /\
  (forall ws k0 v s t s' o, sends ws k0 v s t s' o -> NoDup ws -> forall w k, exists rest, Permutation (heard w k t ++ rest) (given k t ++ due w k ws k0 v)) /\
  (forall p s t s' o, does p s t s' o -> forall w k, exists rest, Permutation (heard w k t ++ rest) (given k t)).
Proof.
  apply echo_ind; intros; cbn [Echo_Spec.given Echo_Spec.heard].
  - exists []. constructor.
  - exists []. constructor.
  - destruct (H1 (ND k) w k0) as (rest & P). unfold due in P. destruct (Nat.eqb k k0) eqn:E.
    + destruct (existsb (Nat.eqb w) (watchers k)); cbn [andb] in P.
      * exists rest. eapply perm_trans; [exact P|]. symmetry. apply Permutation_cons_append.
      * rewrite app_nil_r in P. exists (v' :: rest). eapply perm_trans; [symmetry; apply Permutation_middle|]. apply perm_skip. exact P.
    + cbn in P. rewrite app_nil_r in P. exists rest. exact P.
  - exists []. unfold due. cbn. rewrite andb_false_r. constructor.
  - eexists. cbn [app]. reflexivity.
  - destruct (H0 w0 k0) as (r1 & P1). assert (N : NoDup ws) by (inversion H3; assumption). destruct (H2 N w0 k0) as (r2 & P2).
    rewrite heard_app, given_app, (due_cons _ _ _ _ _ _ H3).
    assert (P : Permutation ((heard w0 k0 t1 ++ heard w0 k0 t2) ++ r1 ++ r2) ((given k0 t1 ++ given k0 t2) ++ due w0 k0 ws k v)).
    { rewrite <- (app_assoc (given k0 t1)). rewrite <- P1, <- P2. rewrite <- !app_assoc. apply Permutation_app_head. rewrite !app_assoc. apply Permutation_app_tail. apply Permutation_app_comm. }
    exists (r1 ++ r2). destruct (Nat.eqb w w0 && Nat.eqb k k0); cbn [app].
    + eapply perm_trans; [apply perm_skip; exact P|]. apply Permutation_middle.
    + exact P.
  - destruct (H0 w0 k0) as (r1 & P1). rewrite heard_app, given_app, (due_cons _ _ _ _ _ _ H1). cbn [Echo_Spec.given Echo_Spec.heard]. rewrite !app_nil_r.
    exists (r1 ++ due w0 k0 ws k v).
    assert (P : Permutation (heard w0 k0 t1 ++ r1 ++ due w0 k0 ws k v) (given k0 t1 ++ due w0 k0 ws k v)) by (rewrite app_assoc; apply Permutation_app_tail; exact P1).
    destruct (Nat.eqb w w0 && Nat.eqb k k0); cbn [app]; [|exact P]. eapply perm_trans; [apply perm_skip; exact P|]. apply Permutation_middle.
  - exists []. constructor.
  - exists []. constructor.
  - auto.
  - destruct (H0 w k0) as (r1 & P1). destruct (H2 w k0) as (r2 & P2). exists (r1 ++ r2). rewrite heard_app, given_app. rewrite <- P1, <- P2. rewrite <- !app_assoc. apply Permutation_app_head.
    rewrite !app_assoc. apply Permutation_app_tail. apply Permutation_app_comm.
Qed.
Lemma smooth_app a b : smooth V (a ++ b) -> smooth V a /\ smooth V b.
Proof. intros (A & B). split; split; [intros I; apply A|intros w k I; apply (B w k)|intros I; apply A|intros w k I; apply (B w k)]; apply in_app_iff; auto. Qed.
Lemma smooth_cons x a : smooth V (x :: a) -> smooth V a.
Proof. intros H. apply (smooth_app [x] a H). Qed.
Lemma exactly_all w k (ND : NoDup (watchers k)) (W : In w (watchers k)) :
  (forall k0 v s t s' o, sets k0 v s t s' o -> smooth V t -> Permutation (heard w k t) (given k t)) /\
  (forall ws k0 v s t s' o, sends ws k0 v s t s' o -> (k0 = k -> NoDup ws) -> smooth V t -> Permutation (heard w k t) (given k t ++ due w k ws k0 v)) /\
  (forall p s t s' o, does p s t s' o -> smooth V t -> Permutation (heard w k t) (given k t)).
Proof.
  assert (DC : forall x ws k0 v, (k0 = k -> NoDup (x :: ws)) -> due w k (x :: ws) k0 v = (if Nat.eqb x w && Nat.eqb k0 k then [v] else []) ++ due w k ws k0 v).
  { intros x ws k0 v H. destruct (Nat.eqb_spec k0 k) as [E|E]; [rewrite due_cons by auto; apply Nat.eqb_eq in E; rewrite E; reflexivity|].
    unfold due. apply Nat.eqb_neq in E. rewrite E, andb_false_r. reflexivity. }
  apply echo_ind; intros; cbn [Echo_Spec.given Echo_Spec.heard].
  - constructor.
  - constructor.
  - specialize (H1 (fun E => eq_ind_r (fun k => NoDup (watchers k)) ND E) (smooth_cons _ _ H2)). destruct (Nat.eqb_spec k0 k) as [E|E].
    + subst k0. rewrite due_in, Nat.eqb_refl in H1 by exact W. eapply perm_trans; [exact H1|]. symmetry. apply Permutation_cons_append.
    + unfold due in H1. apply Nat.eqb_neq in E. rewrite E in H1. cbn in H1. rewrite app_nil_r in H1. exact H1.
  - unfold due. cbn. rewrite andb_false_r. constructor.
  - exfalso. apply H0. left. reflexivity.
  - pose proof (smooth_app _ _ (smooth_cons _ _ H4)) as (S1 & S2). specialize (H0 S1). specialize (H2 (fun E => proj2 (proj1 (NoDup_cons_iff _ _) (H3 E))) S2).
    rewrite heard_app, given_app, DC by exact H3.
    assert (P : Permutation (heard w k t1 ++ heard w k t2) ((given k t1 ++ given k t2) ++ due w k ws k0 v)) by (rewrite <- app_assoc; apply Permutation_app; assumption).
    destruct (Nat.eqb w0 w && Nat.eqb k0 k); cbn [app]; [|exact P]. eapply perm_trans; [apply perm_skip; exact P|]. apply Permutation_middle.
  - exfalso. apply (proj2 H2 w0 k0). right. apply in_app_iff. right. left. reflexivity.
  - constructor.
  - constructor.
  - auto.
  - pose proof (smooth_app _ _ H3) as (S1 & S2). rewrite heard_app, given_app. apply Permutation_app; auto.
Qed.

(** *** a watcher with nobody before it that assigns to the field *)
Section Mirror.
Variables (k w : nat) (pre post : list nat).
Hypothesis Hw : watchers k = pre ++ w :: post.
Hypothesis ND : NoDup (watchers k).
Hypothesis LA : forall x, In x pre -> leaves_alone V coerce watchers react x k.
Definition fine (t : list (happening V)) : Prop := ~ In (TooDeep V) t /\ forall x, In x pre -> ~ In (Threw V x k) t.
Lemma fine_app a b : fine (a ++ b) -> fine a /\ fine b.
Proof. intros (A & B). split; split; [intros I; apply A|intros x X I; apply (B x X)|intros I; apply A|intros x X I; apply (B x X)]; apply in_app_iff; auto. Qed.
Lemma fine_cons x a : fine (x :: a) -> fine a.
Proof. intros H. apply (fine_app [x] a H). Qed.
Lemma w_out : ~ In w pre /\ ~ In w post.
Proof. rewrite Hw in ND. apply NoDup_remove_2 in ND. rewrite in_app_iff in ND. tauto. Qed.
Lemma mirror_all :
  (forall k0 v s t s' o, sets k0 v s t s' o -> fine t -> heard w k t = given k t) /\
  (forall ws k0 v s t s' o, sends ws k0 v s t s' o -> fine t ->
    (k0 <> k \/ ~ In w ws -> heard w k t = given k t) /\
    (forall p2, k0 = k -> ws = p2 ++ w :: post -> incl p2 pre -> heard w k t = v :: given k t)) /\
  (forall p s t s' o, does p s t s' o -> fine t -> heard w k t = given k t).
Proof.
  destruct w_out as (Wpre & Wpost).
  apply echo_ind; intros; cbn [Echo_Spec.given Echo_Spec.heard]; try reflexivity.
  - destruct (H1 (fine_cons _ _ H2)) as (A & B). destruct (Nat.eqb_spec k0 k) as [->|E]; [apply (B pre eq_refl Hw); apply incl_refl|apply A; auto].
  - split; [reflexivity|]. intros p2 _ E. destruct p2; discriminate.
  - exfalso. apply H. left. reflexivity.
  - destruct (fine_app _ _ (fine_cons _ _ H3)) as (F1 & F2). specialize (H0 F1). destruct (H2 F2) as (A & B). rewrite heard_app, given_app. split.
    + intros C. assert (Nat.eqb w0 w && Nat.eqb k0 k = false) as ->.
      { destruct (Nat.eqb_spec w0 w), (Nat.eqb_spec k0 k); cbn; auto. destruct C as [C|C]; [contradiction|]. exfalso. apply C. left. auto. }
      rewrite H0, A; [reflexivity|]. destruct C as [C|C]; [auto|]. right. intros I. apply C. right. exact I.
    + intros p2 -> E I. rewrite Nat.eqb_refl, andb_true_r. destruct p2 as [|x p2]; cbn [app] in E; injection E as -> ->.
      * rewrite Nat.eqb_refl. rewrite H0, A by (right; exact Wpost). reflexivity.
      * assert (X : In x pre) by (apply I; left; reflexivity). assert (x <> w) by (intros ->; contradiction). apply Nat.eqb_neq in H4. rewrite H4.
        pose proof (LA x X _ _ _ _ _ H) as G. rewrite H0, G. cbn [app]. apply (B p2); auto. intros y Y. apply I. right. exact Y.
  - destruct (fine_app _ _ (fine_cons _ _ H1)) as (F1 & F2). specialize (H0 F1). rewrite heard_app, given_app. cbn [Echo_Spec.given Echo_Spec.heard]. rewrite !app_nil_r. split.
    + intros C. assert (Nat.eqb w0 w && Nat.eqb k0 k = false) as ->; [|exact H0].
      destruct (Nat.eqb_spec w0 w), (Nat.eqb_spec k0 k); cbn; auto. destruct C as [C|C]; [contradiction|]. exfalso. apply C. left. auto.
    + intros p2 -> E I. rewrite Nat.eqb_refl, andb_true_r. destruct p2 as [|x p2]; cbn [app] in E; injection E as -> ->.
      * rewrite Nat.eqb_refl, H0. reflexivity.
      * exfalso. apply (proj2 F2 x); [apply I; left; reflexivity|left; reflexivity].
  - auto.
  - destruct (fine_app _ _ H3) as (F1 & F2). rewrite heard_app, given_app, H0, H2 by assumption. reflexivity.
Qed.
End Mirror.

(** *** an assignment sticks *)
Lemma sends_alone k : forall ws v s t s' o, sends ws k v s t s' o -> (forall w, In w ws -> leaves_alone V coerce watchers react w k) -> given k t = [].
Proof.
  induction ws as [|w ws IH]; intros v s t s' o H L; inversion H; subst; cbn [Echo_Spec.given]; auto; rewrite given_app.
  - match goal with H1 : does _ _ _ _ Ret, H2 : sends ws _ _ _ _ _ _ |- _ => rewrite (L w (or_introl eq_refl) _ _ _ _ _ H1), (IH _ _ _ _ _ H2) end; [reflexivity|]. intros x X. apply L. right. exact X.
  - match goal with H1 : does _ _ _ _ (Raised _) |- _ => rewrite (L w (or_introl eq_refl) _ _ _ _ _ H1) end. reflexivity.
Qed.
Lemma sticks k v v' s t s' o : (forall w, In w (watchers k) -> leaves_alone V coerce watchers react w k) -> sets k v s t s' o -> coerce k v = Ok v' -> t <> [TooDeep V] ->
  s' k = v' /\ given k t = [v'].
Proof.
  intros L H C T. pose proof (proj1 store_all _ _ _ _ _ _ H k) as S. inversion H; subst; try congruence.
  rewrite C in H0. injection H0 as <-. cbn [Echo_Spec.given] in *. rewrite Nat.eqb_refl in *. rewrite (sends_alone k _ _ _ _ _ _ H1 L) in *. auto.
Qed.

(** *** ranks *)
Lemma rank_all rank (A : acyclic V watchers react rank) :
  (forall k v s t s' o, sets k v s t s' o -> forall j x, In (Stored V j x) t -> rank k <= rank j) /\
  (forall ws k v s t s' o, sends ws k v s t s' o -> incl ws (watchers k) -> forall j x, In (Stored V j x) t -> rank k < rank j) /\
  (forall p s t s' o, does p s t s' o -> forall r, assigns_only V (fun j => r < rank j) p -> forall j x, In (Stored V j x) t -> r < rank j).
Proof.
  apply echo_ind; intros.
  1, 2, 4, 5, 8, 9: cbn in *; intuition discriminate.
  - destruct H2 as [E|I]; [injection E as <- <-; auto|]. apply Nat.lt_le_incl. eapply H1; eauto. apply incl_refl.
  - destruct H4 as [E|I]; [discriminate|]. apply in_app_iff in I as [I|I].
    + eapply H0; [|exact I]. apply A. apply H3. left. reflexivity.
    + eapply H2; [|exact I]. intros y Y. apply H3. right. exact Y.
  - destruct H2 as [E|I]; [discriminate|]. apply in_app_iff in I as [I|[I|[]]]; [|discriminate]. eapply H0; [|exact I]. apply A. apply H1. left. reflexivity.
  - eapply H0; [|exact H2]. apply H1.
  - cbn [assigns_only] in H3. destruct H3 as (R & C). apply in_app_iff in H4 as [I|I].
    + pose proof (H0 j x I). lia.
    + eapply H2; [|exact I]. apply C.
Qed.
Lemma given_none k t : (forall x, ~ In (Stored V k x) t) -> given k t = [].
Proof.
  induction t as [|[j v|w j v|w j|] t IH]; intros H; cbn; auto; try (apply IH; intros x I; apply (H x); right; exact I).
  destruct (Nat.eqb_spec j k) as [->|E]; [exfalso; apply (H v); left; reflexivity|]. apply IH. intros x I. apply (H x). right. exact I.
Qed.
Lemma acyclic_alone rank (A : acyclic V watchers react rank) w k : In w (watchers k) -> leaves_alone V coerce watchers react w k.
Proof.
  intros W v s t s' o H. apply given_none. intros x I. pose proof (proj2 (proj2 (rank_all rank A)) _ _ _ _ _ H (rank k) (A w k v W) _ _ I). lia.
Qed.
End Proofs.
