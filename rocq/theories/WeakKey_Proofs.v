From Coq Require Import List Arith Bool Lia.
From Verif Require Import Base WeakKey_Model WeakKey_Spec.
Import ListNotations.

Section T.
Variable keq : nat -> nat.
Variable holds : nat -> list nat.
Hypothesis inj : forall a b, keq a = keq b -> a = b.

Lemma same_spec d k e : same keq d k e = true <-> d e = false /\ k = e.
Proof.
  unfold same. rewrite andb_true_iff, negb_true_iff, Nat.eqb_eq. split.
  - intros [H1 H2]. split; auto.
  - intros [H1 ->]. auto.
Qed.

(** the entries are the live part of [m] *)
Definition good (d : nat -> bool) (l : list (nat * nat)) (m : nat -> option nat) : Prop :=
  NoDup (map fst l) /\ (forall k v, d k = false -> (In (k, v) l <-> m k = Some v)).

Lemma find_in d l k : NoDup (map fst l) -> d k = false ->
  forall v, find keq d k l = Some v <-> In (k, v) l.
Proof.
  intros N D. induction l as [|[e w] l IH]; cbn; intros v.
  - split; [discriminate|tauto].
  - cbn in N. inversion N as [|? ? N1 N2]; subst.
    destruct (same keq d k e) eqn:E.
    + apply same_spec in E. destruct E as [_ ->]. split.
      * intros [= ->]. auto.
      * intros [[= ->]|H]; auto. exfalso. apply N1.
        change e with (fst (e, v)). now apply in_map.
    + rewrite (IH N2). split; auto. intros [[= -> ->]|H]; auto.
      assert (same keq d k k = true) by (apply same_spec; auto). congruence.
Qed.

Lemma find_good d l m k : good d l m -> d k = false -> find keq d k l = m k.
Proof.
  intros [N G] D. destruct (m k) as [v|] eqn:E.
  - apply find_in; auto. now apply G.
  - destruct (find keq d k l) as [v|] eqn:F; auto.
    apply find_in in F; auto. apply G in F; auto. congruence.
Qed.

Lemma assign_keys d k v l : forall e, In e (map fst (assign keq d k v l)) ->
  e = k \/ In e (map fst l).
Proof.
  induction l as [|[e w] l IH]; cbn; intros x.
  - intuition.
  - destruct (same keq d k e); cbn; intuition. apply IH in H0. tauto.
Qed.

Lemma assign_nodup d k v l : d k = false -> NoDup (map fst l) ->
  NoDup (map fst (assign keq d k v l)).
Proof.
  intros D. induction l as [|[e w] l IH]; cbn; intros N.
  - constructor; auto.
  - inversion N as [|? ? N1 N2]; subst. destruct (same keq d k e) eqn:E; cbn.
    + now constructor.
    + constructor; auto. intros H. apply assign_keys in H as [->|H]; auto.
      assert (same keq d k k = true) by (apply same_spec; auto). congruence.
Qed.

Lemma assign_in d k v l : d k = false -> NoDup (map fst l) -> forall e w,
  In (e, w) (assign keq d k v l) <-> (e = k /\ w = v) \/ (e <> k /\ In (e, w) l).
Proof.
  intros D. induction l as [|[x y] l IH]; cbn; intros N e w.
  - split.
    + intros [[= -> ->]|[]]. auto.
    + intros [[-> ->]|[_ []]]; auto.
  - inversion N as [|? ? N1 N2]; subst. destruct (same keq d k x) eqn:E; cbn.
    + apply same_spec in E as [_ <-]. split.
      * intros [[= -> ->]|H]; auto. right. split; auto. intros ->. apply N1.
        change k with (fst (k, w)). now apply in_map.
      * intros [[-> ->]|[H [[= -> ->]|H1]]]; auto. congruence.
    + rewrite (IH N2). assert (x <> k).
      { intros ->. assert (same keq d k k = true) by (apply same_spec; auto). congruence. }
      split.
      * intros [[= -> ->]|[H1|[H1 H2]]]; auto.
      * intros [[-> ->]|[H1 [[= -> ->]|H2]]]; auto.
Qed.

Lemma remove_sub d k l : forall e, In e (remove keq d k l) -> In e l.
Proof.
  induction l as [|[x y] l IH]; cbn; auto. destruct (same keq d k x); cbn; intuition.
Qed.

Lemma remove_nodup d k l : NoDup (map fst l) -> NoDup (map fst (remove keq d k l)).
Proof.
  induction l as [|[x y] l IH]; cbn; auto. intros N. inversion N as [|? ? N1 N2]; subst.
  destruct (same keq d k x); auto. cbn. constructor; auto.
  intros H. apply N1. apply in_map_iff in H as [[a b] [<- H]].
  apply remove_sub in H. cbn. change a with (fst (a, b)). now apply in_map.
Qed.

Lemma remove_in d k l : d k = false -> NoDup (map fst l) -> forall e w,
  In (e, w) (remove keq d k l) <-> e <> k /\ In (e, w) l.
Proof.
  intros D. induction l as [|[x y] l IH]; cbn; intros N e w.
  - tauto.
  - inversion N as [|? ? N1 N2]; subst. destruct (same keq d k x) eqn:E; cbn.
    + apply same_spec in E as [_ <-]. split.
      * intros H. split; auto. intros ->. apply N1.
        change k with (fst (k, w)). now apply in_map.
      * intros [H [[= -> ->]|H1]]; auto. congruence.
    + rewrite (IH N2). assert (x <> k).
      { intros ->. assert (same keq d k k = true) by (apply same_spec; auto). congruence. }
      split.
      * intros [[= -> ->]|[H1 H2]]; auto.
      * intros [H1 [[= -> ->]|H2]]; auto.
Qed.

Lemma good_assign d l m k v : good d l m -> d k = false ->
  good d (assign keq d k v l) (put m k (Some v)).
Proof.
  intros [N G] D. split; [now apply assign_nodup|].
  intros e w De. rewrite assign_in by auto. unfold put. destruct (Nat.eqb_spec e k).
  - subst. split; [intros [[_ ->]|[H _]]; congruence|intros [= ->]; auto].
  - rewrite <- G by auto. split; [intros [[? _]|[_ H]]; tauto|auto].
Qed.

Lemma good_remove d l m k : good d l m -> d k = false ->
  good d (remove keq d k l) (put m k None).
Proof.
  intros [N G] D. split; [now apply remove_nodup|].
  intros e w De. rewrite remove_in by auto. unfold put. destruct (Nat.eqb_spec e k).
  - subst. split; [tauto|discriminate].
  - rewrite <- G by auto. tauto.
Qed.

Lemma good_ext d l m m' : (forall k, m k = m' k) -> good d l m -> good d l m'.
Proof. intros E [N G]. split; auto. intros k v D. rewrite <- E. auto. Qed.

Lemma remove_absent d k l : find keq d k l = None -> remove keq d k l = l.
Proof.
  induction l as [|[x y] l IH]; cbn; auto. destruct (same keq d k x); [discriminate|].
  intros H. now rewrite IH.
Qed.

Lemma good_update d ul : forall l m, good d l m ->
  (forall k v, In (KObj k, v) ul -> d k = false) ->
  good d (fst (update keq d ul l)) (put_all m ul) /\
  snd (update keq d ul l) =
    if existsb (fun e => match fst e with KPlain => true | _ => false end) ul
    then Exc TypeError else Base.Ok RNone.
Proof.
  induction ul as [|[[k|] v] ul IH]; cbn; intros l m G D; auto.
  apply IH.
  - apply good_assign; auto. apply (D k v). auto.
  - intros k' v' H. apply (D k' v'). auto.
Qed.

Lemma popitem_some d l l' k v : popitem d l = (l', Some (k, v)) ->
  d k = false /\ exists p, l = p ++ (k, v) :: l' /\ forall e, In e p -> d (fst e) = true.
Proof.
  induction l as [|[e w] l IH]; cbn; [discriminate|].
  destruct (d e) eqn:D.
  - intros H. apply IH in H as [H1 [p [-> H2]]]. split; auto.
    exists ((e, w) :: p). split; auto. intros x [<-|H]; auto.
  - intros [= -> -> ->]. split; auto. exists []. split; [reflexivity|intros x []].
Qed.
Lemma popitem_none d l l' : popitem d l = (l', None) ->
  l' = [] /\ forall e, In e l -> d (fst e) = true.
Proof.
  induction l as [|[e w] l IH]; cbn.
  - intros [= <-]. split; [reflexivity|intros e []].
  - destruct (d e) eqn:D; [|discriminate]. intros H. apply IH in H as [-> H].
    split; auto. intros x [<-|Hx]; auto.
Qed.

Lemma nodup_rev_map (l : list (nat * nat)) : NoDup (map fst l) <-> NoDup (map fst (rev l)).
Proof.
  rewrite map_rev. split; intros H; [now apply NoDup_rev|].
  rewrite <- rev_involutive. now apply NoDup_rev.
Qed.

Lemma good_popitem d l m l' r : good d l m -> popitem d (rev l) = (l', r) ->
  match r with
  | Some (k, v) => d k = false /\ m k = Some v /\ good d (rev l') (put m k None)
  | None => l' = [] /\ forall k, d k = false -> m k = None
  end.
Proof.
  intros [N G] P. destruct r as [[k v]|].
  - apply popitem_some in P as [D [p [E H]]]. split; auto.
    assert (I : forall x, In x l <-> In x p \/ x = (k, v) \/ In x l').
    { intros x. rewrite in_rev, E, in_app_iff. cbn. intuition. }
    split; [apply G; auto; apply I; auto|].
    apply nodup_rev_map in N. rewrite E, map_app in N. cbn in N.
    apply NoDup_remove in N as [N1 N2].
    split.
    + apply (proj1 (nodup_rev_map l')). clear -N1. induction (map fst p); cbn in *; auto.
      apply IHl. now inversion N1.
    + intros e w De. rewrite <- in_rev. unfold put. destruct (Nat.eqb_spec e k).
      * subst. split; [|discriminate]. intros Hx. exfalso. apply N2, in_or_app. right.
        change k with (fst (k, w)). now apply in_map.
      * rewrite <- G by auto. rewrite I. split; auto.
        intros [Hx|[[= -> ->]|Hx]]; auto; [|congruence].
        apply H in Hx. cbn in Hx. congruence.
  - apply popitem_none in P as [-> H]. split; auto. intros k D.
    destruct (m k) as [v|] eqn:E; auto. apply G in E; auto.
    apply in_rev in E. apply H in E. cbn in E. congruence.
Qed.

Lemma is_dead_spec d os o : is_dead d os o = true <-> In o os \/ d o = true.
Proof.
  unfold is_dead. rewrite orb_true_iff, existsb_exists. split.
  - intros [[x [H E]]|H]; auto. apply Nat.eqb_eq in E. subst. auto.
  - intros [H|H]; auto. left. exists o. split; auto. apply Nat.eqb_refl.
Qed.

Lemma nodup_filter {A} f (g : A -> nat) (l : list A) : NoDup (map g l) -> NoDup (map g (filter f l)).
Proof.
  induction l as [|a l IH]; cbn; auto. intros N. inversion N as [|? ? N1 N2]; subst.
  destruct (f a); cbn; auto. constructor; auto. intros H. apply N1.
  apply in_map_iff in H as [b [<- H]]. apply filter_In in H. apply in_map. tauto.
Qed.

Record inv (h : list (op * res out)) (s : st) : Prop := {
  i_good : good (dead s) (data s) (given h);
  i_gone : forall o, dead s o = true <-> gone h o;
  i_roots : forall o, In o (roots s) -> dead s o = false;
  i_vals : forall k v, In (k, v) (data s) -> dead s v = false;
  i_pend : forall k v, In (k, v) (data s) -> dead s k = true -> In k (pend s);
  i_pend_dead : forall k, In k (pend s) -> dead s k = true }.

Lemma given_snoc h a : given (h ++ [a]) = effect (given h) a.
Proof. unfold given. now rewrite fold_left_app. Qed.

Lemma gone_snoc h a r o : gone (h ++ [(a, r)]) o <->
  gone h o \/ match a with Die os => In o os | _ => False end.
Proof.
  unfold gone. split.
  - intros [os [r' [H1 H2]]]. apply in_app_iff in H1 as [H1|[H1|[]]].
    + left. eauto.
    + right. inversion H1; subst. auto.
  - intros [[os [r' [H1 H2]]]|H].
    + exists os, r'. rewrite in_app_iff. auto.
    + destruct a; try tauto. exists os, r. rewrite in_app_iff. cbn. auto.
Qed.

Lemma update_vals d ul : forall l (P : nat -> Prop),
  (forall k v, In (k, v) l -> P v) -> (forall k v, In (k, v) ul -> P v) ->
  forall k v, In (k, v) (fst (update keq d ul l)) -> P v.
Proof.
  induction ul as [|[[x|] y] ul IH]; cbn; intros l P H1 H2 k v H; eauto.
  eapply IH in H; eauto. clear H.
  intros k' v' H. clear IH.
  induction l as [|[e w] l IHl]; cbn in H.
  - destruct H as [[= <- <-]|[]]. apply (H2 (KObj x) y). auto.
  - destruct (same keq d x e).
    + destruct H as [[= <- <-]|H]; [apply (H2 (KObj x) y)|eapply H1; right]; eauto.
    + destruct H as [[= <- <-]|H]; [eapply H1; left; eauto|apply IHl; auto].
      intros; eapply H1; right; eauto.
Qed.

Lemma update_keys d ul : forall l k v, In (k, v) (fst (update keq d ul l)) -> d k = true ->
  (forall k v, In (KObj k, v) ul -> d k = false) -> exists w, In (k, w) l.
Proof.
  induction ul as [|[[x|] y] ul IH]; cbn; intros l k v H D U; eauto.
  eapply IH in H as [w H]; auto; [|intros; eapply U; eauto].
  assert (In k (map fst (assign keq d x y l))) as H'.
  { change k with (fst (k, w)). now apply in_map. }
  apply assign_keys in H' as [->|H'].
  - rewrite (U x y) in D; auto. discriminate.
  - apply in_map_iff in H' as [[a b] [<- H']]. eauto.
Qed.

Lemma enabled_key h s k : inv h s -> held s (KObj k) -> dead s k = false.
Proof. intros I H. apply (i_roots h s I). exact H. Qed.

(** replacing only the dictionary (and the flag) *)
Lemma inv_data h s a r (s' : st) : inv h s ->
  dead s' = dead s -> pend s' = pend s -> roots s' = roots s ->
  match a with Die _ => False | _ => True end ->
  good (dead s) (data s') (given (h ++ [(a, r)])) ->
  (forall k v, In (k, v) (data s') -> dead s v = false) ->
  (forall k v, In (k, v) (data s') -> dead s k = true -> exists w, In (k, w) (data s)) ->
  inv (h ++ [(a, r)]) s'.
Proof.
  intros I Ed Ep Er A G V P. constructor; rewrite ?Ed, ?Ep, ?Er; auto.
  - intros o. rewrite gone_snoc, <- (i_gone _ _ I). destruct a; tauto.
  - apply (i_roots _ _ I).
  - intros k v H D. destruct (P k v H D) as [w Hw]. eapply i_pend; eauto.
  - apply (i_pend_dead _ _ I).
Qed.

Lemma inv_same h s a r (s' : st) : inv h s ->
  dead s' = dead s -> pend s' = pend s -> roots s' = roots s -> data s' = data s ->
  match a with Die _ => False | _ => True end ->
  (forall k, effect (given h) (a, r) k = given h k) ->
  inv (h ++ [(a, r)]) s'.
Proof.
  intros I Ed Ep Er El A E. apply inv_data with s; auto; rewrite ?El.
  - rewrite given_snoc. eapply good_ext; [|apply (i_good _ _ I)]. intros; symmetry; apply E.
  - apply (i_vals _ _ I).
  - eauto.
Qed.

Lemma assign_vals d k v l : forall e w, In (e, w) (assign keq d k v l) -> w = v \/ exists e', In (e', w) l.
Proof.
  induction l as [|[x y] l IH]; cbn; intros e w.
  - intros [[= -> ->]|[]]; auto.
  - destruct (same keq d k x); cbn; intros [[= -> ->]|H]; eauto.
    apply IH in H as [?|[e' H]]; eauto.
Qed.

Lemma inv_step h s a : inv h s -> enabled holds s a ->
  inv (h ++ [(a, snd (exec keq s a))]) (fst (exec keq s a)).
Proof.
  intros I En. pose proof (i_good _ _ I) as G. destruct G as [N G0]. pose proof (conj N G0) as G.
  assert (Hput : forall k v, dead s k = false -> In v (roots s) ->
     good (dead s) (assign keq (dead s) k v (data s)) (put (given h) k (Some v)) /\
     (forall e w, In (e, w) (assign keq (dead s) k v (data s)) -> dead s w = false) /\
     (forall e w, In (e, w) (assign keq (dead s) k v (data s)) -> dead s e = true ->
        exists w, In (e, w) (data s))).
  { intros k v D Hv. split; [now apply good_assign|]. split.
    - intros e w H. apply assign_vals in H as [->|[e' H]]; [now apply (i_roots _ _ I)|].
      eapply i_vals; eauto.
    - intros e w H De. apply assign_in in H as [[-> _]|[_ H]]; eauto. congruence. }
  assert (Hrem : forall k, dead s k = false ->
     good (dead s) (remove keq (dead s) k (data s)) (put (given h) k None) /\
     (forall e w, In (e, w) (remove keq (dead s) k (data s)) -> dead s w = false) /\
     (forall e w, In (e, w) (remove keq (dead s) k (data s)) -> dead s e = true ->
        exists w, In (e, w) (data s))).
  { intros k D. split; [now apply good_remove|]. split.
    - intros e w H. apply remove_sub in H. eapply i_vals; eauto.
    - intros e w H De. apply remove_sub in H. eauto. }
  destruct a as [o|o|os|o|[k|] v|[k|]|[k|]|[k|]|[k|]|[k|]|[k|] v| |ul| | | | | | | | | | |];
    cbn [exec fst snd]; cbn in En;
    try solve [apply inv_same with s; auto].
  - (* Hold *)
    constructor; cbn.
    + rewrite given_snoc. exact G.
    + intros x. rewrite gone_snoc, <- (i_gone _ _ I). tauto.
    + intros x [<-|H]; auto. now apply (i_roots _ _ I).
    + apply (i_vals _ _ I).
    + apply (i_pend _ _ I).
    + apply (i_pend_dead _ _ I).
  - (* Drop *)
    constructor; cbn.
    + rewrite given_snoc. exact G.
    + intros x. rewrite gone_snoc, <- (i_gone _ _ I). tauto.
    + intros x H. apply in_remove in H as [H _]. now apply (i_roots _ _ I).
    + apply (i_vals _ _ I).
    + apply (i_pend _ _ I).
    + apply (i_pend_dead _ _ I).
  - (* Die *)
    destruct En as [_ En].
    assert (K : forall x, In x (strong s) -> dead s x = false -> is_dead (dead s) os x = false).
    { intros x Hx Dx. destruct (is_dead (dead s) os x) eqn:E; auto.
      apply is_dead_spec in E as [E|E]; [|congruence].
      exfalso. apply (proj2 (En x E)). now constructor. }
    constructor; cbn.
    + rewrite given_snoc. cbn. split; auto. intros k v D. apply G0.
      destruct (dead s k) eqn:E; auto.
      assert (is_dead (dead s) os k = true) by (apply is_dead_spec; auto). congruence.
    + intros x. rewrite gone_snoc, <- (i_gone _ _ I), is_dead_spec. tauto.
    + intros x H. apply K; [apply in_or_app; auto|now apply (i_roots _ _ I)].
    + intros k v H. apply K; [|eapply i_vals; eauto].
      apply in_or_app. right. change v with (snd (k, v)). now apply in_map.
    + intros k v H D. apply is_dead_spec in D as [D|D]; apply in_or_app; auto.
      right. eapply i_pend; eauto.
    + intros k H. apply is_dead_spec. apply in_app_or in H as [H|H]; auto.
      right. now apply (i_pend_dead _ _ I).
  - (* Callback *)
    assert (D0 : dead s o = true) by now apply (i_pend_dead _ _ I).
    assert (F : forall k v, In (k, v) (callback o (data s)) <-> k <> o /\ In (k, v) (data s)).
    { intros k v. unfold callback. rewrite filter_In, negb_true_iff, Nat.eqb_neq. cbn. tauto. }
    constructor; cbn.
    + rewrite given_snoc. cbn. split; [now apply nodup_filter|].
      intros k v D. rewrite F, <- G0 by auto. split; [tauto|]. split; auto. congruence.
    + intros x. rewrite gone_snoc, <- (i_gone _ _ I). tauto.
    + apply (i_roots _ _ I).
    + intros k v H. apply F in H as [_ H]. exact (i_vals _ _ I k v H).
    + intros k v H D. apply F in H as [H1 H2]. apply in_in_remove; auto. eapply i_pend; eauto.
    + intros k H. apply in_remove in H as [H _]. now apply (i_pend_dead _ _ I).
  - (* Set *)
    destruct En as [E1 E2]. pose proof (enabled_key _ _ _ I E1) as D.
    destruct (Hput k v D E2) as [A1 [A2 A3]].
    apply inv_data with s; auto. rewrite given_snoc. exact A1.
  - (* Del *)
    pose proof (enabled_key _ _ _ I En) as D. destruct (Hrem k D) as [A1 [A2 A3]].
    destruct (find keq (dead s) k (data s)) eqn:F.
    + apply inv_data with s; auto. rewrite given_snoc. exact A1.
    + cbn. apply inv_data with s; eauto using i_vals. rewrite given_snoc. cbn.
      rewrite remove_absent in A1; auto.
  - (* Pop *)
    pose proof (enabled_key _ _ _ I En) as D. destruct (Hrem k D) as [A1 [A2 A3]].
    apply inv_data with s; auto. rewrite given_snoc. exact A1.
  - (* SetDefault *)
    destruct En as [E1 E2]. pose proof (enabled_key _ _ _ I E1) as D.
    destruct (Hput k v D E2) as [A1 [A2 A3]].
    destruct (find keq (dead s) k (data s)) eqn:F; rewrite (find_good _ _ _ _ G D) in F; cbn.
    + apply inv_same with s; auto. cbn. rewrite F. auto.
    + apply inv_data with s; auto. rewrite given_snoc. cbn. rewrite F. exact A1.
  - (* PopItem *)
    destruct (popitem (dead s) (rev (data s))) as [l r] eqn:P. cbn.
    pose proof (good_popitem _ _ _ _ _ G P) as Q.
    assert (S : forall x, In x (rev l) -> In x (data s)).
    { intros x H. apply in_rev in H. apply in_rev. destruct r as [[k v]|].
      - apply popitem_some in P as [_ [p [-> _]]]. apply in_or_app. cbn. auto.
      - destruct Q as [-> _]. destruct H. }
    destruct r as [[k v]|]; cbn.
    + destruct Q as [D [M Q]]. apply inv_data with s; auto.
      * rewrite given_snoc. exact Q.
      * intros x y H. apply S in H. eapply i_vals; eauto.
      * intros x y H _. apply S in H. eauto.
    + destruct Q as [-> Q]. apply inv_data with s; cbn; auto; try tauto.
      rewrite given_snoc. cbn. split; [constructor|]. intros k v D. rewrite Q by auto.
      split; [intros []|discriminate].
  - (* Update *)
    assert (U : forall k v, In (KObj k, v) ul -> dead s k = false).
    { intros k v H. apply En in H as [H _]. eapply enabled_key; eauto. }
    destruct (good_update (dead s) ul (data s) (given h) G U) as [A1 A2].
    destruct (update keq (dead s) ul (data s)) as [t r] eqn:E. cbn in *.
    apply inv_data with s; cbn; auto.
    + rewrite given_snoc. exact A1.
    + intros k v H. replace t with (fst (update keq (dead s) ul (data s))) in H by now rewrite E.
      apply (update_vals (dead s) ul (data s) (fun v => dead s v = false)) in H; auto.
      * apply (i_vals _ _ I).
      * intros k' v' H'. apply En in H' as [_ H']. now apply (i_roots _ _ I).
    + intros k v H D. replace t with (fst (update keq (dead s) ul (data s))) in H by now rewrite E.
      eapply update_keys; eauto.
  - (* Clear *)
    apply inv_data with s; cbn; auto; try tauto. rewrite given_snoc. cbn. split; [constructor|].
    intros k v _. split; [intros []|discriminate].
Qed.

Lemma inv_run h s : run keq holds h s -> inv h s.
Proof.
  induction 1.
  - constructor; cbn; try tauto.
    + split; [constructor|]. intros k v _. cbn. split; [tauto|discriminate].
    + intros o. split; [discriminate|]. intros [os [r [[] _]]].
  - now apply inv_step.
Qed.

Lemma answers h s a : run keq holds h s -> enabled holds s a ->
  answer (given h) (gone h) a (snd (exec keq s a)).
Proof.
  intros R En. apply inv_run in R as I. pose proof (i_good _ _ I) as G.
  assert (F : forall k, held s (KObj k) -> find keq (dead s) k (data s) = given h k).
  { intros k H. apply find_good; auto. eapply enabled_key; eauto. }
  destruct a as [o|o|os|o|[k|] v|[k|]|[k|]|[k|]|[k|]|[k|]|[k|] v| |ul| | | | | | | | | | |];
    cbn [exec answer snd]; cbn [enabled] in En; try exact Logic.I; try reflexivity.
  - now rewrite (F k En).
  - now rewrite (F k En).
  - now rewrite (F k En).
  - rewrite (F k En). now destruct (given h k).
  - now rewrite (F k En).
  - destruct En as [En _]. rewrite (F k En). now destruct (given h k).
  - destruct (popitem (dead s) (rev (data s))) as [l r] eqn:P. cbn.
    pose proof (good_popitem _ _ _ _ _ G P) as Q. destruct r as [[k v]|].
    + left. exists k, v. destruct Q as [D [M _]]. repeat split; auto.
      rewrite <- (i_gone _ _ I). congruence.
    + right. split; auto. intros k H. apply Q. rewrite <- (i_gone _ _ I) in H.
      now destruct (dead s k).
  - assert (U : forall k v, In (KObj k, v) ul -> dead s k = false).
    { intros k v H. apply En in H as [H _]. eapply enabled_key; eauto. }
    destruct (good_update (dead s) ul (data s) (given h) G U) as [A1 A2].
    destruct (update keq (dead s) ul (data s)). exact A2.
Qed.
End T.

Lemma no_attrs keq holds h s : run keq holds h s ->
  has s PendingRemovals = false /\ has s Iterating = false.
Proof.
  induction 1 as [|h s a R [P I] En]; [auto|]. unfold has in *.
  destruct a as [o|o|os|o|[k|] v|[k|]|[k|]|[k|]|[k|]|[k|]|[k|] v| |ul| | | | | | | | | | |];
    cbn [exec fst attrs with_data with_dirty existsb attr_eqb orb]; auto.
  - destruct (find keq (dead s) k (data s)); auto.
  - destruct (find keq (dead s) k (data s)); auto.
  - destruct (popitem (dead s) (rev (data s))); auto.
  - destruct (update keq (dead s) ul (data s)); auto.
Qed.

Lemma reach_one holds l o : reach holds l o -> exists x, In x l /\ reach holds [x] o.
Proof.
  induction 1 as [o H|o o' _ [x [H1 H2]] H3].
  - exists o. split; auto. constructor. cbn. auto.
  - exists x. split; auto. econstructor 2; eauto.
Qed.
Lemma reach_sub holds l l' o : (forall x, In x l -> In x l') -> reach holds l o -> reach holds l' o.
Proof.
  intros S. induction 1; [constructor; auto|econstructor 2; eauto].
Qed.
Lemma reach_flat l o : reach (fun _ => []) l o -> In o l.
Proof. induction 1 as [|? ? ? ? []]; auto. Qed.
