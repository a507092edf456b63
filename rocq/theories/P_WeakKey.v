(** * C101: tables with weak keys *)
From Coq Require Import List Arith Bool Lia.
From Verif Require Import Base WeakKey_Model WeakKey_Spec WeakKey_Proofs.
Import ListNotations.

(** Over every history of calls and collections, on objects compared by
    identity, each call answers as an ordinary dictionary restricted to the
    objects still alive would; [given h] is what each object was last given. *)
Theorem C101_answers_like_a_dictionary : forall keq holds h s a,
  (forall x y, keq x = keq y -> x = y) ->
  run keq holds h s -> enabled holds s a ->
  answer (given h) (gone h) a (snd (exec keq s a)).
Proof. intros. eapply answers; eauto. Qed.

(** Once the callbacks have run, the keys listed are exactly the live objects
    that were given something, each once. *)
Theorem C101_lists_the_live_keys : forall keq holds h s,
  (forall x y, keq x = keq y -> x = y) ->
  run keq holds h s -> settled s ->
  exists ks, snd (exec keq s KeyRefs) = Base.Ok (RRefs ks) /\ NoDup ks /\
    forall k, In k ks <-> ~ gone h k /\ given h k <> None.
Proof.
  intros keq holds h s J R S. pose proof (inv_run keq holds J h s R) as I.
  exists (map fst (data s)). split; auto. destruct (i_good _ _ I) as [N G]. split; auto.
  intros k. rewrite in_map_iff. rewrite <- (i_gone _ _ I). split.
  - intros [[k' v] [<- H]]. cbn. destruct (dead s k') eqn:D.
    + pose proof (i_pend _ _ I _ _ H D) as H'. red in S. rewrite S in H'. destruct H'.
    + split; [discriminate|]. apply G in H; auto. congruence.
  - intros [D H]. destruct (given h k) as [v|] eqn:E; [|congruence].
    exists (k, v). split; auto. apply G; auto. now destruct (dead s k).
Qed.

(** No call returns an object that is gone. *)
Theorem C101_returns_live_objects : forall keq holds h s a,
  (forall x y, keq x = keq y -> x = y) ->
  run keq holds h s -> enabled holds s a ->
  (forall v, snd (exec keq s a) = Base.Ok (RVal v) -> ~ gone h v) /\
  (forall k v, snd (exec keq s a) = Base.Ok (RItem k v) -> ~ gone h k /\ ~ gone h v).
Proof.
  intros keq holds h s a J R En. pose proof (inv_run keq holds J h s R) as I.
  pose proof (i_good _ _ I) as G.
  pose proof (answers keq holds J h s a R En) as A.
  assert (L : forall k v, dead s k = false -> given h k = Some v -> ~ gone h v).
  { intros k v D E. apply (proj2 G) in E; auto. rewrite <- (i_gone _ _ I).
    rewrite (i_vals _ _ I _ _ E). discriminate. }
  assert (L' : forall k v, ~ gone h k -> given h k = Some v -> ~ gone h v).
  { intros k v D. apply L. rewrite <- (i_gone _ _ I) in D. now destruct (dead s k). }
  assert (K : forall k, held s (KObj k) -> dead s k = false).
  { intros k H. now apply (i_roots _ _ I). }
  split.
  - intros v E.
    destruct a as [o|o|os|o|[k|] w|[k|]|[k|]|[k|]|[k|]|[k|]|[k|] w| |ul| | | | | | | | | | |];
      cbn [answer] in A; cbn [enabled] in En; cbn [exec snd] in E; try discriminate E;
      try (unfold len in E; destruct (_ && _); discriminate E);
      try (unfold guarded in E; destruct (has _ _); discriminate E);
      cbn [exec snd] in A; rewrite E in A.
    + destruct (given h k) eqn:M; [injection A as ->|discriminate]. eauto.
    + destruct (given h k) eqn:M; [injection A as ->|discriminate]. eauto.
    + destruct (given h k); discriminate.
    + destruct (given h k) eqn:M; [injection A as ->|discriminate]. eauto.
    + injection A as ->. destruct En as [E1 E2]. destruct (given h k) eqn:M; [eauto|].
      rewrite <- (i_gone _ _ I), (i_roots _ _ I); auto; discriminate.
    + destruct A as [(k1&v1&E'&_)|(E'&_)]; discriminate.
    + destruct (existsb _ ul); discriminate.
  - intros k v E.
    destruct a as [o|o|os|o|[k'|] w|[k'|]|[k'|]|[k'|]|[k'|]|[k'|]|[k'|] w| |ul| | | | | | | | | | |];
      cbn [answer] in A; cbn [exec snd] in E; try discriminate E;
      try (unfold len in E; destruct (_ && _); discriminate E);
      try (unfold guarded in E; destruct (has _ _); discriminate E);
      cbn [exec snd] in A; rewrite E in A;
      try (destruct (given h k'); discriminate A).
    + destruct A as [(k1&v1&E'&A1&A2)|(E'&_)]; [|discriminate]. injection E' as -> ->. eauto.
    + destruct (existsb _ ul); discriminate.
Qed.

(** The table keeps nothing alive for a key that is gone: once the callbacks
    have run, whatever the program does not reach and the values of live keys
    do not reach can be collected. *)
Theorem C101_entries_go_with_their_keys : forall keq holds h s v,
  (forall x y, keq x = keq y -> x = y) ->
  run keq holds h s -> settled s -> ~ gone h v ->
  ~ reach holds (roots s) v ->
  (forall k w, ~ gone h k -> given h k = Some w -> ~ reach holds [w] v) ->
  enabled holds s (Die [v]).
Proof.
  intros keq holds h s v J R S Gv H1 H2. pose proof (inv_run keq holds J h s R) as I.
  destruct (i_good _ _ I) as [N G]. cbn. split; [constructor; [tauto|constructor]|].
  intros o [<-|[]]. split.
  - rewrite <- (i_gone _ _ I) in Gv. now destruct (dead s v).
  - intros Q. apply reach_one in Q as [x [Hx Q]]. apply in_app_or in Hx as [Hx|Hx].
    + apply H1. eapply reach_sub; [|exact Q]. intros y [<-|[]]. auto.
    + apply in_map_iff in Hx as [[k w] [<- Hx]]. cbn in Q.
      destruct (dead s k) eqn:D.
      * pose proof (i_pend _ _ I _ _ Hx D) as H'. red in S. rewrite S in H'. destruct H'.
      * apply (H2 k w); auto; [rewrite <- (i_gone _ _ I); congruence|]. now apply G.
Qed.

(** But the values are held strongly: a key its own value leads back to is
    never collected, whatever the program gives up. *)
Theorem C101_values_that_lead_to_their_key_refuted : forall keq holds h s k v os,
  (forall x y, keq x = keq y -> x = y) ->
  run keq holds h s -> ~ gone h k -> given h k = Some v -> reach holds [v] k ->
  In k os -> ~ enabled holds s (Die os).
Proof.
  intros keq holds h s k v os J R Gk E Q Hk [_ En].
  pose proof (inv_run keq holds J h s R) as I. destruct (i_good _ _ I) as [N G].
  apply (proj2 (En k Hk)). eapply reach_sub; [|exact Q]. intros y [<-|[]].
  apply in_or_app. right. change v with (snd (k, v)). apply in_map. apply G; auto.
  rewrite <- (i_gone _ _ I) in Gk. now destruct (dead s k).
Qed.

(** What [ismaps] relies on.  [ismaps p] is [SetDefault p m] with a mapping [m]
    just made: in a history of such calls, two calls give the same mapping
    exactly when they are for the same prototype, whatever was collected in
    between. *)
Definition ismaps_only (a : op * res out) : Prop :=
  match fst a with
  | Hold _ | Drop _ | Die _ | Callback _ | SetDefault (KObj _) _ => True
  | _ => False
  end.
Definition made (h : list (op * res out)) : list nat :=
  flat_map (fun a => match fst a with SetDefault _ m => [m] | _ => [] end) h.

Theorem C101_prototypes_have_their_own_maps : forall keq holds h s p m r q m' r',
  (forall x y, keq x = keq y -> x = y) ->
  run keq holds h s -> Forall ismaps_only h -> NoDup (made h) ->
  In (SetDefault (KObj p) m, r) h -> In (SetDefault (KObj q) m', r') h ->
  exists x x', r = Base.Ok (RVal x) /\ r' = Base.Ok (RVal x') /\ (x = x' <-> p = q).
Proof.
  intros keq holds h s p m r q m' r' J R F N H H'.
  assert (A : (forall p m r, In (SetDefault (KObj p) m, r) h ->
                 exists x, r = Base.Ok (RVal x) /\ given h p = Some x) /\
  (forall p x, given h p = Some x -> In x (made h)) /\
  (forall p q x, given h p = Some x -> given h q = Some x -> p = q)).
  { clear p m r q m' r' H H'. induction R as [|h s a R IH En].
    - repeat split; cbn; intros; try tauto; discriminate.
    - apply Forall_app in F as [F Fa]. inversion Fa as [|? ? Fa' _]; subst. clear Fa.
      unfold made in N. rewrite flat_map_app in N. fold (made h) in N.
      assert (N1 : NoDup (made h)).
      { clear -N. induction (made h); [constructor|]. cbn in N. inversion N; subst.
        constructor; auto. intros H. apply H1, in_or_app. auto. }
      destruct (IH F N1) as [I1 [I2 I3]]. clear IH.
      pose proof (answers keq holds J h s a R En) as A.
      set (o := snd (exec keq s a)) in *. clearbody o.
      unfold made. rewrite flat_map_app. fold (made h). rewrite given_snoc.
      destruct a as [y|y|os|y|[k|] v|[k|]|[k|]|[k|]|[k|]|[k|]|[k|] v| |ul| | | | | | | | | | |];
        cbn in Fa'; try tauto; cbn [effect flat_map fst app];
        try (split; [intros p m r H; apply in_app_or in H as [H|[H|[]]]; [eauto|discriminate]|];
             split; [intros p x H; apply in_or_app; eauto|eauto]).
      cbn [answer] in A. destruct (given h k) as [w|] eqn:M.
      + split; [|split].
        * intros p m r H. apply in_app_or in H as [H|[H|[]]]; [eauto|].
          inversion H; subst. eauto.
        * intros p x H. apply in_or_app; eauto.
        * eauto.
      + assert (V : ~ In v (made h)).
        { intros V. cbn in N. apply NoDup_remove in N as [_ N]. now rewrite app_nil_r in N. }
        split; [|split].
        * intros p m r H. apply in_app_or in H as [H|[H|[]]].
          -- destruct (I1 _ _ _ H) as [x [-> E]]. exists x. split; auto. unfold put.
             destruct (Nat.eqb_spec p k); congruence.
          -- inversion H; subst. exists m. split; auto. unfold put. now rewrite Nat.eqb_refl.
        * intros p x H. apply in_or_app. unfold put in H. destruct (Nat.eqb_spec p k); eauto.
          injection H as ->. right. cbn. auto.
        * intros p q x Hp Hq. unfold put in Hp, Hq.
          destruct (Nat.eqb_spec p k), (Nat.eqb_spec q k); subst; eauto.
          -- injection Hp as ->. exfalso. eauto.
          -- injection Hq as ->. exfalso. eauto. }
  destruct A as [A1 [A2 A3]].
  destruct (A1 _ _ _ H) as [x [-> E]]. destruct (A1 _ _ _ H') as [x' [-> E']].
  exists x, x'. repeat split; auto.
  - intros <-. eauto.
  - intros <-. congruence.
Qed.

(** Counting, testing or iterating a table, copying it, comparing it, or
    filling a table from another raises AttributeError in every state. *)
Theorem C101_counting_refuted : forall keq holds h s a,
  run keq holds h s -> counts a = true ->
  exec keq s a = (s, Exc AttributeError).
Proof.
  intros keq holds h s a R C. destruct (no_attrs _ _ _ _ R) as [P I].
  destruct a; try discriminate C; cbn [exec]; unfold len, guarded; rewrite ?P, ?I, ?andb_false_r;
    reflexivity.
Qed.

(** A history used below: objects 1 and 2 are given 3 and 4, then 1 is given
    up, dies and its callback runs. *)
Definition story (keq : nat -> nat) : list (op * res out) :=
  map (fun a => (a, Base.Ok RNone))
    [Hold 1; Hold 2; Hold 3; Hold 4; Set_ (KObj 1) 3; Set_ (KObj 2) 4;
     Drop 1; Die [1]; Callback 1].

Ltac go R a :=
  match type of R with run ?q ?hl ?h ?s =>
    let R' := fresh in
    assert (R' : enabled hl s a);
    [ cbn; try tauto
    | pose proof (run_snoc q hl h s a R R') as R''; clear R R'; cbn in R'';
      rename R'' into R ]
  end.

Lemma story_runs keq : exists s, run keq (fun _ => []) (story keq) s /\ settled s /\
  In 2 (roots s) /\
  find keq (dead s) 2 (data s) = if keq 2 =? keq 1 then None else Some 4.
Proof.
  pose proof (run_nil keq (fun _ => [])) as R.
  go R (Hold 1). go R (Hold 2). go R (Hold 3). go R (Hold 4).
  go R (Set_ (KObj 1) 3). go R (Set_ (KObj 2) 4). go R (Drop 1).
  go R (Die [1]).
  { split; [constructor; [tauto|constructor]|]. intros o [<-|[]]. split; auto.
    intros Q. apply reach_flat in Q. unfold strong, same in Q. cbn in Q.
    destruct (keq 2 =? keq 1); cbn in Q; intuition discriminate. }
  go R (Callback 1).
  eexists. split; [exact R|]. cbn. split; [reflexivity|]. split; [auto|].
  unfold same. cbn. destruct (keq 2 =? keq 1); cbn; auto.
  unfold same. cbn. now rewrite Nat.eqb_refl.
Qed.

(** The hypotheses are met: with identity comparison the table then holds 2's
    entry and not 1's, whose value can be collected. *)
Example C101_case : exists s, run (fun x => x) (fun _ => []) (story (fun x => x)) s /\
  settled s /\ gone (story (fun x => x)) 1 /\ given (story (fun x => x)) 1 = Some 3 /\
  snd (exec (fun x => x) s (Get (KObj 2))) = Base.Ok (RVal 4) /\
  enabled (fun _ => []) s (Get (KObj 2)) /\
  snd (exec (fun x => x) s KeyRefs) = Base.Ok (RRefs [2]).
Proof.
  destruct (story_runs (fun x => x)) as [s [R [S [H2 F]]]]. exists s.
  split; [exact R|]. split; auto. split; [exists [1], (Base.Ok RNone); cbn; tauto|].
  split; auto. cbn in F. split; [cbn; now rewrite F|]. split; auto.
  destruct (C101_lists_the_live_keys _ _ _ _ (fun x y E => E) R S) as [ks [E [N K]]].
  rewrite E. f_equal. f_equal.
  assert (Q : forall k, In k ks <-> k = 2).
  { intros k. rewrite K. split.
    - intros [G1 G2]. cbn in G2. unfold put in G2. destruct (Nat.eqb_spec k 2); auto.
      destruct (Nat.eqb_spec k 1); [|congruence]. subst. exfalso. apply G1.
      exists [1], (Base.Ok RNone). cbn. tauto.
    - intros ->. split; [|discriminate]. intros [os [r [G1 G2]]]. cbn in G1.
      repeat (destruct G1 as [G1|G1]; [try discriminate G1|]); try tauto.
      injection G1 as <- _. destruct G2 as [|[]]. discriminate. }
  destruct ks as [|a [|b ks]].
  - exfalso. now apply (proj2 (Q 2)).
  - f_equal. apply Q. cbn. auto.
  - exfalso. inversion N as [|? ? Na _]; subst. apply Na.
    rewrite (proj1 (Q a)), (proj1 (Q b)); cbn; auto.
Qed.

(** Objects that compare equal share an entry, and it belongs to the first:
    2, equal to 1, was given 4 and is alive and held, but has nothing once 1 is
    gone. *)
Theorem C101_equal_keys_refuted : exists keq holds h s,
  run keq holds h s /\ settled s /\ given h 2 = Some 4 /\ ~ gone h 2 /\
  enabled holds s (Get (KObj 2)) /\ snd (exec keq s (Get (KObj 2))) = Base.Ok RNone.
Proof.
  destruct (story_runs (fun _ => 0)) as [s [R [S [H2 F]]]].
  exists (fun _ => 0), (fun _ => []), (story (fun _ => 0)), s.
  split; [exact R|]. split; auto. split; auto. split.
  - intros [os [r [G1 G2]]]. cbn in G1.
    repeat (destruct G1 as [G1|G1]; [try discriminate G1|]); try tauto.
    injection G1 as <- _. destruct G2 as [|[]]. discriminate.
  - split; auto. cbn in F |- *. now rewrite F.
Qed.

(** A value that leads back to its key: object 3 refers to object 1, which is
    given 3 and then given up. *)
Example C101_kept_case : exists h s, run (fun x => x) (fun o => if o =? 3 then [1] else []) h s /\
  roots s = [] /\ ~ gone h 1 /\ given h 1 = Some 3 /\
  reach (fun o => if o =? 3 then [1] else []) [3] 1.
Proof.
  pose proof (run_nil (fun x => x) (fun o => if o =? 3 then [1] else [])) as R.
  go R (Hold 1). go R (Hold 3). go R (Set_ (KObj 1) 3). go R (Drop 1). go R (Drop 3).
  eexists _, _. split; [exact R|]. split; auto. split.
  - intros [os [r [G1 G2]]]. cbn in G1. intuition discriminate.
  - split; auto. apply reach_step with 3; cbn; auto. constructor. cbn. auto.
Qed.

(** Two prototypes, asked for twice each *)
Example C101_maps_case : exists h s, run (fun x => x) (fun _ => []) h s /\
  Forall ismaps_only h /\ NoDup (made h) /\
  In (SetDefault (KObj 1) 11, Base.Ok (RVal 11)) h /\
  In (SetDefault (KObj 1) 13, Base.Ok (RVal 11)) h /\
  In (SetDefault (KObj 2) 12, Base.Ok (RVal 12)) h.
Proof.
  pose proof (run_nil (fun x => x) (fun _ => [])) as R.
  go R (Hold 1). go R (Hold 2). go R (Hold 11). go R (Hold 12). go R (Hold 13).
  go R (SetDefault (KObj 1) 11). go R (SetDefault (KObj 2) 12). go R (SetDefault (KObj 1) 13).
  eexists _, _. split; [exact R|]. cbn. split; [repeat constructor|].
  split; [|tauto].
  repeat constructor; cbn; intuition discriminate.
Qed.

Print Assumptions C101_answers_like_a_dictionary.
Print Assumptions C101_lists_the_live_keys.
Print Assumptions C101_returns_live_objects.
Print Assumptions C101_entries_go_with_their_keys.
Print Assumptions C101_values_that_lead_to_their_key_refuted.
Print Assumptions C101_prototypes_have_their_own_maps.
Print Assumptions C101_counting_refuted.
Print Assumptions C101_equal_keys_refuted.
