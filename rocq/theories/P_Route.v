(** C32-C36: event routing. *)
From Verif Require Import Base Route_Model Route_Spec Route_Proofs.
From Coq Require Import Relations.

Lemma edge_linked ls a b : proper ls -> (edge (connections ls) a b <-> linked ls a b).
Proof.
  intros P. unfold edge, linked, connections. rewrite in_flat_map. split.
  - intros ([x y|x y] & I & H); cbn in H.
    + destruct H as [[= <- <-]|[]]. auto.
    + pose proof (P _ _ I) as N.
      assert (D : x <> y) by (intros ->; apply N; reflexivity).
      rewrite cell_eqb_neq in H by exact D.
      assert (E : Nat.eqb (fst y) (fst x) = false) by (apply Nat.eqb_neq; congruence).
      rewrite E in H. destruct H as [[= <- <-]|[[= <- <-]|[]]]; auto.
  - intros [I|[I|I]].
    + exists (LRoute a b). split; [exact I|left; reflexivity].
    + exists (LIS a b). split; [exact I|]. cbn. destruct (cell_eqb a b); left; reflexivity.
    + exists (LIS b a). split; [exact I|]. cbn. pose proof (P _ _ I) as N.
      rewrite cell_eqb_neq by (intros ->; apply N; reflexivity).
      assert (E : Nat.eqb (fst a) (fst b) = false) by (apply Nat.eqb_neq; congruence).
      rewrite E. right. left. reflexivity.
Qed.
Lemma ct_mono {A} (R S : A -> A -> Prop) : (forall a b, R a b -> S a b) ->
  forall a b, clos_trans A R a b -> clos_trans A S a b.
Proof. intros H a b C. induction C; [apply t_step; auto|eapply t_trans; eassumption]. Qed.
Lemma plus_downstream ls a b : proper ls -> (plus (connections ls) a b <-> downstream ls a b).
Proof. intros P. split; apply ct_mono; intros; apply (edge_linked ls _ _ P); assumption. Qed.
Lemma pathval_carried {V} ls (coerce : cell -> V -> res V) a v c w : proper ls ->
  (pathval coerce (connections ls) a v c w <-> carried ls coerce a v c w).
Proof.
  intros P. split; intros H; induction H; try (constructor; fail).
  - eapply carried_on; [eassumption|apply edge_linked; eassumption|assumption].
  - eapply pv_step; [eassumption|apply edge_linked; eassumption|assumption].
Qed.
Lemma user_set_step {V} kind_of (coerce : cell -> V -> res V) deflt none ls fuel s c v s' vis' :
  user_set kind_of coerce deflt none (connections ls) fuel s c v = Done s' vis' ->
  exists w, (kind_of c = KField -> coerce c v = Ok w) /\ (kind_of c = KEvent -> w = v) /\
    deliver kind_of coerce deflt none (connections ls) fuel (put s c w) [] c (SSet w) = Done s' vis'.
Proof.
  unfold user_set. destruct (kind_of c).
  - destruct (coerce c v) as [w|e]; [|discriminate]. intros E. exists w. split; [auto|split; [discriminate|exact E]].
  - intros E. exists v. split; [discriminate|auto].
Qed.

Section Claims.
Context {V : Type}.
Variable kind_of : cell -> kind.
Variable coerce : cell -> V -> res V.
Variable deflt : cell -> res V.
Variable none : V.
Notation uset ls := (user_set kind_of coerce deflt none (connections ls)).
Notation udel ls := (user_del kind_of coerce deflt none (connections ls)).

(** C32.  Between ordinary fields every cascade ends, whatever the links
    (cycles, self loops, parallel routes) and coercions: recursion never goes
    deeper than the number of connections. *)
Theorem C32_cascade_terminates : forall ls s c v fuel,
  (forall x, kind_of x = KField) -> length (connections ls) < fuel ->
  uset ls fuel s c v <> OutOfFuel /\ udel ls fuel s c <> OutOfFuel.
Proof.
  intros ls s c v fuel K L. split.
  - unfold user_set. rewrite K. destruct (coerce c v); [|discriminate].
    apply terminates_fields; auto.
  - unfold user_del. destruct (store s c); [|discriminate]. apply terminates_fields; auto.
Qed.

(** C32.  A notification starts one event per link leaving the source; within
    each event every target is set at most once (the deliveries of one event
    are repetition free), and precisely what the link reaches is set. *)
Theorem C32_once_per_event : forall ls fuel s c v s' vis',
  (forall x, kind_of x = KField) -> uset ls fuel s c v = Done s' vis' ->
  exists events, trace s' = trace s ++ concat events /\
    length events = length (targets (connections ls) c) /\
    forall ev, In ev events -> forall x, times x ev <= 1.
Proof.
  intros ls fuel s c v s' vis' K E. destruct (user_set_step _ _ _ _ _ _ _ _ _ _ _ E) as (w & _ & _ & D).
  destruct (events_of_message kind_of coerce deflt none (connections ls) fuel (put s c w) [] c (SSet w) s' vis' eq_refl (fun x _ => K x) D)
    as (segs & T & F).
  exists segs. split; [exact T|]. split; [clear -F; induction F; cbn; congruence|].
  intros ev I x. assert (N : NoDup (cells ev)).
  { clear -F I. induction F as [|d seg ds segs (N & _) F IH]; [destruct I|]. destruct I as [<-|I]; auto. }
  clear -N. unfold times. induction ev as [|[a b] ev IH]; cbn; [lia|].
  cbn in N. inversion N as [|? ? NI N']; subst. specialize (IH N').
  destruct (cell_eqb a x) eqn:Ea; cbn; [|exact IH]. apply cell_eqb_spec in Ea. subst.
  enough (Z : filter (fun p : cell * V => cell_eqb (fst p) x) ev = []) by (rewrite Z; cbn; lia).
  clear -NI. induction ev as [|[a b] ev IH]; cbn; [reflexivity|].
  rewrite cell_eqb_neq; [apply IH; intros I; apply NI; right; exact I|]. intros ->. apply NI. left. reflexivity.
Qed.

(** C33.  When every field accepts the values carried to it, setting c to v
    (coerced to w) completes; every cell downstream of c then holds w coerced
    along some chain of links from c, every other cell is unchanged, and c
    itself holds w unless it is downstream of itself. *)
Theorem C33_reaches_exactly : forall ls s c v w fuel,
  proper ls -> (forall x, kind_of x = KField) -> coerce c v = Ok w ->
  (forall a u b, carried ls coerce c w a u -> linked ls a b -> exists u', coerce b u = Ok u') ->
  length (connections ls) < fuel ->
  exists s' vis', uset ls fuel s c v = Done s' vis' /\
    (forall x, downstream ls c x -> exists u, store s' x = Some u /\ carried ls coerce c w x u) /\
    (forall x, ~ downstream ls c x -> x <> c -> store s' x = store s x) /\
    (~ downstream ls c c -> store s' c = Some w).
Proof.
  intros ls s c v w fuel P K C A L.
  pose proof (proj1 (C32_cascade_terminates ls s c v fuel K L)) as NT.
  assert (E0 : uset ls fuel s c v = deliver kind_of coerce deflt none (connections ls) fuel (put s c w) [] c (SSet w))
    by (unfold user_set; rewrite K, C; reflexivity).
  pose proof (values kind_of coerce deflt none (connections ls) c w (fun x _ => K x)) as VL.
  assert (A' : forall a u b, pathval coerce (connections ls) c w a u -> edge (connections ls) a b -> exists u', coerce b u = Ok u').
  { intros a u b Pv Ed. eapply A; [apply pathval_carried; eassumption|apply edge_linked; eassumption]. }
  specialize (VL A' fuel (put s c w) [] c (SSet w) w (rt_refl _ _ _) eq_refl (pv_src _ _ _ _)).
  rewrite E0 in *. destruct (deliver _ _ _ _ _ fuel (put s c w) [] c (SSet w)) as [s' vis'|e s'|] eqn:D;
    [|destruct VL|congruence].
  destruct VL as (t & T & _ & G3 & G4).
  destruct (deliver_reaches_exactly _ _ _ _ _ _ _ _ _ _ _ _ D eq_refl) as (t' & T' & R1 & _).
  assert (t' = t) as -> by (apply (app_inv_head (trace (put s c w))); congruence).
  exists s', vis'. split; [reflexivity|]. split; [|split].
  - intros x X. apply (plus_downstream _ _ _ P), R1, G3 in X. destruct X as (u & S & Pv).
    exists u. split; [exact S|]. apply pathval_carried; assumption.
  - intros x X N. rewrite G4; [|rewrite R1, plus_downstream; assumption].
    cbn. rewrite cell_eqb_neq by exact N. reflexivity.
  - intros X. rewrite G4; [|rewrite R1, plus_downstream; assumption]. cbn. rewrite cell_eqb_refl. reflexivity.
Qed.

(** C33.  In particular a value every downstream field stores as it is ends up in
    all of them. *)
Theorem C33_same_value_everywhere : forall ls s c v fuel,
  proper ls -> (forall x, kind_of x = KField) -> coerce c v = Ok v ->
  (forall x, downstream ls c x -> coerce x v = Ok v) ->
  length (connections ls) < fuel ->
  exists s' vis', uset ls fuel s c v = Done s' vis' /\
    forall x, (downstream ls c x \/ x = c -> store s' x = Some v) /\
              (~ downstream ls c x -> x <> c -> store s' x = store s x).
Proof.
  intros ls s c v fuel P K C A L.
  assert (CV : forall a u, carried ls coerce c v a u -> u = v /\ (a = c \/ downstream ls c a)).
  { intros a u H. induction H as [|a u b u' H [-> IH] Lk Cu]; [auto|].
    assert (Db : downstream ls c b).
    { destruct IH as [->|IH]; [apply t_step, Lk|eapply t_trans; [exact IH|apply t_step, Lk]]. }
    rewrite (A b Db) in Cu. injection Cu as <-. auto. }
  destruct (C33_reaches_exactly ls s c v v fuel P K C) as (s' & vis' & E & H1 & H2 & H3); auto.
  { intros a u b H Lk. destruct (CV a u H) as [-> O]. exists v. apply A.
    destruct O as [->|O]; [apply t_step, Lk|eapply t_trans; [exact O|apply t_step, Lk]]. }
  exists s', vis'. split; [exact E|]. intros x. split; [|apply H2].
  assert (DX : forall x, downstream ls c x -> store s' x = Some v).
  { intros y Y. destruct (H1 y Y) as (u & S & Cu). apply CV in Cu. destruct Cu as [-> _]. exact S. }
  intros [X| ->]; [apply DX, X|].
  destruct (user_set_step _ _ _ _ _ _ _ _ _ _ _ E) as (w & Cw & _ & D).
  destruct (deliver_reaches_exactly _ _ _ _ _ _ _ _ _ _ _ _ D eq_refl) as (t & _ & R & _).
  destruct (in_dec cell_dec c (cells t)) as [I|N].
  - apply DX. apply (plus_downstream _ _ _ P), R, I.
  - apply H3. intros Q. apply N, R. apply plus_downstream; assumption.
Qed.

(** C34.  With event ports in the graph: a cascade terminates exactly when no
    event port downstream of the source lies on a cycle (coercions failing only
    with ValueError/TypeError). *)
Theorem C34_terminates_iff_no_event_cycle : forall ls s c w,
  proper ls -> (forall x v e, coerce x v = Exc e -> e = ValueError \/ e = TypeError) ->
  (forall x e, deflt x <> Exc e) -> kind_of c = KField -> coerce c w = Ok w ->
  ((exists fuel, uset ls fuel s c w <> OutOfFuel) <->
   forall e, downstream ls c e -> kind_of e = KEvent -> ~ downstream ls e e).
Proof.
  intros ls s c w P B1 B2 K C.
  assert (E0 : forall fuel, uset ls fuel s c w = deliver kind_of coerce deflt none (connections ls) fuel (put s c w) [] c (SSet w))
    by (intros; unfold user_set; rewrite K, C; reflexivity).
  split.
  - intros [fuel NT] e De Ke Cy. rewrite E0 in NT. apply NT.
    eapply event_cycle_diverges; try eassumption; try reflexivity.
    + split; [|exact B2]. intros x v e' Hx. destruct (B1 _ _ _ Hx) as [->| ->]; reflexivity.
    + apply plus_downstream; assumption.
    + apply plus_downstream; assumption.
  - intros H. eexists. rewrite E0. eapply terminates; [|reflexivity|apply le_n].
    intros e Pe Ke Ce. apply (H e); [apply plus_downstream; assumption|exact Ke|apply plus_downstream; assumption].
Qed.

(** C34.  When it completes, a cascade through any mix of fields and event ports
    still touches exactly what is downstream. *)
Theorem C34_reaches_exactly : forall ls fuel s c v s' vis',
  proper ls -> uset ls fuel s c v = Done s' vis' ->
  exists t, trace s' = trace s ++ t /\
    (forall x, 1 <= times x t <-> downstream ls c x) /\
    (forall x, ~ downstream ls c x -> x <> c -> store s' x = store s x).
Proof.
  intros ls fuel s c v s' vis' P E. destruct (user_set_step _ _ _ _ _ _ _ _ _ _ _ E) as (w & _ & _ & D).
  destruct (deliver_reaches_exactly _ _ _ _ _ _ _ _ _ _ _ _ D eq_refl) as (t & T & R & S).
  exists t. split; [exact T|]. split.
  - intros x. rewrite <- (plus_downstream _ _ _ P), <- R. unfold times, cells. split.
    + intros L. destruct (filter _ t) as [|[a b] l] eqn:F; [cbn in L; lia|].
      assert (I : In (a, b) (filter (fun p => cell_eqb (fst p) x) t)) by (rewrite F; left; reflexivity).
      apply filter_In in I. destruct I as [I H]. apply cell_eqb_spec in H. cbn in H. subst.
      apply in_map_iff. exists (x, b). auto.
    + intros I. apply in_map_iff in I. destruct I as ([a b] & H & I). cbn in H. subst.
      assert (I' : In (x, b) (filter (fun p => cell_eqb (fst p) x) t))
        by (apply filter_In; split; [exact I|apply cell_eqb_refl]).
      destruct (filter _ t); [destruct I'|cbn; lia].
  - intros x X N. rewrite S; [|rewrite plus_downstream; assumption|left; exact N].
    cbn. rewrite cell_eqb_neq by exact N. reflexivity.
Qed.

(** C34 (refuted): a two-route cycle between event ports exceeds every recursion
    budget, whatever the value. *)
Theorem C34_event_cycle_refuted : forall a b s v fuel,
  kind_of a = KEvent -> kind_of b = KEvent ->
  (forall x u e, coerce x u = Exc e -> e = ValueError \/ e = TypeError) -> (forall x e, deflt x <> Exc e) ->
  uset [LRoute a b; LRoute b a] fuel s a v = OutOfFuel.
Proof.
  intros a b s v fuel Ka Kb B1 B2. unfold user_set. rewrite Ka.
  assert (Eab : edge (connections [LRoute a b; LRoute b a]) a b) by (left; reflexivity).
  assert (Eba : edge (connections [LRoute a b; LRoute b a]) b a) by (right; left; reflexivity).
  apply (event_cycle_diverges kind_of coerce deflt none _ b); try reflexivity.
  - split; [|exact B2]. intros x u e Hx. destruct (B1 _ _ _ Hx) as [->| ->]; reflexivity.
  - exact Kb.
  - eapply t_trans; apply t_step; eassumption.
  - apply t_step, Eab.
Qed.

(** C34 (refuted): a field behind an event port is handed the value and then
    None; if it accepts None the value is lost. *)
Theorem C34_value_behind_event_refuted : forall a b c s v w n fuel,
  kind_of a = KField -> kind_of b = KEvent -> kind_of c = KField ->
  a <> b -> a <> c -> b <> c ->
  coerce a v = Ok v -> coerce c v = Ok w -> coerce c none = Ok n -> 4 <= fuel ->
  exists s' vis', uset [LRoute a b; LRoute b c] fuel s a v = Done s' vis' /\
    trace s' = trace s ++ [(b, v); (c, v); (c, none)] /\ store s' c = Some n /\ store s' b = Some v.
Proof.
  intros a b c s v w n fuel Ka Kb Kc Nab Nac Nbc Ca Cv Cn L.
  destruct fuel as [|[|[|[|fuel]]]]; try lia. clear L.
  assert (Ta : targets (connections [LRoute a b; LRoute b c]) a = [b]).
  { unfold targets. cbn. rewrite cell_eqb_refl, cell_eqb_neq by congruence. reflexivity. }
  assert (Tb : targets (connections [LRoute a b; LRoute b c]) b = [c]).
  { unfold targets. cbn. rewrite cell_eqb_refl, cell_eqb_neq by congruence. reflexivity. }
  assert (Tc : targets (connections [LRoute a b; LRoute b c]) c = []).
  { unfold targets. cbn. rewrite !cell_eqb_neq by congruence. reflexivity. }
  unfold user_set. rewrite Ka, Ca.
  set (cs := connections _) in *. set (f4 := S (S (S fuel))).
  rewrite deliver_S, Ta. cbn [fold_left]. unfold fwd at 1. cbn [fetch Route_Model.fetch fresh mem existsb]. rewrite Kb.
  unfold f4 at 1. rewrite deliver_S, Tb. cbn [fold_left]. unfold fwd at 1. cbn [Route_Model.fetch fresh mem existsb].
  rewrite Kc, Cv. rewrite deliver_S, Tc. cbn [fold_left].
  unfold f4 at 1. rewrite deliver_S, Tb. cbn [fold_left]. unfold fwd at 1. cbn [Route_Model.fetch fresh mem existsb].
  rewrite (cell_eqb_neq c b) by congruence. cbn [orb].
  rewrite Kc, Cn. rewrite deliver_S, Tc. cbn [fold_left].
  eexists _, _. split; [reflexivity|]. cbn. rewrite cell_eqb_refl. split; [rewrite <- !app_assoc; reflexivity|].
  split; [reflexivity|]. rewrite (cell_eqb_neq b c) by congruence. rewrite cell_eqb_refl. reflexivity.
Qed.

(** C35.  What does hold: routing never stores an uncoerced value.  After any
    cascade (completed or aborted) each field holds what it held before, its own
    default, or something its own coercion returned. *)
Theorem C35_fields_hold_coerced_values : forall ls fuel s c v,
  match uset ls fuel s c v with
  | Done s' _ | Raised _ s' =>
      forall x, kind_of x = KField ->
      store s' x = store s x \/ (exists u w, coerce x u = Ok w /\ store s' x = Some w) \/
      (exists w, deflt x = Ok w /\ store s' x = Some w)
  | OutOfFuel => True
  end.
Proof.
  intros ls fuel s c v. unfold user_set. destruct (kind_of c) eqn:K.
  - destruct (coerce c v) as [w|e] eqn:C; [|intros x _; left; reflexivity].
    assert (L : legit kind_of coerce deflt s (put s c w)).
    { intros x _. cbn. destruct (cell_eqb x c) eqn:E; [|left; reflexivity].
      apply cell_eqb_spec in E. subst. right. left. exists v, w. auto. }
    pose proof (out_legit_trans _ _ _ _ _ _ L (deliver_legit kind_of coerce deflt none (connections ls) fuel (put s c w) [] c (SSet w))) as X.
    destruct (deliver _ _ _ _ _ _ _ _ _ _); exact X.
  - assert (L : legit kind_of coerce deflt s (put s c v)).
    { intros x Kx. cbn. destruct (cell_eqb x c) eqn:E; [|left; reflexivity].
      apply cell_eqb_spec in E. subst. congruence. }
    pose proof (out_legit_trans _ _ _ _ _ _ L (deliver_legit kind_of coerce deflt none (connections ls) fuel (put s c v) [] c (SSet v))) as X.
    destruct (deliver _ _ _ _ _ _ _ _ _ _); exact X.
Qed.

(** C35 (refuted): whenever b rejects v with a ValueError or TypeError, the field
    behind it still receives v. *)
Theorem C35_rejected_value_travels_refuted : forall a b c s v w e fuel,
  kind_of a = KField -> kind_of b = KField -> kind_of c = KField ->
  a <> b -> a <> c -> b <> c ->
  coerce a v = Ok v -> coerce b v = Exc e -> e = ValueError \/ e = TypeError -> coerce c v = Ok w -> 3 <= fuel ->
  exists s' vis', uset [LRoute a b; LRoute b c] fuel s a v = Done s' vis' /\
    store s' b = store s b /\ store s' c = Some w.
Proof.
  intros a b c s v w e fuel Ka Kb Kc Nab Nac Nbc Ca Cb Se Cc L.
  destruct fuel as [|[|[|fuel]]]; try lia. clear L.
  assert (Ta : targets (connections [LRoute a b; LRoute b c]) a = [b]).
  { unfold targets. cbn. rewrite cell_eqb_refl, cell_eqb_neq by congruence. reflexivity. }
  assert (Tb : targets (connections [LRoute a b; LRoute b c]) b = [c]).
  { unfold targets. cbn. rewrite cell_eqb_refl, cell_eqb_neq by congruence. reflexivity. }
  assert (Tc : targets (connections [LRoute a b; LRoute b c]) c = []).
  { unfold targets. cbn. rewrite !cell_eqb_neq by congruence. reflexivity. }
  assert (SW : swallowed e = true) by (destruct Se as [->| ->]; reflexivity).
  unfold user_set. rewrite Ka, Ca. set (cs := connections _) in *.
  rewrite deliver_S, Ta. cbn [fold_left]. unfold fwd at 1. cbn [Route_Model.fetch fresh mem existsb]. rewrite Kb, Cb, SW.
  rewrite deliver_S, Tb. cbn [fold_left]. unfold fwd at 1. cbn [Route_Model.fetch fresh mem existsb].
  rewrite (cell_eqb_neq c b) by congruence. cbn [orb].
  rewrite Kc, Cc. rewrite deliver_S, Tc. cbn [fold_left].
  eexists _, _. split; [reflexivity|]. cbn. rewrite cell_eqb_refl.
  rewrite (cell_eqb_neq b c), (cell_eqb_neq b a) by congruence. auto.
Qed.

(** ** C36: IS mappings of one prototype field p to fields bs of other nodes *)
Definition mappings (p : cell) (bs : list cell) : list link := map (LIS p) bs.

Lemma mappings_proper p bs : (forall b, In b bs -> fst b <> fst p) -> proper (mappings p bs).
Proof.
  intros H a b I. apply in_map_iff in I. destruct I as (x & [= <- <-] & I). intros E. apply (H x I). congruence.
Qed.
Lemma mappings_linked p bs a b : linked (mappings p bs) a b <-> (a = p /\ In b bs) \/ (b = p /\ In a bs).
Proof.
  unfold linked, mappings. rewrite !in_map_iff. split.
  - intros [(x & [=] & _)|[(x & [= <- <-] & I)|(x & [= <- <-] & I)]]; auto.
  - intros [[-> I]|[-> I]]; right; [left|right]; eexists; (split; [reflexivity|exact I]).
Qed.
Lemma mappings_downstream p bs a x : In a (p :: bs) -> bs <> [] ->
  (downstream (mappings p bs) a x <-> In x (p :: bs)).
Proof.
  intros Ia NE. split.
  - intros D. apply clos_trans_tn1 in D.
    inversion D as [? H|? ? H _]; apply mappings_linked in H; destruct H as [[-> I]|[-> I]]; cbn; auto.
  - intros Ix.
    assert (PA : forall b, In b bs -> downstream (mappings p bs) p b)
      by (intros b I; apply t_step, mappings_linked; auto).
    assert (PB : forall b, In b bs -> downstream (mappings p bs) b p)
      by (intros b I; apply t_step, mappings_linked; auto).
    destruct bs as [|b0 bs]; [congruence|].
    assert (PP : downstream (mappings p (b0 :: bs)) p p)
      by (eapply t_trans; [apply (PA b0)|apply (PB b0)]; left; reflexivity).
    assert (AP : downstream (mappings p (b0 :: bs)) a p) by (destruct Ia as [<-|Ia]; auto).
    destruct Ix as [<-|Ix]; [exact AP|]. eapply t_trans; [exact AP|apply PA, Ix].
Qed.

(** C36.  Whichever end is set, it terminates and all ends hold the value (when
    every end stores v as it is); nothing else changes. *)
Theorem C36_all_ends_agree : forall p bs s a v fuel,
  (forall b, In b bs -> fst b <> fst p) -> bs <> [] -> In a (p :: bs) ->
  (forall x, kind_of x = KField) -> (forall x, In x (p :: bs) -> coerce x v = Ok v) ->
  2 * length bs < fuel ->
  exists s' vis', uset (mappings p bs) fuel s a v = Done s' vis' /\
    forall x, (In x (p :: bs) -> store s' x = Some v) /\
              (~ In x (p :: bs) -> store s' x = store s x).
Proof.
  intros p bs s a v fuel D NE Ia K C L.
  assert (LC : length (connections (mappings p bs)) <= 2 * length bs).
  { clear. unfold connections, mappings. induction bs as [|b bs IH]; cbn; [lia|].
    rewrite app_length. destruct (cell_eqb p b); cbn; lia. }
  destruct (C33_same_value_everywhere (mappings p bs) s a v fuel) as (s' & vis' & E & H).
  - apply mappings_proper, D.
  - exact K.
  - apply C, Ia.
  - intros x X. apply C. eapply mappings_downstream; eassumption.
  - lia.
  - exists s', vis'. split; [exact E|]. intros x. destruct (H x) as [H1 H2]. split.
    + intros I. apply H1. left. apply mappings_downstream; assumption.
    + intros N. apply H2; [rewrite mappings_downstream by assumption; exact N|]. intros ->. contradiction.
Qed.

(** C36.  How often an end is set: setting the prototype's field p with n
    mappings sets every end n times (once per mapping), p itself included;
    setting one of the mapped fields sets every end once. *)
Theorem C36_times_set : forall p bs s v fuel s' vis',
  (forall b, In b bs -> fst b <> fst p) -> NoDup bs -> bs <> [] ->
  (forall x, kind_of x = KField) ->
  (uset (mappings p bs) fuel s p v = Done s' vis' ->
     exists t, trace s' = trace s ++ t /\ forall x, In x (p :: bs) -> times x t = length bs) /\
  (forall b, In b bs -> uset (mappings p bs) fuel s b v = Done s' vis' ->
     exists t, trace s' = trace s ++ t /\ forall x, In x (p :: bs) -> times x t = 1).
Proof.
  intros p bs s v fuel s' vis' D ND NE K.
  pose proof (mappings_proper p bs D) as P.
  assert (CS : forall l a, (forall b, In b l -> fst b <> fst p) ->
      targets (connections (mappings p l)) a =
      flat_map (fun b => (if cell_eqb p a then [b] else []) ++ (if cell_eqb b a then [p] else [])) l).
  { clear. intros l a H. induction l as [|b l IH]; [reflexivity|].
    unfold targets, connections, mappings in *. cbn [map flat_map]. rewrite filter_app, map_app, IH
      by (intros x I; apply H; right; exact I).
    cbn [conns1]. rewrite (cell_eqb_neq p b) by (intros ->; apply (H b); [left|]; reflexivity).
    rewrite (proj2 (Nat.eqb_neq (fst b) (fst p)) (H b (or_introl eq_refl))).
    f_equal. cbn. destruct (cell_eqb p a), (cell_eqb b a); reflexivity. }
  assert (TP : targets (connections (mappings p bs)) p = bs).
  { rewrite CS by exact D. rewrite cell_eqb_refl. clear -D. induction bs as [|b bs IH]; [reflexivity|]. cbn [flat_map].
    rewrite (cell_eqb_neq b p) by (intros ->; apply (D p); [left|]; reflexivity).
    cbn. f_equal. apply IH. intros x I. apply D. right. exact I. }
  assert (TB : forall b, In b bs -> targets (connections (mappings p bs)) b = [p]).
  { intros b Ib. rewrite CS by exact D.
    assert (PB : cell_eqb p b = false) by (apply cell_eqb_neq; intros ->; apply (D b Ib); reflexivity).
    rewrite PB. clear -ND Ib. induction bs as [|y bs IH]; [destruct Ib|]. cbn.
    inversion ND as [|? ? NI ND']; subst. destruct Ib as [<-|Ib].
    - rewrite cell_eqb_refl. cbn. f_equal. clear -NI. induction bs as [|z bs IH]; [reflexivity|]. cbn.
      rewrite cell_eqb_neq; [|intros ->; apply NI; left; reflexivity]. apply IH. intros I. apply NI. right. exact I.
    - rewrite cell_eqb_neq by (intros ->; contradiction). apply IH; assumption. }
  assert (ONE : forall (t : list (cell * V)) x, NoDup (cells t) -> In x (cells t) -> times x t = 1).
  { clear. unfold times. induction t as [|[a b] t IH]; intros x N I; [destruct I|]. cbn in *.
    inversion N as [|? ? NI N']; subst. destruct (cell_eqb a x) eqn:E.
    - apply cell_eqb_spec in E. subst. cbn. f_equal. clear -NI. induction t as [|[a b] t IH]; [reflexivity|]. cbn in *.
      rewrite cell_eqb_neq; [apply IH; intros I; apply NI; right; exact I|]. intros ->. apply NI. left. reflexivity.
    - destruct I as [->|I]; [rewrite cell_eqb_refl in E; discriminate|]. apply IH; assumption. }
  assert (SEG : forall a, In a (p :: bs) -> uset (mappings p bs) fuel s a v = Done s' vis' ->
     exists t, trace s' = trace s ++ t /\ forall x, In x (p :: bs) ->
       times x t = length (targets (connections (mappings p bs)) a)).
  { intros a Ia E. destruct (user_set_step _ _ _ _ _ _ _ _ _ _ _ E) as (w & _ & _ & Dl).
    destruct (events_of_message kind_of coerce deflt none (connections (mappings p bs)) fuel (put s a w) [] a (SSet w) s' vis' eq_refl (fun x _ => K x) Dl) as (segs & T & F).
    exists (concat segs). split; [exact T|]. intros x Ix.
    assert (TI : forall d, In d (targets (connections (mappings p bs)) a) -> In d (p :: bs)).
    { intros d Id. apply targets_edge in Id. apply (edge_linked _ _ _ P) in Id.
      apply mappings_linked in Id. destruct Id as [[-> I]|[-> I]]; cbn; auto. }
    clear T. revert TI F. generalize (targets (connections (mappings p bs)) a) as ds0. intros ds0 TI F. revert TI. induction F as [|d seg ds segs' (N & _ & R) F IH]; intros TI; [reflexivity|]. cbn.
    unfold times in *. rewrite filter_app, app_length, IH by (intros y Iy; apply TI; right; exact Iy).
    pose proof (ONE seg x) as O1. unfold times in O1. rewrite O1; [reflexivity|exact N|]. apply R.
    apply plus_reach. apply (plus_downstream _ _ _ P). apply mappings_downstream; [apply TI; left; reflexivity|exact NE|exact Ix]. }
  split.
  - intros E. destruct (SEG p (or_introl eq_refl) E) as (t & T & H). exists t. rewrite TP in H. auto.
  - intros b Ib E. destruct (SEG b (or_intror Ib) E) as (t & T & H). exists t. rewrite (TB b Ib) in H. auto.
Qed.

(** C36 (refuted): there is an echo.  With one mapping, setting p sets the other
    end and then p again, with the value as coerced by the other end. *)
Theorem C36_echo_refuted : forall p b s v w u fuel,
  fst b <> fst p -> kind_of p = KField -> kind_of b = KField ->
  coerce p v = Ok v -> coerce b v = Ok w -> coerce p w = Ok u -> 3 <= fuel ->
  exists s' vis', uset [LIS p b] fuel s p v = Done s' vis' /\
    trace s' = trace s ++ [(b, v); (p, w)] /\ store s' p = Some u /\ store s' b = Some w.
Proof.
  intros p b s v w u fuel D Kp Kb Cp Cb Cu L. destruct fuel as [|[|[|fuel]]]; try lia. clear L.
  assert (N : p <> b) by congruence.
  assert (CS : connections [LIS p b] = [(p, b); (b, p)]).
  { unfold connections. cbn. rewrite cell_eqb_neq by exact N.
    rewrite (proj2 (Nat.eqb_neq _ _) D). reflexivity. }
  rewrite CS. set (cs := [(p, b); (b, p)]).
  assert (Tp : targets cs p = [b]) by (unfold targets, cs; cbn; rewrite cell_eqb_refl, cell_eqb_neq by congruence; reflexivity).
  assert (Tb : targets cs b = [p]) by (unfold targets, cs; cbn; rewrite cell_eqb_refl, cell_eqb_neq by congruence; reflexivity).
  unfold user_set. rewrite Kp, Cp.
  rewrite deliver_S, Tp. cbn [fold_left]. unfold fwd at 1. cbn [Route_Model.fetch fresh mem existsb]. rewrite Kb, Cb.
  rewrite deliver_S, Tb. cbn [fold_left]. unfold fwd at 1. cbn [Route_Model.fetch fresh mem existsb].
  rewrite (cell_eqb_neq p b) by congruence. cbn [orb]. rewrite Kp, Cu.
  rewrite deliver_S, Tp. cbn [fold_left]. unfold fwd at 1. cbn [Route_Model.fetch fresh mem existsb].
  rewrite (cell_eqb_neq b p) by congruence. rewrite cell_eqb_refl. cbn [orb].
  eexists _, _. split; [reflexivity|]. cbn. rewrite !cell_eqb_refl, (cell_eqb_neq b p) by congruence.
  split; [rewrite <- !app_assoc; reflexivity|auto].
Qed.

(** C36 (refuted): an IS between two different fields of one node mirrors only
    one way; setting the destination sets the destination again. *)
Theorem C36_same_node_refuted : forall p b s v w fuel,
  fst b = fst p -> p <> b -> kind_of b = KField -> coerce b v = Ok w -> coerce b w = Ok w -> 2 <= fuel ->
  exists s' vis', uset [LIS p b] fuel s b v = Done s' vis' /\
    trace s' = trace s ++ [(b, w)] /\ store s' p = store s p.
Proof.
  intros p b s v w fuel D N Kb Cb Cw L. destruct fuel as [|[|fuel]]; try lia. clear L.
  assert (CS : connections [LIS p b] = [(p, b); (b, b)]).
  { unfold connections. cbn. rewrite cell_eqb_neq by exact N.
    rewrite (proj2 (Nat.eqb_eq _ _) D). reflexivity. }
  rewrite CS. set (cs := [(p, b); (b, b)]).
  assert (Tb : targets cs b = [b]) by (unfold targets, cs; cbn; rewrite cell_eqb_refl, cell_eqb_neq by congruence; reflexivity).
  unfold user_set. rewrite Kb, Cb.
  rewrite deliver_S, Tb. cbn [fold_left]. unfold fwd at 1. cbn [Route_Model.fetch fresh mem existsb]. rewrite Kb, Cw.
  rewrite deliver_S, Tb. cbn [fold_left]. unfold fwd at 1. cbn [Route_Model.fetch fresh mem existsb].
  rewrite cell_eqb_refl. cbn [orb].
  eexists _, _. split; [reflexivity|]. cbn. rewrite !cell_eqb_neq by congruence. split; reflexivity.
Qed.
End Claims.

Print Assumptions C32_cascade_terminates.
Print Assumptions C32_once_per_event.
Print Assumptions C33_reaches_exactly.
Print Assumptions C33_same_value_everywhere.
Print Assumptions C34_terminates_iff_no_event_cycle.
Print Assumptions C34_reaches_exactly.
Print Assumptions C34_event_cycle_refuted.
Print Assumptions C34_value_behind_event_refuted.
Print Assumptions C35_fields_hold_coerced_values.
Print Assumptions C35_rejected_value_travels_refuted.
Print Assumptions C36_all_ends_agree.
Print Assumptions C36_times_set.
Print Assumptions C36_echo_refuted.
Print Assumptions C36_same_node_refuted.

(** ** Concrete, non-trivial cases meeting the hypotheses *)
(** a three-cycle with a self loop and a branch; coercion halves at cell (3,0) *)
Definition ex_links : list link :=
  [LRoute (1, 0) (2, 0); LRoute (2, 0) (3, 0); LRoute (3, 0) (1, 0); LRoute (2, 0) (2, 0); LRoute (9, 0) (8, 0)].
Definition ex_coerce (c : cell) (v : nat) : res nat := if Nat.eqb (fst c) 3 then Ok (Nat.div v 2) else Ok v.
Definition ex_state : state nat := {| store := fun _ => None; trace := [] |}.
Example C32_C33_nonvacuous :
  proper ex_links /\ (forall b u, exists u', ex_coerce b u = Ok u') /\
  match user_set (fun _ => KField) ex_coerce (fun _ => Ok 0) 0 (connections ex_links) 6 ex_state (1, 0) 8 with
  | Done s' _ => trace s' = [((2, 0), 8); ((3, 0), 8); ((1, 0), 4)] /\ store s' (3, 0) = Some 4 /\
                 store s' (1, 0) = Some 4 /\ store s' (8, 0) = None
  | _ => False
  end.
Proof.
  split; [intros a b I; repeat (destruct I as [I|I]; [discriminate|]); destruct I|].
  split; [|vm_compute; auto]. intros b u. unfold ex_coerce. destruct (fst b =? 3)%nat; eexists; reflexivity.
Qed.
(** event port in an acyclic graph: terminates; in a cycle: does not *)
Example C34_nonvacuous :
  let k := fun c : cell => if Nat.eqb (fst c) 5 then KEvent else KField in
  user_set k ex_coerce (fun _ => Ok 0) 0 (connections [LRoute (1,0) (5,0); LRoute (5,0) (6,0)]) 9 ex_state (1,0) 7 <> OutOfFuel /\
  user_set k ex_coerce (fun _ => Ok 0) 0 (connections [LRoute (1,0) (5,0); LRoute (5,0) (6,0); LRoute (6,0) (5,0)]) 40 ex_state (1,0) 7 = OutOfFuel.
Proof. split; [vm_compute; discriminate|vm_compute; reflexivity]. Qed.
(** two mappings: the other ends are set twice, and agree *)
Example C36_nonvacuous :
  match user_set (fun _ => KField) (fun _ v => Ok v) (fun _ => Ok 0) 0
          (connections [LIS (1,0) (2,0); LIS (1,0) (3,4)]) 9 ex_state (1,0) 7 with
  | Done s' _ => trace s' = [((2,0),7); ((1,0),7); ((3,4),7); ((3,4),7); ((1,0),7); ((2,0),7)]
                 /\ store s' (3,4) = Some 7
  | _ => False
  end.
Proof. vm_compute. auto. Qed.
