From Verif Require Import Base Route_Model.
From Coq Require Import Relations.

Lemma cell_eqb_spec a b : cell_eqb a b = true <-> a = b.
Proof.
  unfold cell_eqb. rewrite andb_true_iff, !Nat.eqb_eq. destruct a, b; cbn. split; [intros []|intros [=]]; subst; auto.
Qed.
Lemma cell_eqb_refl a : cell_eqb a a = true.
Proof. apply cell_eqb_spec. reflexivity. Qed.
Lemma cell_eqb_neq a b : a <> b -> cell_eqb a b = false.
Proof. intros H. destruct (cell_eqb a b) eqn:E; [|reflexivity]. apply cell_eqb_spec in E. contradiction. Qed.
Lemma mem_spec c l : mem c l = true <-> In c l.
Proof.
  unfold mem. rewrite existsb_exists. split.
  - intros (x & I & E). apply cell_eqb_spec in E. subst. exact I.
  - intros I. exists c. split; [exact I|apply cell_eqb_refl].
Qed.
Lemma mem_false c l : mem c l = false <-> ~ In c l.
Proof. rewrite <- mem_spec. destruct (mem c l); intuition discriminate. Qed.
Lemma cell_dec (a b : cell) : {a = b} + {a <> b}.
Proof. decide equality; apply Nat.eq_dec. Qed.

Section R.
Context {V : Type}.
Variable kind_of : cell -> kind.
Variable coerce : cell -> V -> res V.
Variable deflt : cell -> res V.
Variable none : V.
Variable conns : list (cell * cell).

Notation deliver := (deliver kind_of coerce deflt none conns).
Notation targets := (targets conns).
Notation fetch := (fetch deflt).

Definition edge (a b : cell) : Prop := In (a, b) conns.
Definition reach := clos_refl_trans cell edge.
Definition plus := clos_trans cell edge.

Lemma targets_edge c d : In d (targets c) <-> edge c d.
Proof.
  unfold targets, edge. rewrite in_map_iff. split.
  - intros ([a b] & E & I). apply filter_In in I. destruct I as [I H]. cbn in *.
    apply cell_eqb_spec in H. subst. exact I.
  - intros I. exists (c, d). split; [reflexivity|]. apply filter_In. split; [exact I|]. cbn. apply cell_eqb_refl.
Qed.
Lemma plus_inv c x : plus c x -> exists d, edge c d /\ reach d x.
Proof.
  intros P. apply clos_trans_t1n in P. inversion P; subst.
  - exists x. split; [assumption|apply rt_refl].
  - exists y. split; [assumption|]. apply clos_t1n_trans in H0. 
    clear -H0. induction H0; [apply rt_step; assumption|eapply rt_trans; eassumption].
Qed.
Lemma plus_cons c d x : edge c d -> reach d x -> plus c x.
Proof.
  intros E R. apply clos_rt_rt1n in R. revert c E. induction R as [d|d e x E' R IH]; intros c E.
  - apply t_step, E.
  - eapply t_trans; [apply t_step, E|]. apply IH, E'.
Qed.
Lemma plus_reach c x : plus c x -> reach c x.
Proof. intros P. destruct (plus_inv _ _ P) as (d & E & R). eapply rt_trans; [apply rt_step, E|exact R]. Qed.
Lemma reach_plus c x : reach c x -> c = x \/ plus c x.
Proof.
  intros R. apply clos_rt_rt1n in R. destruct R as [|d x E R]; [left; reflexivity|].
  right. eapply plus_cons; [exact E|]. apply clos_rt1n_rt, R.
Qed.

(** one forwarder, with the recursive call abstracted *)
Definition fwd (rec : state V -> list cell -> cell -> signal V -> outcome V)
    (c : cell) (g : signal V) (o : outcome V) (d : cell) : outcome V :=
  match o with
  | Done s vis =>
    match fetch s c g with
    | (s, Exc e) => Raised e s
    | (s, Ok v) =>
      let ev := if fresh g then [] else vis in
      if mem d ev then Done s vis
      else
        let ev1 := d :: ev in
        let s := note s d v in
        let r :=
          match kind_of d with
          | KField =>
              match coerce d v with
              | Ok w => rec (put s d w) ev1 d (SRoute w)
              | Exc e => if swallowed e then rec s ev1 d (SRoute v) else Raised e s
              end
          | KEvent =>
              match rec (put s d v) [] d (SSet v) with
              | Done s' _ => rec s' ev1 d (SRoute none)
              | o => o
              end
          end in
        match r with
        | Done s' ev2 => Done s' (if fresh g then vis else ev2)
        | o => o
        end
    end
  | o => o
  end.
Lemma deliver_S k s vis c g :
  deliver (S k) s vis c g = fold_left (fwd (deliver k) c g) (targets c) (Done s vis).
Proof. reflexivity. Qed.
Lemma fold_notdone f c g ds (o : outcome V) :
  (forall s v, o <> Done s v) -> fold_left (fwd f c g) ds o = o.
Proof.
  intros H. induction ds as [|d ds IH]; [reflexivity|]. cbn.
  destruct o as [s v| |]; [exfalso; eapply H; reflexivity| |]; exact IH.
Qed.

Definition cells (t : list (cell * V)) : list cell := map fst t.
Lemma cells_app a b : cells (a ++ b) = cells a ++ cells b.
Proof. apply map_app. Qed.

(** what holds of a completed delivery *)
Definition event_seen (fuel : nat) (x : cell) : Prop :=
  exists k' s1 w s2 v2, k' < fuel /\ deliver k' s1 [] x (SSet w) = Done s2 v2.

Record post (fuel : nat) (c : cell) (ds : list cell) (g : signal V)
   (s : state V) (vis : list cell) (s' : state V) (vis' : list cell) (t : list (cell * V)) : Prop := {
  p_trace : trace s' = trace s ++ t;
  p_plus : forall x, In x (cells t) -> exists d, In d ds /\ reach d x;
  p_store : forall x, ~ In x (cells t) -> x <> c \/ g <> SDel -> store s' x = store s x;
  p_event : forall x, In x (cells t) -> kind_of x = KEvent -> event_seen fuel x;
  p_fresh : fresh g = true -> vis' = vis /\ forall d x, In d ds -> reach d x -> In x (cells t);
  p_incl : fresh g = false -> incl vis vis';
  p_ds : fresh g = false -> forall d, In d ds -> In d vis';
  p_new : fresh g = false -> forall x, In x vis' -> ~ In x vis ->
            In x (cells t) /\ (exists d, In d ds /\ reach d x) /\ forall d, edge x d -> In d vis'
}.

Lemma event_seen_mono a b x : a <= b -> event_seen a x -> event_seen b x.
Proof. intros L (k & s1 & w & s2 & v2 & H & E). exists k, s1, w, s2, v2. split; [lia|exact E]. Qed.

Lemma fetch_facts s c g s1 v : fetch s c g = (s1, Ok v) ->
  trace s1 = trace s /\ (forall x, x <> c \/ g <> SDel -> store s1 x = store s x).
Proof.
  unfold fetch. destruct g as [w| |w]; cbn.
  - intros [= <- <-]. auto.
  - destruct (store s c) as [u|]; [intros [= <- <-]; auto|].
    destruct (deflt c) as [u|e]; [|discriminate]. intros [= <- <-]. cbn. split; [reflexivity|].
    intros x [N|N]; [rewrite cell_eqb_neq by exact N; reflexivity|contradiction].
  - intros [= <- <-]. auto.
Qed.

(** closure: reachability stays inside a successor-closed visited list *)
Lemma closed_reach (l : list cell) d x :
  (forall y, In y l -> forall z, edge y z -> In z l) -> In d l -> reach d x -> In x l.
Proof.
  intros C I R. apply clos_rt_rt1n in R. induction R as [|d e x E R IH]; [exact I|].
  apply IH. eapply C; eassumption.
Qed.

Definition rec_ok (fuel : nat) (rec : state V -> list cell -> cell -> signal V -> outcome V) : Prop :=
  (forall s1 x w s2 v2, rec s1 [] x (SSet w) = Done s2 v2 -> deliver fuel s1 [] x (SSet w) = Done s2 v2) /\
  forall s vis c g s' vis', rec s vis c g = Done s' vis' ->
    exists t, post fuel c (targets c) g s vis s' vis' t.

Lemma fwd_post fuel rec c g s vis d s' vis' : rec_ok fuel rec ->
  fwd rec c g (Done s vis) d = Done s' vis' ->
  exists t, post (S fuel) c [d] g s vis s' vis' t.
Proof.
  intros [RE RP]. unfold fwd. destruct (fetch s c g) as [s1 [v|e]] eqn:F; [|discriminate].
  destruct (fetch_facts _ _ _ _ _ F) as [FT FS].
  set (ev := if fresh g then [] else vis).
  destruct (mem d ev) eqn:M.
  { intros [= <- <-]. apply mem_spec in M. unfold ev in M.
    destruct (fresh g) eqn:FG; [destruct M|]. exists []. split; cbn; auto.
    - rewrite app_nil_r. exact FT.
    - intros x [].
    - intros x [].
    - congruence.
    - intros _ x I. exact I.
    - intros _ d' [<-|[]]. exact M.
    - intros _ x I N. contradiction. }
  apply mem_false in M.
  (* the nested deliveries, summarised *)
  match goal with |- match ?R with Done _ _ => _ | _ => _ end = _ -> _ => destruct R as [s2 ev2|e s2|] eqn:ER end;
    try discriminate.
  intros [= <- <-].
  assert (SUM : exists t, trace s2 = trace s1 ++ (d, v) :: t /\
     (forall x, In x (cells t) -> plus d x) /\
     (forall x, x <> d -> ~ In x (cells t) -> store s2 x = store s1 x) /\
     (forall x, In x (cells t) -> kind_of x = KEvent -> event_seen fuel x) /\
     (kind_of d = KEvent -> event_seen (S fuel) d) /\
     incl (d :: ev) ev2 /\ (forall e, edge d e -> In e ev2) /\
     (forall x, In x ev2 -> ~ In x (d :: ev) -> In x (cells t) /\ plus d x /\ forall e, edge x e -> In e ev2)).
  { assert (ONE : forall sa w, trace sa = trace s1 ++ [(d, v)] ->
        (forall x, x <> d -> store sa x = store s1 x) ->
        rec sa (d :: ev) d (SRoute w) = Done s2 ev2 ->
        kind_of d = KField -> exists t, trace s2 = trace s1 ++ (d, v) :: t /\
     (forall x, In x (cells t) -> plus d x) /\
     (forall x, x <> d -> ~ In x (cells t) -> store s2 x = store s1 x) /\
     (forall x, In x (cells t) -> kind_of x = KEvent -> event_seen fuel x) /\
     (kind_of d = KEvent -> event_seen (S fuel) d) /\
     incl (d :: ev) ev2 /\ (forall e, edge d e -> In e ev2) /\
     (forall x, In x ev2 -> ~ In x (d :: ev) -> In x (cells t) /\ plus d x /\ forall e, edge x e -> In e ev2)).
    { intros sa w T1 S1 E K. destruct (RP _ _ _ _ _ _ E) as [t [P1 P2 P3 P4 _ P6 P7 P8]].
      exists t. split; [rewrite P1, T1, <- app_assoc; reflexivity|].
      split; [intros x I; destruct (P2 x I) as (y & Iy & R); eapply plus_cons; [apply targets_edge; exact Iy|exact R]|].
      split; [intros x Nx Nt; rewrite P3; [apply S1, Nx|exact Nt|left; exact Nx]|].
      split; [exact P4|]. split; [congruence|]. split; [apply P6; reflexivity|].
      split; [intros e I; apply P7; [reflexivity|apply targets_edge, I]|].
      intros x I N. destruct (P8 eq_refl x I N) as (A & (y & Iy & R) & B). split; [exact A|].
      split; [eapply plus_cons; [apply targets_edge; exact Iy|exact R]|exact B]. }
    destruct (kind_of d) eqn:K.
    - destruct (coerce d v) as [w|e] eqn:C.
      + eapply ONE; [| |exact ER|reflexivity]; [reflexivity|].
        intros x Nx. cbn. rewrite cell_eqb_neq by exact Nx. reflexivity.
      + destruct (swallowed e); [|discriminate]. eapply ONE; [| |exact ER|reflexivity]; [reflexivity|]. reflexivity.
    - destruct (rec (put (note s1 d v) d v) [] d (SSet v)) as [s3 v3| |] eqn:E1; try discriminate.
      destruct (RP _ _ _ _ _ _ E1) as [t1 [Q1 Q2 Q3 Q4 Q5 _ _ _]].
      destruct (RP _ _ _ _ _ _ ER) as [t [P1 P2 P3 P4 _ P6 P7 P8]].
      exists (t1 ++ t). split; [rewrite P1, Q1; cbn; rewrite <- !app_assoc; reflexivity|].
      split.
      { intros x I. rewrite cells_app in I. apply in_app_or in I.
        destruct I as [I|I]; [destruct (Q2 x I) as (y & Iy & R)|destruct (P2 x I) as (y & Iy & R)];
          (eapply plus_cons; [apply targets_edge; exact Iy|exact R]). }
      split.
      { intros x Nx Nt. rewrite cells_app in Nt. rewrite P3; [|intros I; apply Nt, in_or_app; right; exact I|left; exact Nx].
        rewrite Q3; [|intros I; apply Nt, in_or_app; left; exact I|left; exact Nx].
        cbn. rewrite cell_eqb_neq by exact Nx. reflexivity. }
      split; [intros x I; rewrite cells_app in I; apply in_app_or in I; destruct I; auto|].
      split; [intros _; exists fuel, (put (note s1 d v) d v), v, s3, v3; split; [lia|apply RE, E1]|].
      split; [apply P6; reflexivity|].
      split; [intros e I; apply P7; [reflexivity|apply targets_edge, I]|].
      intros x I N. destruct (P8 eq_refl x I N) as (A & (y & Iy & R) & B).
      split; [rewrite cells_app; apply in_or_app; right; exact A|].
      split; [eapply plus_cons; [apply targets_edge; exact Iy|exact R]|exact B]. }
  clear ER. destruct SUM as (t & T & TP & TS & TE & TD & I1 & I2 & I3).
  exists ((d, v) :: t). split.
  - rewrite T, FT. reflexivity.
  - cbn. intros x [<-|I]; exists d; (split; [left; reflexivity|]); [apply rt_refl|apply plus_reach, TP, I].
  - cbn. intros x N D. rewrite TS; [apply FS, D|intros ->; apply N; left; reflexivity|intros I; apply N; right; exact I].
  - cbn. intros x [<-|I] K; [apply TD, K|]. eapply event_seen_mono; [|apply TE; assumption]. lia.
  - intros FG. rewrite FG. split; [reflexivity|]. intros d' x [<-|[]] R.
    assert (EV : ev = []) by (unfold ev; rewrite FG; reflexivity). rewrite EV in *.
    assert (X : In x ev2).
    { eapply closed_reach; [|apply I1; left; reflexivity|exact R].
      intros y Iy z E. destruct (cell_dec d y) as [<-|N]; [apply I2, E|].
      apply (I3 y Iy); [intros [X|[]]; contradiction|exact E]. }
    cbn. destruct (cell_dec d x) as [->|N]; [left; reflexivity|]. right.
    apply (I3 x X). intros [Y|[]]. contradiction.
  - intros FG. rewrite FG. assert (EV : ev = vis) by (unfold ev; rewrite FG; reflexivity). rewrite EV in *.
    intros x I. apply I1. right. exact I.
  - intros FG. rewrite FG. intros d' [<-|[]]. apply I1. left. reflexivity.
  - intros FG. rewrite FG. assert (EV : ev = vis) by (unfold ev; rewrite FG; reflexivity). rewrite EV in *.
    intros x I N. destruct (cell_dec d x) as [<-|Nd].
    + split; [left; reflexivity|]. split; [exists d; split; [left; reflexivity|apply rt_refl]|]. exact I2.
    + destruct (I3 x I) as (A & B & C); [intros [Y|Y]; contradiction|].
      split; [right; exact A|]. split; [exists d; split; [left; reflexivity|apply plus_reach, B]|exact C].
Qed.

Lemma post_nil fuel c g s vis : post fuel c [] g s vis s vis [].
Proof.
  split; cbn; try (intros; contradiction).
  - rewrite app_nil_r. reflexivity.
  - reflexivity.
  - intros _. split; [reflexivity|intros ? ? []].
  - intros _ x I. exact I.
Qed.
Lemma post_app fuel c ds1 ds2 g s vis s1 vis1 s2 vis2 t1 t2 :
  post fuel c ds1 g s vis s1 vis1 t1 -> post fuel c ds2 g s1 vis1 s2 vis2 t2 ->
  post fuel c (ds1 ++ ds2) g s vis s2 vis2 (t1 ++ t2).
Proof.
  intros [A1 A2 A3 A4 A5 A6 A7 A8] [B1 B2 B3 B4 B5 B6 B7 B8]. split.
  - rewrite B1, A1, app_assoc. reflexivity.
  - intros x I. rewrite cells_app in I. apply in_app_or in I.
    destruct I as [I|I]; [destruct (A2 x I) as (d & D & R)|destruct (B2 x I) as (d & D & R)];
      exists d; (split; [apply in_or_app; auto|exact R]).
  - intros x N D. rewrite cells_app in N.
    rewrite B3; [apply A3; [intros I; apply N, in_or_app; auto|exact D]|intros I; apply N, in_or_app; auto|exact D].
  - intros x I. rewrite cells_app in I. apply in_app_or in I. destruct I; auto.
  - intros F. destruct (A5 F) as [-> A], (B5 F) as [-> B]. split; [reflexivity|].
    intros d x D R. rewrite cells_app. apply in_or_app. apply in_app_or in D. destruct D; eauto.
  - intros F x I. apply B6, A6; assumption.
  - intros F d D. apply in_app_or in D. destruct D as [D|D]; [apply B6; [exact F|apply A7; assumption]|apply B7; assumption].
  - intros F x I N. destruct (in_dec cell_dec x vis1) as [I1|N1].
    + destruct (A8 F x I1 N) as (P & (d & D & R) & Q). split; [rewrite cells_app; apply in_or_app; auto|].
      split; [exists d; split; [apply in_or_app; auto|exact R]|]. intros e E. apply B6; [exact F|apply Q, E].
    + destruct (B8 F x I N1) as (P & (d & D & R) & Q). split; [rewrite cells_app; apply in_or_app; auto|].
      split; [exists d; split; [apply in_or_app; auto|exact R]|exact Q].
Qed.
Lemma fold_post fuel rec c g ds : rec_ok fuel rec -> forall s vis s' vis',
  fold_left (fwd rec c g) ds (Done s vis) = Done s' vis' ->
  exists t, post (S fuel) c ds g s vis s' vis' t.
Proof.
  intros RO. induction ds as [|d ds IH]; intros s vis s' vis' E; cbn [fold_left] in E.
  - injection E as <- <-. exists []. apply post_nil.
  - destruct (fwd rec c g (Done s vis) d) as [s1 v1|e s1|] eqn:E1.
    + destruct (fwd_post _ _ _ _ _ _ _ _ _ RO E1) as [t1 P1]. destruct (IH _ _ _ _ E) as [t2 P2].
      exists (t1 ++ t2). exact (post_app _ _ [d] ds _ _ _ _ _ _ _ _ _ P1 P2).
    + rewrite fold_notdone in E by congruence. discriminate.
    + rewrite fold_notdone in E by congruence. discriminate.
Qed.
Lemma deliver_post fuel : rec_ok fuel (deliver fuel).
Proof.
  induction fuel as [|k IH]; (split; [auto|]); intros s vis c g s' vis' E; [discriminate|].
  rewrite deliver_S in E. eapply fold_post; [exact IH|exact E].
Qed.

(** ** Exactness of reach (any graph, any kinds) *)
Theorem deliver_reaches_exactly fuel s vis c g s' vis' :
  deliver fuel s vis c g = Done s' vis' -> fresh g = true ->
  exists t, trace s' = trace s ++ t /\
    (forall x, In x (cells t) <-> plus c x) /\
    (forall x, ~ plus c x -> x <> c \/ g <> SDel -> store s' x = store s x).
Proof.
  intros E F. destruct (proj2 (deliver_post fuel) _ _ _ _ _ _ E) as [t [P1 P2 P3 _ P5 _ _ _]].
  assert (X : forall x, In x (cells t) <-> plus c x).
  { intros x. split.
    - intros I. destruct (P2 x I) as (d & D & R). eapply plus_cons; [apply targets_edge, D|exact R].
    - intros P. destruct (plus_inv _ _ P) as (d & D & R). eapply (proj2 (P5 F)); [apply targets_edge, D|exact R]. }
  exists t. split; [exact P1|]. split; [exact X|]. intros x N D. apply P3; [rewrite X; exact N|exact D].
Qed.

(** ** Exceptions *)
Definition benign : Prop :=
  (forall c v e, coerce c v = Exc e -> swallowed e = true) /\ forall c e, deflt c <> Exc e.
Lemma never_raises fuel : benign -> forall s vis c g e s', deliver fuel s vis c g <> Raised e s'.
Proof.
  intros [B1 B2]. induction fuel as [|k IH]; intros s vis c g e s'; [discriminate|].
  rewrite deliver_S. generalize (targets c) as ds. intros ds. revert s vis.
  induction ds as [|d ds IHd]; intros s vis; [discriminate|]. cbn [fold_left].
  destruct (fwd (deliver k) c g (Done s vis) d) as [s1 v1|e1 s1|] eqn:E.
  - apply IHd.
  - exfalso. unfold fwd in E. destruct (fetch s c g) as [s2 [v|e2]] eqn:F.
    + destruct (mem d _); [discriminate|].
      destruct (kind_of d).
      * destruct (coerce d v) as [w|e2] eqn:C.
        -- match type of E with match ?X with _ => _ end = _ => destruct X eqn:EX end; try discriminate. eapply IH, EX.
        -- rewrite (B1 _ _ _ C) in E.
           match type of E with match ?X with _ => _ end = _ => destruct X eqn:EX end; try discriminate. eapply IH, EX.
      * destruct (deliver k (put (note s2 d v) d v) [] d (SSet v)) as [s3 v3|e3 s3|] eqn:E3.
        -- match type of E with match ?X with _ => _ end = _ => destruct X eqn:EX end; try discriminate. eapply IH, EX.
        -- eapply IH, E3.
        -- discriminate.
    + destruct g as [v| |v]; cbn in F; try discriminate.
      destruct (store s c); [discriminate|]. destruct (deflt c) eqn:D; [discriminate|]. eapply B2, D.
  - rewrite fold_notdone by congruence. discriminate.
Qed.

(** ** Divergence: an event port on a reachable cycle *)
Theorem event_cycle_diverges e : benign -> kind_of e = KEvent -> plus e e ->
  forall c, plus c e -> forall fuel s vis g, fresh g = true -> deliver fuel s vis c g = OutOfFuel.
Proof.
  intros B K C c P fuel s vis g F.
  assert (X : forall fuel s w s' v', deliver fuel s [] e (SSet w) <> Done s' v').
  { clear -B K C. induction fuel as [fuel IH] using lt_wf_ind. intros s w s' v' E.
    destruct (proj2 (deliver_post fuel) _ _ _ _ _ _ E) as [t [_ _ _ P4 P5 _ _ _]].
    destruct (plus_inv _ _ C) as (d & D & R).
    assert (I : In e (cells t)) by (eapply (proj2 (P5 eq_refl)); [apply targets_edge, D|exact R]).
    destruct (P4 e I K) as (k & s1 & w1 & s2 & v2 & L & Q). eapply IH; [exact L|exact Q]. }
  destruct (deliver fuel s vis c g) as [s' v'|e' s'|] eqn:E; [|exfalso; eapply never_raises; eassumption|reflexivity].
  exfalso. destruct (proj2 (deliver_post fuel) _ _ _ _ _ _ E) as [t [_ _ _ P4 P5 _ _ _]].
  destruct (plus_inv _ _ P) as (d & D & R).
  assert (I : In e (cells t)) by (eapply (proj2 (P5 F)); [apply targets_edge, D|exact R]).
  destruct (P4 e I K) as (k & s1 & w1 & s2 & v2 & L & Q). eapply X, Q.
Qed.

(** ** Termination *)
Definition unvisited (vis : list cell) : nat :=
  length (filter (fun p => negb (mem (snd p) vis)) conns).
Lemma unvisited_le vis : unvisited vis <= length conns.
Proof. unfold unvisited. induction conns as [|p l IH]; cbn; [lia|]. destruct (negb _); cbn; lia. Qed.
Lemma filter_le {A} (f g : A -> bool) l : (forall x, f x = true -> g x = true) ->
  length (filter f l) <= length (filter g l).
Proof.
  intros H. induction l as [|a l IH]; cbn; [lia|].
  destruct (f a) eqn:E; [rewrite (H a E); cbn; lia|]. destruct (g a); cbn; lia.
Qed.
Lemma filter_lt {A} (f g : A -> bool) l x : (forall x, f x = true -> g x = true) ->
  In x l -> f x = false -> g x = true -> length (filter f l) < length (filter g l).
Proof.
  intros H I F G. induction l as [|a l IH]; [destruct I|]. cbn. destruct I as [->|I].
  - rewrite F, G. cbn. pose proof (filter_le f g l H). lia.
  - specialize (IH I). destruct (f a) eqn:E; [rewrite (H a E); cbn; lia|]. destruct (g a); cbn; lia.
Qed.
Lemma unvisited_cons d c vis : edge c d -> ~ In d vis -> unvisited (d :: vis) < unvisited vis.
Proof.
  intros E N. unfold unvisited. eapply (filter_lt _ _ _ (c, d)); [|exact E| |].
  - intros [a b]. cbn [snd]. rewrite !negb_true_iff, !mem_false. cbn. tauto.
  - cbn [snd]. rewrite negb_false_iff. apply mem_spec. left. reflexivity.
  - cbn [snd]. rewrite negb_true_iff. apply mem_false, N.
Qed.

Definition enough (n m : nat) : nat := n * S (length conns) + m + 1.

Lemma terminates_gen : forall n c E, length E <= n ->
  (forall e, plus c e -> kind_of e = KEvent -> In e E /\ ~ plus e e) ->
  forall m vis, unvisited vis <= m -> forall fuel s g, (fresh g = true -> m = length conns) ->
  enough n m <= fuel -> deliver fuel s vis c g <> OutOfFuel.
Proof.
  induction n as [n IHn] using lt_wf_ind. intros c E LE HE m. revert c HE.
  induction m as [m IHm] using lt_wf_ind. intros c HE vis UV fuel s g FM EN.
  destruct fuel as [|k]; [unfold enough in EN; lia|]. rewrite deliver_S.
  assert (TG : forall d, In d (targets c) -> edge c d) by (intros d; apply targets_edge).
  revert TG. generalize (targets c) as ds. intros ds TG. revert s vis UV.
  induction ds as [|d ds IHd]; intros s vis UV; [discriminate|]. cbn [fold_left].
  assert (ED : edge c d) by (apply TG; left; reflexivity).
  assert (STEP : fwd (deliver k) c g (Done s vis) d <> OutOfFuel).
  { unfold fwd. destruct (fetch s c g) as [s2 [v|e2]]; [|discriminate].
    set (ev := if fresh g then [] else vis). destruct (mem d ev) eqn:M; [discriminate|]. apply mem_false in M.
    assert (U : unvisited (d :: ev) < m).
    { pose proof (unvisited_cons d c ev ED M). unfold ev in *. destruct (fresh g); [|lia].
      rewrite (FM eq_refl). pose proof (unvisited_le []). lia. }
    assert (HED : forall e, plus d e -> kind_of e = KEvent -> In e E /\ ~ plus e e).
    { intros e P. apply HE. eapply plus_cons; [exact ED|apply plus_reach, P]. }
    assert (ROUTE : forall sa w, deliver k sa (d :: ev) d (SRoute w) <> OutOfFuel).
    { intros sa w. eapply (IHm (m - 1)); [lia|exact HED|lia|cbn; discriminate|unfold enough in *; lia]. }
    destruct (kind_of d) eqn:K.
    - destruct (coerce d v) as [w|e2].
      + specialize (ROUTE (put (note s2 d v) d w) w).
        destruct (deliver k _ (d :: ev) d _); congruence.
      + destruct (swallowed e2); [|discriminate].
        specialize (ROUTE (note s2 d v) v). destruct (deliver k _ (d :: ev) d _); congruence.
    - destruct (HE d) as [ID ND]; [apply t_step, ED|exact K|].
      assert (LR : length (remove cell_dec d E) < length E) by (apply remove_length_lt, ID).
      assert (SET : deliver k (put (note s2 d v) d v) [] d (SSet v) <> OutOfFuel).
      { eapply (IHn (n - 1)) with (E := remove cell_dec d E) (m := length conns); try lia.
        - intros e P Ke. destruct (HED e P Ke) as [Ie Ne]. split; [|exact Ne].
          apply in_in_remove; [intros ->; contradiction|exact Ie].
        - apply unvisited_le.
        - unfold enough in *. destruct n as [|n']; [lia|]. rewrite Nat.sub_succ, Nat.sub_0_r.
          cbn [Nat.mul] in EN. lia. }
      destruct (deliver k _ [] d _) as [s3 v3| |] eqn:E3; [|discriminate|congruence].
      specialize (ROUTE s3 none). destruct (deliver k _ (d :: ev) d _); congruence. }
  destruct (fwd (deliver k) c g (Done s vis) d) as [s1 v1|e1 s1|] eqn:EF.
  - apply IHd; [intros x I; apply TG; right; exact I|].
    destruct (fwd_post k (deliver k) c g s vis d s1 v1 (deliver_post k) EF) as [t [_ _ _ _ P5 P6 _ _]].
    destruct (fresh g) eqn:FG.
    + destruct (P5 eq_refl) as [-> _]. exact UV.
    + specialize (P6 eq_refl). unfold unvisited in *.
      eapply Nat.le_trans; [apply filter_le|exact UV]. intros p. rewrite !negb_true_iff, !mem_false.
      intros N I. apply N, P6, I.
  - rewrite fold_notdone by congruence. discriminate.
  - congruence.
Qed.

Lemma all_events_list : exists E : list cell, forall c e, plus c e -> kind_of e = KEvent -> In e E.
Proof.
  exists (map snd conns). intros c e P _. apply clos_trans_tn1 in P.
  inversion P; subst; apply in_map_iff; eexists; (split; [|eassumption]); reflexivity.
Qed.

Theorem terminates c : (forall e, plus c e -> kind_of e = KEvent -> ~ plus e e) ->
  forall fuel s vis g, fresh g = true ->
  S (length conns) * S (length conns) <= fuel -> deliver fuel s vis c g <> OutOfFuel.
Proof.
  intros H fuel s vis g F L.
  eapply (terminates_gen (length conns) c (map snd conns)) with (m := length conns).
  - rewrite map_length. lia.
  - intros e P K. split; [|apply H; assumption].
    apply clos_trans_tn1 in P.
    inversion P; subst; apply in_map_iff; eexists; (split; [|eassumption]); reflexivity.
  - apply unvisited_le.
  - reflexivity.
  - unfold enough. cbn [Nat.mul] in L. lia.
Qed.
Theorem terminates_fields c : (forall e, plus c e -> kind_of e = KField) ->
  forall fuel s vis g, fresh g = true ->
  S (length conns) <= fuel -> deliver fuel s vis c g <> OutOfFuel.
Proof.
  intros H fuel s vis g F L.
  eapply (terminates_gen 0 c []) with (m := length conns).
  - cbn. lia.
  - intros e P K. rewrite (H e P) in K. discriminate.
  - apply unvisited_le.
  - reflexivity.
  - unfold enough. lia.
Qed.

(** ** Graphs of plain fields *)
Lemma rc_unique {A} (a b c : list A) : a ++ b = a ++ c -> b = c.
Proof. apply app_inv_head. Qed.

(** The values a cell can be handed: the source value coerced along a route path. *)
Inductive pathval (src : cell) (v0 : V) : cell -> V -> Prop :=
| pv_src : pathval src v0 src v0
| pv_step c w d w' : pathval src v0 c w -> edge c d -> coerce d w = Ok w' -> pathval src v0 d w'.

Definition sig_val (g : signal V) (v : V) : Prop :=
  match g with SSet w => w = v | SRoute w => w = v | SDel => False end.

Section Fields.
Variable src : cell.
Variable v0 : V.
Hypothesis F_ok : forall x, plus src x -> kind_of x = KField.

(** within one event: visited list = cells set, in order, no repetition *)
Lemma event_once fuel : forall s vis c w s' vis', (forall x, plus c x -> kind_of x = KField) ->
  deliver fuel s vis c (SRoute w) = Done s' vis' ->
  exists t, trace s' = trace s ++ t /\ vis' = rev (cells t) ++ vis /\ (NoDup vis -> NoDup vis').
Proof.
  induction fuel as [|k IH]; intros s vis c w s' vis' KF E; [discriminate|]. rewrite deliver_S in E.
  assert (TG : forall d, In d (targets c) -> edge c d) by (intros d; apply targets_edge).
  revert TG E. generalize (targets c) as ds. intros ds. revert s vis.
  induction ds as [|d ds IHd]; intros s vis TG E; cbn [fold_left] in E.
  - injection E as <- <-. exists []. rewrite app_nil_r. auto.
  - destruct (fwd (deliver k) c (SRoute w) (Done s vis) d) as [s1 v1|e s1|] eqn:E1;
      try (rewrite fold_notdone in E by congruence; discriminate).
    apply IHd in E; [|intros x I; apply TG; right; exact I]. destruct E as (t2 & T2 & V2 & N2).
    assert (ED : edge c d) by (apply TG; left; reflexivity).
    unfold fwd in E1. cbn [fetch fresh Route_Model.fetch] in E1.
    destruct (mem d vis) eqn:M; [injection E1 as <- <-; exists t2; auto|]. apply mem_false in M.
    rewrite (KF d) in E1 by (apply t_step, ED).
    assert (KD : forall x, plus d x -> kind_of x = KField).
    { intros x P. apply KF. eapply plus_cons; [exact ED|apply plus_reach, P]. }
    assert (ONE : forall sa u, trace sa = trace s ++ [(d, w)] ->
       deliver k sa (d :: vis) d (SRoute u) = Done s1 v1 ->
       exists t, trace s' = trace s ++ t /\ vis' = rev (cells t) ++ vis /\ (NoDup vis -> NoDup vis')).
    { intros sa u TA EA. destruct (IH _ _ _ _ _ _ KD EA) as (t1 & T1 & V1 & N1).
      exists ((d, w) :: t1 ++ t2). split; [rewrite T2, T1, TA, <- !app_assoc; reflexivity|].
      split.
      - rewrite V2, V1. cbn. rewrite cells_app, rev_app_distr, <- !app_assoc. reflexivity.
      - intros N. apply N2, N1. constructor; assumption. }
    destruct (coerce d w) as [u|e] eqn:C.
    + match type of E1 with match ?X with _ => _ end = _ => destruct X as [s3 v3| |] eqn:E3 end; try discriminate.
      injection E1 as -> ->. eapply ONE; [|exact E3]. reflexivity.
    + destruct (swallowed e); [|discriminate].
      match type of E1 with match ?X with _ => _ end = _ => destruct X as [s3 v3| |] eqn:E3 end; try discriminate.
      injection E1 as -> ->. eapply ONE; [|exact E3]. reflexivity.
Qed.

Hypothesis accept : forall c w d, pathval src v0 c w -> edge c d -> exists w', coerce d w = Ok w'.

Definition good (s : state V) (t : list (cell * V)) (s' : state V) : Prop :=
  trace s' = trace s ++ t /\
  (forall x u, In (x, u) t -> exists c, edge c x /\ pathval src v0 c u) /\
  (forall x, In x (cells t) -> exists w, store s' x = Some w /\ pathval src v0 x w) /\
  (forall x, ~ In x (cells t) -> store s' x = store s x).
Lemma good_nil s : good s [] s.
Proof. split; [rewrite app_nil_r; reflexivity|]. split; [intros ? ? []|]. split; [intros ? []|reflexivity]. Qed.
Lemma good_app s t s1 t1 s2 : good s t s1 -> good s1 t1 s2 -> good s (t ++ t1) s2.
Proof.
  intros (A1 & A2 & A3 & A4) (B1 & B2 & B3 & B4). split; [rewrite B1, A1, app_assoc; reflexivity|].
  split; [intros x u I; apply in_app_or in I; destruct I; eauto|].
  split.
  - intros x I. destruct (in_dec cell_dec x (cells t1)) as [I1|N1]; [apply B3, I1|].
    rewrite cells_app in I. apply in_app_or in I. destruct I as [I|I]; [|contradiction].
    rewrite B4 by exact N1. apply A3, I.
  - intros x N. rewrite cells_app in N. rewrite B4, A4; [reflexivity| |]; intros I; apply N, in_or_app; auto.
Qed.

Lemma values fuel : forall s vis c g v, reach src c -> sig_val g v -> pathval src v0 c v ->
  match deliver fuel s vis c g with
  | Done s' _ => exists t, good s t s'
  | Raised _ _ => False
  | OutOfFuel => True
  end.
Proof.
  induction fuel as [|k IH]; intros s vis c g v RC SV PV; [exact I|]. rewrite deliver_S.
  assert (TG : forall d, In d (targets c) -> edge c d) by (intros d; apply targets_edge).
  revert TG. generalize (targets c) as ds. intros ds. revert s vis.
  induction ds as [|d ds IHd]; intros s vis TG; cbn [fold_left].
  - exists []. apply good_nil.
  - assert (ED : edge c d) by (apply TG; left; reflexivity).
    assert (FE : fetch s c g = (s, Ok v)) by (destruct g; cbn in SV; subst; [reflexivity|destruct SV|reflexivity]).
    assert (X : match fwd (deliver k) c g (Done s vis) d with
                | Done s1 _ => exists t1, good s t1 s1 | Raised _ _ => False | OutOfFuel => True end).
    { unfold fwd. rewrite FE.
      match goal with |- match (if ?b then _ else _) with _ => _ end => destruct b end; [exists []; apply good_nil|].
      assert (RD : reach src d) by (eapply rt_trans; [exact RC|apply rt_step, ED]).
      assert (KD : kind_of d = KField).
      { apply F_ok. destruct (reach_plus _ _ RC) as [->|P]; [apply t_step, ED|].
        eapply t_trans; [exact P|apply t_step, ED]. }
      rewrite KD. destruct (accept _ _ _ PV ED) as [w C]. rewrite C.
      assert (PD : pathval src v0 d w) by (eapply pv_step; eassumption).
      pose proof (IH (put (note s d v) d w) (d :: (if fresh g then [] else vis)) d (SRoute w) w RD eq_refl PD) as Y.
      destruct (deliver k _ _ d (SRoute w)) as [s3 v3|e3 s3|]; [|exact Y|exact I].
      destruct Y as [t1 G1].
      exists ((d, v) :: t1). apply (good_app s [(d, v)] (put (note s d v) d w) t1); [|exact G1].
      split; [reflexivity|]. split; [intros x u [[= <- <-]|[]]; exists c; auto|].
      split.
      + intros x [<-|[]]. exists w. cbn. rewrite cell_eqb_refl. auto.
      + intros x N. cbn. rewrite cell_eqb_neq; [reflexivity|]. intros ->. apply N. left. reflexivity. }
    destruct (fwd (deliver k) c g (Done s vis) d) as [s1 v1|e s1|] eqn:E1; [|destruct X|].
    + destruct X as [t1 G1]. specialize (IHd s1 v1 (fun x I => TG x (or_intror I))).
      destruct (fold_left _ ds (Done s1 v1)) as [s' v'|e s'|]; [|exact IHd|exact I].
      destruct IHd as [t2 G2]. exists (t1 ++ t2). eapply good_app; eassumption.
    + rewrite fold_notdone by congruence. exact I.
Qed.
End Fields.

(** a fresh message: one event per route of the source, each a complete
    repetition-free visit of what the route reaches *)
Theorem events_of_message fuel s vis c g s' vis' :
  fresh g = true -> (forall x, plus c x -> kind_of x = KField) ->
  deliver fuel s vis c g = Done s' vis' ->
  exists segs, trace s' = trace s ++ concat segs /\
    Forall2 (fun d seg => NoDup (cells seg) /\ (exists v, hd_error seg = Some (d, v)) /\
                          forall x, In x (cells seg) <-> reach d x) (targets c) segs.
Proof.
  intros FG KF E. destruct fuel as [|k]; [discriminate|]. rewrite deliver_S in E.
  assert (TG : forall d, In d (targets c) -> edge c d) by (intros d; apply targets_edge).
  revert TG E. generalize (targets c) as ds. intros ds. revert s vis.
  induction ds as [|d ds IHd]; intros s vis TG E; cbn [fold_left] in E.
  - injection E as <- <-. exists []. cbn. rewrite app_nil_r. split; [reflexivity|constructor].
  - destruct (fwd (deliver k) c g (Done s vis) d) as [s1 v1|e s1|] eqn:E1;
      try (rewrite fold_notdone in E by congruence; discriminate).
    apply IHd in E; [|intros x I; apply TG; right; exact I]. destruct E as (segs & T2 & F2).
    assert (ED : edge c d) by (apply TG; left; reflexivity).
    destruct (fwd_post k (deliver k) c g s vis d s1 v1 (deliver_post k) E1) as [tt [P1 P2 _ _ P5 _ _ _]].
    assert (SEG : exists v t, trace s1 = trace s ++ (d, v) :: t /\ NoDup (cells ((d, v) :: t))).
    { unfold fwd in E1. destruct (fetch s c g) as [s2 [v|e]] eqn:FE; [|discriminate].
      destruct (fetch_facts _ _ _ _ _ FE) as [FT _]. rewrite FG in E1. cbn [mem existsb] in E1.
      change (mem d []) with false in E1. cbv iota in E1.
      rewrite (KF d) in E1 by (apply t_step, ED).
      assert (KD : forall x, plus d x -> kind_of x = KField).
      { intros x P. apply KF. eapply plus_cons; [exact ED|apply plus_reach, P]. }
      assert (ONE : forall sa u ev2, trace sa = trace s ++ [(d, v)] ->
         deliver k sa [d] d (SRoute u) = Done s1 ev2 ->
         exists v t, trace s1 = trace s ++ (d, v) :: t /\ NoDup (cells ((d, v) :: t))).
      { intros sa u ev2 TA EA. destruct (event_once _ _ _ _ _ _ _ KD EA) as (t1 & T1 & V1 & N1).
        exists v, t1. split; [rewrite T1, TA, <- app_assoc; reflexivity|].
        assert (N : NoDup ev2) by (apply N1; constructor; [intros []|constructor]).
        rewrite V1 in N. apply NoDup_rev in N. rewrite rev_app_distr, rev_involutive in N. exact N. }
      destruct (coerce d v) as [u|e] eqn:C.
      - match type of E1 with match ?X with _ => _ end = _ => destruct X as [s3 v3| |] eqn:E3 end; try discriminate.
        injection E1 as -> _. eapply ONE; [|exact E3]. cbn. rewrite FT. reflexivity.
      - destruct (swallowed e); [|discriminate].
        match type of E1 with match ?X with _ => _ end = _ => destruct X as [s3 v3| |] eqn:E3 end; try discriminate.
        injection E1 as -> _. eapply ONE; [|exact E3]. cbn. rewrite FT. reflexivity. }
    destruct SEG as (v & t & T & N).
    assert (TT : tt = (d, v) :: t) by (apply (app_inv_head (trace s)); congruence).
    exists (((d, v) :: t) :: segs). split; [rewrite T2, T, <- app_assoc; reflexivity|].
    constructor; [|exact F2]. split; [exact N|]. split; [exists v; reflexivity|]. rewrite <- TT. intros x. split.
    + intros I. destruct (P2 x I) as (y & [<-|[]] & R). exact R.
    + intros R. apply (proj2 (P5 FG) d x); [left; reflexivity|exact R].
Qed.

(** whatever happens, a field only ever holds what it held before, its coerced
    default or a value its own coercion produced *)
Definition legit (s s' : state V) : Prop := forall x, kind_of x = KField ->
  store s' x = store s x \/
  (exists u w, coerce x u = Ok w /\ store s' x = Some w) \/
  (exists w, deflt x = Ok w /\ store s' x = Some w).
Lemma legit_refl s : legit s s.
Proof. intros x _. left. reflexivity. Qed.
Lemma legit_trans s s1 s2 : legit s s1 -> legit s1 s2 -> legit s s2.
Proof. intros A B x K. destruct (B x K) as [E|E]; [rewrite E; apply A, K|right; exact E]. Qed.
Definition out_legit (s : state V) (o : outcome V) : Prop :=
  match o with Done s' _ => legit s s' | Raised _ s' => legit s s' | OutOfFuel => True end.
Lemma out_legit_trans s s1 o : legit s s1 -> out_legit s1 o -> out_legit s o.
Proof. intros A. destruct o; cbn; try (intros; eapply legit_trans; eassumption). auto. Qed.
Lemma deliver_legit fuel : forall s vis c g, out_legit s (deliver fuel s vis c g).
Proof.
  induction fuel as [|k IH]; intros s vis c g; [exact I|]. rewrite deliver_S.
  generalize (targets c) as ds. intros ds. revert s vis.
  induction ds as [|d ds IHd]; intros s vis; cbn [fold_left]; [apply legit_refl|].
  assert (X : out_legit s (fwd (deliver k) c g (Done s vis) d)).
  { unfold fwd. destruct (fetch s c g) as [s1 r] eqn:F.
    assert (L1 : legit s s1).
    { destruct g as [w| |w]; cbn in F; try (injection F as <- <-; apply legit_refl).
      destruct (store s c); [injection F as <- <-; apply legit_refl|].
      destruct (deflt c) as [w|e] eqn:D; injection F as <- <-; [|apply legit_refl].
      intros x _. cbn. destruct (cell_eqb x c) eqn:E; [|left; reflexivity].
      apply cell_eqb_spec in E. subst. right. right. exists w. auto. }
    destruct r as [v|e]; [|exact L1].
    match goal with |- out_legit _ (if ?b then _ else _) => destruct b end; [exact L1|].
    assert (WR : forall o, out_legit s o ->
      out_legit s match o with Done s' ev2 => Done s' (if fresh g then vis else ev2) | o => o end)
      by (intros []; auto).
    apply WR. clear WR. destruct (kind_of d) eqn:K.
    - destruct (coerce d v) as [w|e] eqn:C.
      + eapply out_legit_trans; [|apply IH]. eapply legit_trans; [exact L1|].
        intros x _. cbn. destruct (cell_eqb x d) eqn:E; [|left; reflexivity].
        apply cell_eqb_spec in E. subst. right. left. exists v, w. auto.
      + destruct (swallowed e); [|exact L1]. eapply out_legit_trans; [|apply IH]. exact L1.
    - assert (L2 : legit s (put (note s1 d v) d v)).
      { eapply legit_trans; [exact L1|]. intros x Kx. cbn. destruct (cell_eqb x d) eqn:E; [|left; reflexivity].
        apply cell_eqb_spec in E. subst. congruence. }
      pose proof (out_legit_trans _ _ _ L2 (IH (put (note s1 d v) d v) [] d (SSet v))) as Y.
      destruct (deliver k _ [] d (SSet v)) as [s3 v3|e3 s3|]; [|exact Y|exact I].
      eapply out_legit_trans; [exact Y|apply IH]. }
  destruct (fwd (deliver k) c g (Done s vis) d) as [s1 v1|e s1|].
  - eapply out_legit_trans; [exact X|apply IHd].
  - rewrite fold_notdone by congruence. exact X.
  - rewrite fold_notdone by congruence. exact I.
Qed.
End R.
