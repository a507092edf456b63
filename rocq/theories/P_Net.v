(** C81-C84: the routes of a scene over time. *)
From Verif Require Import Base Text PyDict Route_Model Route_Spec Route_Proofs P_Route Net_Model Net_Spec Net_Proofs.
From Coq Require Import Relations.
Local Open Scope nat_scope.

Lemma remove_one_end l x : ~ In x l -> remove_one (l ++ [x]) x = l.
Proof.
  induction l as [|z l IH]; intros N; cbn [app remove_one]; [rewrite recv_eqb_refl; reflexivity|].
  destruct (recv_eqb z x) eqn:E; [apply recv_eqb_spec in E; destruct N; left; exact E|]. rewrite IH; [reflexivity|]. intros I. apply N. right. exact I.
Qed.

Section Claims.
Variable port : nat -> text -> option nat.
Notation comes_from := (comes_from port).
Notation goes_to := (goes_to port).
Notation step := (Net_Model.step port).
Notation run := (Net_Model.run port).
Notation addRoute4 := (Net_Model.addRoute4 port).
Notation addRoute3 := (Net_Model.addRoute3 port).
Notation leads := (leads port).
Notation reaches := (reaches port).

(** ** C81: addRoute *)
(** C81.  addRoute( a, sf, b, df ) appends one new ROUTE to scene.routes and
    returns it; it has the given ends, names standing for the nodes of that name.
    The routes and connections there were stay as they are; one connection is
    added, from the source field, if there is one. *)
Theorem C81_adds_the_route : forall os a sf b df, let n := run net0 os in
  let '(n', r) := addRoute4 n a sf b df in
  n_routes n' = n_routes n ++ [Route r] /\ ~ kept n (Route r) /\
  n_obj n' r = {| r_src := resolve n a; r_sf := sf; r_dst := resolve n b; r_df := df |} /\
  (forall q, q <> r -> n_obj n' q = n_obj n q) /\ n_defs n' = n_defs n /\ n_held n' = n_held n /\
  (forall c, comes_from (n_obj n' r) c -> n_conn n' = n_conn n ++ [(c, Route r)]) /\
  ((forall c, ~ comes_from (n_obj n' r) c) -> n_conn n' = n_conn n).
Proof.
  intros os a sf b df n. pose proof (wf_run port os net0 wf0) as W. fold n in W. rewrite (add4_eq port n a sf b df W). cbn. rewrite Nat.eqb_refl.
  split; [reflexivity|]. split; [intros K; apply (w_known n W) in K; lia|]. split; [reflexivity|].
  split; [intros q N; apply Nat.eqb_neq in N; rewrite N; reflexivity|]. split; [reflexivity|]. split; [reflexivity|]. split.
  - intros c C. apply (bound_spec port) in C. rewrite C. reflexivity.
  - intros N. destruct (bound port _) as [c|] eqn:B; [|apply app_nil_r]. destruct (N c). apply (bound_spec port). exact B.
Qed.
(** C81.  It makes no difference whether ends are given as nodes or names, or
    whether a ROUTE object is made first and handed over. *)
Theorem C81_forms_agree : forall os a sf b df x y, let n := run net0 os in
  resolve n a = Some x -> resolve n b = Some y ->
  addRoute4 n a sf b df = addRoute4 n (ENode x) sf (ENode y) df /\
  run n [Make {| r_src := Some x; r_sf := sf; r_dst := Some y; r_df := df |}; AddObj (n_next n); Release (Route (n_next n))]
    = fst (addRoute4 n (ENode x) sf (ENode y) df).
Proof.
  intros os a sf b df x y n A B. pose proof (wf_run port os net0 wf0) as W. fold n in W. split.
  - unfold Net_Model.addRoute4. rewrite A, B. reflexivity.
  - set (o := {| r_src := Some x |}). change (run n _) with (step (step (step n (Make o)) (AddObj (n_next n))) (Release (Route (n_next n)))).
    cbn [Net_Model.step]. rewrite (new_route_eq port n o W), (add4_eq port n _ sf _ df W). cbn [resolve]. fold o.
    assert (L : alive {| n_defs := n_defs n; n_next := S (n_next n); n_obj := fun k => if Nat.eqb k (n_next n) then o else n_obj n k;
       n_routes := n_routes n; n_held := n_held n ++ [Route (n_next n)];
       n_conn := n_conn n ++ match bound port o with Some c => [(c, Route (n_next n))] | None => [] end |} (Route (n_next n)) = true).
    { apply alive_kept. right. cbn. apply in_or_app. right. left. reflexivity. }
    rewrite L. unfold append, with_routes, with_held. cbn -[collect].
    assert (R : remove_one (n_held n ++ [Route (n_next n)]) (Route (n_next n)) = n_held n).
    { apply remove_one_end. intros I. pose proof (w_known n W (n_next n) (or_intror I)). lia. }
    rewrite R. pose proof (wf_step port n (Add4 (ENode x) sf (ENode y) df) W) as W4. cbn [Net_Model.step] in W4. rewrite (add4_eq port n _ sf _ df W) in W4. cbn [resolve fst] in W4. fold o in W4.
    exact (collect_id _ W4).
Qed.
(** C81.  SceneGraph( defNames=..., routes=... ) has these routes in this order. *)
Theorem C81_constructor : forall defs rs, NoDup (map fst defs) ->
  let n := scene_with port defs rs in
  n_routes n = map Route (seq 0 (length rs)) /\ n_defs n = defs /\ n_held n = [] /\
  forall i a sf b df, nth_error rs i = Some (a, sf, (b, df)) ->
    n_obj n i = {| r_src := resolve n a; r_sf := sf; r_dst := resolve n b; r_df := df |}.
Proof.
  intros defs rs _. unfold scene_with.
  set (n0 := {| n_defs := defs; n_next := 0; n_obj := fun _ => rnull; n_routes := []; n_held := []; n_conn := [] |}).
  assert (W : wf n0) by (split; cbn; [intros r [[]|[]]|intros c x []|constructor]).
  assert (E0 : n_routes n0 = map Route (seq 0 (n_next n0))) by reflexivity. assert (D : n_defs n0 = defs) by reflexivity. assert (H : n_held n0 = []) by reflexivity.
  enough (G : let n := fold_left (fun n q => let '(a, sf, (b, df)) := q in fst (addRoute4 n a sf b df)) rs n0 in
    n_next n = n_next n0 + length rs /\ n_routes n = map Route (seq 0 (n_next n)) /\ n_defs n = defs /\ n_held n = [] /\ (forall i, i < n_next n0 -> n_obj n i = n_obj n0 i) /\
    forall i a sf b df, nth_error rs i = Some (a, sf, (b, df)) -> n_obj n (n_next n0 + i) = {| r_src := resolve n a; r_sf := sf; r_dst := resolve n b; r_df := df |}).
  { cbn zeta in G. destruct G as (G1 & G2 & G3 & G4 & _ & G5). cbn [n_next n0 Nat.add] in *. rewrite G1 in G2. auto. }
  clearbody n0. revert n0 W E0 D H. induction rs as [|[[a sf] [b df]] rs IH]; intros n0 W E0 D H; cbn zeta; cbn [fold_left length].
  - rewrite Nat.add_0_r. repeat split; auto. intros [|i]; discriminate.
  - pose proof (wf_step port n0 (Add4 a sf b df) W) as W1. cbn [Net_Model.step] in W1.
    pose proof (add4_eq port n0 a sf b df W) as Q. cbn zeta in Q. set (n1 := fst (addRoute4 n0 a sf b df)) in *.
    assert (Ex : n_next n1 = S (n_next n0)) by (unfold n1; rewrite Q; reflexivity).
    specialize (IH n1 W1). cbn zeta in IH. destruct IH as (G1 & G2 & G3 & G4 & G6 & G5).
    + unfold n1. rewrite Q. cbn [fst n_routes n_next]. rewrite E0, seq_S, map_app. reflexivity.
    + unfold n1. rewrite Q. exact D.
    + unfold n1. rewrite Q. exact H.
    + rewrite Ex in *. split; [rewrite G1; lia|]. split; [exact G2|]. split; [exact G3|]. split; [exact G4|]. split.
      * intros i L. rewrite G6 by lia. unfold n1. rewrite Q. cbn. destruct (Nat.eqb_spec i (n_next n0)); [lia|reflexivity].
      * intros [|i] a' sf' b' df' N.
        -- cbn in N. injection N as <- <- <- <-. rewrite Nat.add_0_r, G6 by lia.
           assert (O1 : n_obj n1 (n_next n0) = {| r_src := resolve n0 a; r_sf := sf; r_dst := resolve n0 b; r_df := df |}).
           { unfold n1. rewrite Q. cbn. rewrite Nat.eqb_refl. reflexivity. }
           rewrite O1. unfold resolve. rewrite G3, D. reflexivity.
        -- cbn in N. replace (n_next n0 + S i) with (S (n_next n0) + i) by lia. exact (G5 i a' sf' b' df' N).
Qed.
(** C81 (refuted): a name that is not there is accepted without error, and the
    route leads from or to nowhere -- for good, also when the name is registered
    later. *)
Theorem C81_unknown_name_reported_refuted : forall os t sf b df k later, let n := run net0 os in
  dget text_eqb (n_defs n) t = None -> Forall keeps_sources later ->
  let '(n', r) := addRoute4 n (EName t) sf b df in
  n_routes n' = n_routes n ++ [Route r] /\
  forall c, ~ In (c, Route r) (n_conn (run n' (Register t k :: later))).
Proof.
  intros os t sf b df k later n D F. pose proof (wf_run port os net0 wf0) as W. fold n in W.
  pose proof (wf_step port n (Add4 (EName t) sf b df) W) as W1. cbn [Net_Model.step] in W1.
  rewrite (add4_eq port n (EName t) sf b df W) in *. cbn [fst resolve] in *. rewrite D in *. cbn [bound r_src] in *. rewrite app_nil_r in *.
  set (n1 := {| n_defs := n_defs n |}) in *.
  split; [reflexivity|]. intros c.
  assert (G : forall later m, wf m -> Forall keeps_sources later -> n_next n < n_next m -> r_src (n_obj m (n_next n)) = None -> (forall c, ~ In (c, Route (n_next n)) (n_conn m)) ->
     forall c, ~ In (c, Route (n_next n)) (n_conn (run m later))).
  { clear. induction later as [|o later IH]; intros m W F L S N c; [apply N|]. inversion F as [|? ? KS F']; subst. change (run m (o :: later)) with (run (step m o) later).
    enough (X : n_next n < n_next (step m o) /\ r_src (n_obj (step m o) (n_next n)) = None /\ forall c, ~ In (c, Route (n_next n)) (n_conn (step m o)))
      by (destruct X as (X1 & X2 & X3); apply IH; [apply wf_step; exact W|exact F'|exact X1|exact X2|exact X3]).
    clear IH.
    destruct o as [t k|a sf b df|o|r|a sf f|i|[r|f]|x|r d|r t|r s|r t|r]; cbn [Net_Model.step]; try (destruct KS; fail); try destruct (alive m (Route r)); try (repeat split; [exact L|exact S|exact N]; fail).
    - rewrite (add4_eq port m _ _ _ _ W). cbn. split; [lia|]. split; [destruct (Nat.eqb_spec (n_next n) (n_next m)); [lia|exact S]|].
      intros c'. rewrite in_add_conn. intros [I|[[= E] _]]; [exact (N c' I)|lia].
    - rewrite (new_route_eq port m _ W). cbn. split; [lia|]. split; [destruct (Nat.eqb_spec (n_next n) (n_next m)); [lia|exact S]|].
      intros c'. rewrite in_add_conn. intros [I|[[= E] _]]; [exact (N c' I)|lia].
    - unfold Net_Model.addRoute3. destruct (resolve m a) as [s|]; [|auto]. destruct (port s sf) as [p|]; [|auto]. cbn -[connect]. split; [exact L|]. split; [exact S|].
      intros c'. rewrite in_connect. intros [I|[=]]. exact (N c' I).
    - cbn. split; [exact L|]. split; [exact S|]. intros c'. rewrite filter_In. intros [I _]. exact (N c' I).
    - cbn. split; [exact L|]. split; [exact S|]. intros c'. rewrite filter_In. intros [I _]. exact (N c' I).
    - cbn. split; [exact L|]. split; [|exact N]. destruct (Nat.eqb_spec (n_next n) r); [subst|]; exact S.
    - cbn. split; [exact L|]. split; [|exact N]. destruct (Nat.eqb_spec (n_next n) r); [subst|]; exact S.
    - rewrite bind_conn. cbn -[connect]. split; [exact L|]. split; [exact S|].
      intros c'. destruct (bound port (n_obj m r)) as [d|] eqn:B; [|exact (N c')]. rewrite in_connect. intros [I|[= -> E]]; [exact (N c' I)|].
      rewrite <- E in B. unfold bound in B. rewrite S in B. discriminate. }
  apply (G later (step n1 (Register t k))); [apply wf_step; exact W1|exact F| | |].
  - cbn. lia.
  - cbn. rewrite Nat.eqb_refl. reflexivity.
  - intros c' I. cbn in I. apply (fresh_conn n c' (n_next n) W (le_n _) I).
Qed.

(** ** C82: which routes are in effect *)
(** C82.  At every moment the connections are exactly those of the ROUTEs that the
    scene (or the user) keeps, each from its own source field, each once, whatever
    was added, removed and retargeted before. *)
Theorem C82_routes_in_effect : forall os, Forall keeps_sources os -> let n := run net0 os in
  (forall c r, In (c, Route r) (n_conn n) <-> kept n (Route r) /\ comes_from (n_obj n r) c) /\ NoDup (n_conn n).
Proof.
  intros os F n. split; [exact (exact_run port os net0 wf0 (exact0 port) F)|exact (w_nodup n (wf_run port os net0 wf0))].
Qed.
(** C82.  A ROUTE nobody but the scene refers to ends with its removal. *)
Theorem C82_removed_route_ends : forall os i r, Forall keeps_sources os -> let n := run net0 os in
  ~ In (Route r) (n_held n) -> ~ In (Route r) (remove_nth (n_routes n) i) ->
  forall c, ~ In (c, Route r) (n_conn (step n (Pop i))).
Proof.
  intros os i r F n H N c I. cbn in I. apply filter_In in I. destruct I as [_ A]. apply alive_kept in A. destruct A; auto.
Qed.

Section Cascade.
Context {V : Type}.
Variable kind_of : cell -> kind.
Variable coerce : cell -> V -> res V.
Variable deflt : cell -> res V.
Variable none : V.
Notation ndeliver := (ndeliver port kind_of coerce deflt none).
Notation nset := (nset port kind_of coerce deflt none).
Notation ndel := (ndel port kind_of coerce deflt none).

Definition dest (o : robj) : option cell := bound port {| r_src := r_dst o; r_sf := r_df o; r_dst := None; r_df := [] |}.
Lemma dest_spec o c : dest o = Some c <-> goes_to o c.
Proof. unfold dest. rewrite bound_spec. reflexivity. Qed.
(** every ROUTE kept has a destination *)
Definition complete (n : net) : Prop := forall r, kept n (Route r) -> exists d, goes_to (n_obj n r) d.

Definition dest1 (n : net) (x : recv) : list cell := match x with Route r => match dest (n_obj n r) with Some d => [d] | None => [] end | Func _ => [] end.
Definition conns (n : net) : list (cell * cell) := flat_map (fun p => map (pair (fst p)) (dest1 n (snd p))) (n_conn n).
Lemma receivers_targets n c (g : signal V) : flat_map (dest1 n) (receivers n c g) = targets (conns n) c.
Proof.
  unfold receivers, targets, conns. induction (n_conn n) as [|[a x] l IH]; [reflexivity|]. cbn [filter flat_map fst snd].
  rewrite filter_app, map_app, <- IH. destruct (cell_eqb a c) eqn:E.
  - cbn [map snd filter]. destruct x as [r|f]; cbn [dest1].
    + cbn [flat_map dest1]. f_equal. destruct (dest (n_obj n r)); cbn; [rewrite E|]; reflexivity.
    + cbn [map filter app]. destruct g; cbn [flat_map dest1 app]; reflexivity.
  - destruct x as [r|f]; cbn [dest1]; [|reflexivity]. destruct (dest (n_obj n r)); cbn; [rewrite E|]; reflexivity.
Qed.

(** one receiver, with the recursive call abstracted *)
Definition nfwd (n : net) (rec : nstate V -> list cell -> cell -> signal V -> noutcome V)
    (c : cell) (g : signal V) (o : noutcome V) (x : recv) : noutcome V :=
  match o with
  | NDone s vis =>
    match x with
    | Func f => NDone (called s f c (sent_value g)) vis
    | Route r =>
      match fetch deflt (base s) c g with
      | (b, Exc e) => NRaised e (on_base s b)
      | (b, Ok v) =>
        let s := on_base s b in
        match r_dst (n_obj n r), r_df (n_obj n r) with
        | Some d, (_ :: _) as df =>
          match port d df with
          | None => NRaised AttributeError s
          | Some p =>
            let d := (d, p) in
            let ev := if fresh g then [] else vis in
            if mem d ev then NDone s vis
            else
              let ev1 := d :: ev in
              let s := on_base s (note (base s) d v) in
              let r :=
                match kind_of d with
                | KField =>
                    match coerce d v with
                    | Ok w => rec (on_base s (put (base s) d w)) ev1 d (SRoute w)
                    | Exc e => if swallowed e then rec s ev1 d (SRoute v) else NRaised e s
                    end
                | KEvent =>
                    match rec (on_base s (put (base s) d v)) [] d (SSet v) with
                    | NDone s' _ => rec s' ev1 d (SRoute none)
                    | o => o
                    end
                end in
              match r with
              | NDone s' ev2 => NDone s' (if fresh g then vis else ev2)
              | o => o
              end
          end
        | _, _ => NDone s vis
        end
      end
    end
  | o => o
  end.
Lemma ndeliver_S k n s vis c g : ndeliver (S k) n s vis c g = fold_left (nfwd n (ndeliver k n) c g) (receivers n c g) (NDone s vis).
Proof. reflexivity. Qed.

Definition sim (o : noutcome V) (o' : outcome V) : Prop :=
  match o, o' with
  | NDone s v, Done b v' => base s = b /\ v = v'
  | NRaised e s, Raised e' b => e = e' /\ base s = b
  | NOutOfFuel, OutOfFuel => True
  | _, _ => False
  end.
Notation deliver n := (deliver kind_of coerce deflt none (conns n)).
Lemma ndeliver_sim n : (forall c r, In (c, Route r) (n_conn n) -> exists d, goes_to (n_obj n r) d) ->
  forall fuel s vis c g, sim (ndeliver fuel n s vis c g) (deliver n fuel (base s) vis c g).
Proof.
  intros Cm. induction fuel as [|k IH]; intros s vis c g; [exact Logic.I|].
  rewrite ndeliver_S, deliver_S, <- (receivers_targets n c g).
  assert (R : forall r, In (Route r) (receivers n c g) -> exists d, goes_to (n_obj n r) d).
  { intros r I. unfold receivers in I. apply filter_In in I. destruct I as [I _]. apply in_map_iff in I. destruct I as ([a x] & E & I). cbn in E. subst x.
    apply filter_In in I. exact (Cm a r (proj1 I)). }
  assert (S0 : sim (NDone s vis) (Done (base s) vis)) by (split; reflexivity).
  revert R S0. generalize (NDone s vis) as o. generalize (Done (base s) vis) as o'. generalize (receivers n c g) as l.
  induction l as [|x l IHl]; intros o' o R S0; [exact S0|]. cbn [flat_map fold_left].
  assert (Rl : forall r, In (Route r) l -> exists d, goes_to (n_obj n r) d) by (intros r I; apply R; right; exact I).
  rewrite fold_left_app. apply IHl; [exact Rl|]. clear IHl Rl.
  destruct o as [s0 v0|e0 s0|], o' as [s1 v1|e1 s1|]; try (destruct S0; fail).
  2:{ destruct x as [r|f]; cbn [dest1]; [|exact S0]. destruct (dest (n_obj n r)); exact S0. }
  2:{ destruct x as [r|f]; cbn [dest1]; [|exact S0]. destruct (dest (n_obj n r)); exact S0. }
  destruct S0 as [<- <-]. destruct x as [r|f]; [|split; reflexivity].
  destruct (R r (or_introl eq_refl)) as (d & G). cbn [dest1]. pose proof (proj2 (dest_spec _ _) G) as D. rewrite D. cbn [fold_left].
  destruct G as (G1 & G2 & G3). unfold nfwd, fwd. destruct (fetch deflt (base s0) c g) as [b [v|e]]; [|split; reflexivity]. rewrite G1.
  destruct (r_df (n_obj n r)) as [|a0 t0]; [destruct (G2 eq_refl)|]. rewrite G3. destruct d as [dn dp]. cbn [fst snd]. cbn zeta.
  destruct (mem (dn, dp) (if fresh g then [] else v0)); [split; reflexivity|]. cbn [base on_base].
  assert (X : forall a a', sim a a' -> sim match a with NDone s' ev2 => NDone s' (if fresh g then v0 else ev2) | o => o end
                                         match a' with Done s' ev2 => Done s' (if fresh g then v0 else ev2) | o => o end).
  { intros [] []; cbn; try tauto. intros [-> ->]. auto. }
  apply X. destruct (kind_of (dn, dp)).
  - destruct (coerce (dn, dp) v) as [w|e]; [apply IH|]. destruct (swallowed e); [apply IH|split; reflexivity].
  - match goal with |- context [ndeliver k n ?s1 [] ?c1 (SSet v)] => pose proof (IH s1 [] c1 (SSet v)) as Y; destruct (ndeliver k n s1 [] c1 (SSet v)) as [s2 v2|e2 s2|] end;
      cbn [base on_base] in Y; destruct (Route_Model.deliver _ _ _ _ _ k _ [] (dn, dp) (SSet v)) as [s3 v3|e3 s3|]; try (destruct Y; fail); [|exact Y|exact Logic.I].
    destruct Y as [<- _]. apply IH.
Qed.

Definition links (n : net) : list link := map (fun p => LRoute (fst p) (snd p)) (conns n).
Lemma links_conns n : connections (links n) = conns n.
Proof. unfold links, connections. induction (conns n) as [|[a b] l IH]; [reflexivity|]. cbn [map flat_map conns1 fst snd app]. rewrite IH. reflexivity. Qed.
Lemma links_proper n : proper (links n).
Proof. intros a b I. unfold links in I. apply in_map_iff in I. destruct I as (p & E & _). discriminate. Qed.
Lemma links_leads n : exact port n -> forall a b, linked (links n) a b <-> leads n a b.
Proof.
  intros E a b. unfold linked, links. rewrite !in_map_iff.
  assert (X : forall P : cell * cell -> Prop, (exists p, LRoute (fst p) (snd p) = LIS a b /\ P p) -> False) by (intros P (p & [=] & _)).
  split.
  - intros [(p & Q & I)|[(p & [=] & _)|(p & [=] & _)]]. injection Q as <- <-. unfold conns in I. apply in_flat_map in I. destruct I as ([c x] & I & J).
    apply in_map_iff in J. destruct J as (d & <- & J). cbn [fst snd] in *. destruct x as [r|f]; [|destruct J]. cbn [dest1] in J.
    destruct (dest (n_obj n r)) as [d'|] eqn:D; [|destruct J]. destruct J as [->|[]]. apply dest_spec in D. apply E in I. exists r. tauto.
  - intros (r & K & C & G). left. exists (a, b). split; [reflexivity|]. unfold conns. apply in_flat_map. exists (a, Route r).
    split; [apply E; auto|]. cbn [fst snd dest1]. apply dest_spec in G. rewrite G. left. reflexivity.
Qed.
Lemma links_reaches n : exact port n -> forall a b, downstream (links n) a b <-> reaches n a b.
Proof. intros E a b. split; apply ct_mono; intros x y; apply (links_leads n E). Qed.
Lemma conns_length n : length (conns n) <= length (n_conn n).
Proof.
  unfold conns. induction (n_conn n) as [|[c x] l IH]; [apply le_n|]. cbn [flat_map fst snd length]. rewrite app_length, map_length.
  assert (length (dest1 n x) <= 1) by (destruct x as [r|f]; cbn [dest1]; [destruct (dest (n_obj n r)); cbn; lia|cbn; lia]). lia.
Qed.
Lemma nset_sim n : (forall c r, In (c, Route r) (n_conn n) -> exists d, goes_to (n_obj n r) d) ->
  forall fuel s c v, sim (nset fuel n s c v) (user_set kind_of coerce deflt none (connections (links n)) fuel (base s) c v).
Proof.
  intros Cm fuel s c v. rewrite links_conns. unfold Net_Model.nset, user_set. destruct (kind_of c).
  - destruct (coerce c v) as [w|e]; [|split; reflexivity]. apply (ndeliver_sim n Cm fuel (on_base s (put (base s) c w))).
  - apply (ndeliver_sim n Cm fuel (on_base s (put (base s) c v))).
Qed.
Lemma complete_conn n : exact port n -> complete n -> forall c r, In (c, Route r) (n_conn n) -> exists d, goes_to (n_obj n r) d.
Proof. intros E Cm c r I. apply E in I. apply Cm. exact (proj1 I). Qed.

(** C82.  A value assigned to a field goes along the ROUTEs the scene has at that
    moment: when all of them have a destination and the fields take the value as it
    is, the assignment completes, every field the ROUTEs reach holds the value, and
    no other field changes. *)
Theorem C82_value_goes_along_routes : forall os s c v fuel, Forall keeps_sources os -> let n := run net0 os in
  complete n -> (forall x, kind_of x = KField) -> coerce c v = Ok v -> (forall x, reaches n c x -> coerce x v = Ok v) ->
  length (n_conn n) < fuel ->
  exists s' vis', nset fuel n s c v = NDone s' vis' /\
    forall x, (reaches n c x \/ x = c -> store (base s') x = Some v) /\
              (~ reaches n c x -> x <> c -> store (base s') x = store (base s) x).
Proof.
  intros os s c v fuel F n Cm K Cc Cr L. pose proof (exact_run port os net0 wf0 (exact0 port) F) as E. fold n in E.
  pose proof (links_reaches n E) as LR.
  destruct (C33_same_value_everywhere kind_of coerce deflt none (links n) (base s) c v fuel) as (b & vis' & U & H); auto.
  - apply links_proper.
  - intros x X. apply Cr. apply LR. exact X.
  - rewrite links_conns. pose proof (conns_length n). lia.
  - pose proof (nset_sim n (complete_conn n E Cm) fuel s c v) as S. rewrite U in S. destruct (nset fuel n s c v) as [s' v'|e s'|]; try (destruct S; fail). destruct S as [<- <-].
    exists s', v'. split; [reflexivity|]. intros x. rewrite <- (LR c x). apply H.
Qed.
(** C82.  With any mix of fields and events, and values that are converted or
    rejected on the way, an assignment that completes hands values to exactly what
    the ROUTEs reach. *)
Theorem C82_reaches_exactly : forall os s c v fuel s' vis', Forall keeps_sources os -> let n := run net0 os in
  complete n -> nset fuel n s c v = NDone s' vis' ->
  exists t, trace (base s') = trace (base s) ++ t /\ (forall x, 1 <= times x t <-> reaches n c x) /\
    (forall x, ~ reaches n c x -> x <> c -> store (base s') x = store (base s) x).
Proof.
  intros os s c v fuel s' vis' F n Cm U. pose proof (exact_run port os net0 wf0 (exact0 port) F) as E. fold n in E.
  pose proof (nset_sim n (complete_conn n E Cm) fuel s c v) as S. rewrite U in S.
  destruct (user_set kind_of coerce deflt none (connections (links n)) fuel (base s) c v) as [b v'| |] eqn:Q; try (destruct S; fail). destruct S as [<- <-].
  destruct (C34_reaches_exactly kind_of coerce deflt none (links n) fuel (base s) c v (base s') vis' (links_proper n) Q) as (t & T & H1 & H2).
  exists t. split; [exact T|]. split; intros x; rewrite <- (links_reaches n E c x); auto.
Qed.
(** C82.  Between ordinary fields every assignment and deletion ends. *)
Theorem C82_ends : forall os s c v fuel, Forall keeps_sources os -> let n := run net0 os in
  complete n -> (forall x, kind_of x = KField) -> length (n_conn n) < fuel ->
  nset fuel n s c v <> NOutOfFuel /\ ndel fuel n s c <> NOutOfFuel.
Proof.
  intros os s c v fuel F n Cm K L. pose proof (exact_run port os net0 wf0 (exact0 port) F) as E. fold n in E. pose proof (complete_conn n E Cm) as Cc.
  destruct (C32_cascade_terminates kind_of coerce deflt none (links n) (base s) c v fuel K) as [T1 T2]; [rewrite links_conns; pose proof (conns_length n); lia|]. split; intros X.
  - pose proof (nset_sim n Cc fuel s c v) as S. rewrite X in S. destruct (user_set _ _ _ _ _ fuel (base s) c v); try (destruct S; fail). apply T1. reflexivity.
  - unfold Net_Model.ndel in X. unfold user_del in T2. destruct (store (base s) c); [|discriminate]. rewrite links_conns in T2.
    match type of X with ndeliver fuel n ?s0 [] c SDel = _ => pose proof (ndeliver_sim n Cc fuel s0 [] c SDel) as S end. rewrite X in S. cbn [base on_base] in S.
    match type of T2 with ?o <> _ => destruct o end; try (destruct S; fail). apply T2. reflexivity.
Qed.
(** C82 (refuted for changed sources): a ROUTE that is given another source stays
    connected to the old one and not to the new one. *)
Theorem C82_new_source_refuted : forall os r s a, Forall keeps_sources os -> let n := run net0 os in
  kept n (Route r) -> comes_from (n_obj n r) a -> let n' := step n (SetSrc r s) in
  In (a, Route r) (n_conn n') /\ forall a', comes_from (n_obj n' r) a' -> a' <> a -> ~ In (a', Route r) (n_conn n').
Proof.
  intros os r s a F n K C n'. pose proof (exact_run port os net0 wf0 (exact0 port) F) as E. fold n in E.
  assert (Q : n_conn n' = n_conn n) by (unfold n'; cbn; destruct (alive n (Route r)); reflexivity). rewrite Q. split; [apply E; auto|].
  intros a' _ N I. apply E in I. destruct I as [_ C']. apply bound_spec in C. apply bound_spec in C'. apply N. congruence.
Qed.

(** ** C83: functions given to addRoute *)
Definition functions (l : list recv) : list nat := flat_map (fun x => match x with Func f => [f] | Route _ => [] end) l.
Definition calls_of (c : cell) (o : option V) (l : list recv) : list (nat * cell * option V) := map (fun f => (f, c, o)) (functions l).
Lemma ndeliver_calls n : (forall x, kind_of x = KField) -> forall fuel s vis c g s' vis', ndeliver fuel n s vis c g = NDone s' vis' ->
  calls s' = calls s ++ calls_of c (sent_value g) (receivers n c g).
Proof.
  intros K. induction fuel as [|k IH]; intros s vis c g s' vis' H; [discriminate|]. rewrite ndeliver_S in H.
  assert (IHr : forall s vis c w s' vis', ndeliver k n s vis c (SRoute w) = NDone s' vis' -> calls s' = calls s).
  { intros s0 vis0 c0 w s1 vis1 H0. rewrite (IH _ _ _ _ _ _ H0). unfold calls_of, receivers, functions.
    induction (map snd (filter (fun p => cell_eqb (fst p) c0) (n_conn n))) as [|[r|f] l IHl]; [apply app_nil_r| |]; cbn [filter flat_map app]; exact IHl. }
  clear IH. revert s vis H. induction (receivers n c g) as [|x l IHl]; intros s vis H; cbn [fold_left] in H.
  - injection H as <- <-. rewrite app_nil_r. reflexivity.
  - destruct (nfwd n (ndeliver k n) c g (NDone s vis) x) as [s1 v1|e1 s1|] eqn:Q.
    2,3: exfalso; clear -H; induction l as [|y l IHl]; [discriminate|exact (IHl H)].
    rewrite (IHl _ _ H). clear IHl H. unfold nfwd in Q. destruct x as [r|f].
    + unfold calls_of. cbn [functions flat_map app]. f_equal.
      destruct (fetch deflt (base s) c g) as [b [v|e]]; [|discriminate]. cbn zeta in Q.
      destruct (r_dst (n_obj n r)) as [d|]; [|injection Q as <- <-; reflexivity]. destruct (r_df (n_obj n r)) as [|a0 t0]; [injection Q as <- <-; reflexivity|].
      destruct (port d (a0 :: t0)) as [p|]; [|discriminate]. destruct (mem (d, p) _); [injection Q as <- <-; reflexivity|]. rewrite K in Q.
      destruct (coerce (d, p) v) as [w|e].
      * destruct (ndeliver k n _ _ (d, p) (SRoute w)) as [s2 v2| |] eqn:D; try discriminate. injection Q as <- _. exact (IHr _ _ _ _ _ _ D).
      * destruct (swallowed e); [|discriminate]. destruct (ndeliver k n _ _ (d, p) (SRoute v)) as [s2 v2| |] eqn:D; try discriminate. injection Q as <- _. exact (IHr _ _ _ _ _ _ D).
    + injection Q as <- <-. unfold called. cbn [calls]. rewrite <- app_assoc. reflexivity.
Qed.
Lemma functions_receivers n c (g : signal V) : (forall w, g <> SRoute w) -> functions (receivers n c g) = functions (map snd (filter (fun p => cell_eqb (fst p) c) (n_conn n))).
Proof.
  intros N. unfold receivers. induction (map snd (filter (fun p => cell_eqb (fst p) c) (n_conn n))) as [|[r|f] l IH]; [reflexivity|exact IH|].
  destruct g as [v| |v]; [|..]; [cbn; f_equal; exact IH|cbn; f_equal; exact IH|destruct (N v eq_refl)].
Qed.
(** the functions connected to a field, in the order of their addRoute *)
Definition watchers (n : net) (c : cell) : list nat := functions (map snd (filter (fun p => cell_eqb (fst p) c) (n_conn n))).
Lemma in_watchers n c f : In f (watchers n c) <-> In (c, Func f) (n_conn n).
Proof.
  unfold watchers, functions. rewrite in_flat_map. split.
  - intros (x & I & J). destruct x as [r|g]; [destruct J|]. destruct J as [->|[]]. apply in_map_iff in I. destruct I as ([c' x] & E & I). cbn in E. subst x. apply filter_In in I. destruct I as [I Q]. cbn in Q.
    apply cell_eqb_spec in Q. subst. exact I.
  - intros I. exists (Func f). split; [|left; reflexivity]. apply in_map_iff. exists (c, Func f). split; [reflexivity|]. apply filter_In. split; [exact I|]. apply cell_eqb_refl.
Qed.
(** C83.  addRoute( node, field, function ) connects the function to that field,
    and the scene keeps it; it is connected as long as anyone keeps it, and no
    longer. *)
Theorem C83_watch_in_effect : forall os a sf f n', let n := run net0 os in
  addRoute3 n a sf f = (n', Ok tt) ->
  exists s p, resolve n a = Some s /\ port s sf = Some p /\ In f (watchers n' (s, p)) /\ In (Func f) (n_routes n') /\
  (forall c g, (c, g) <> ((s, p), f) -> (In g (watchers n' c) <-> In g (watchers n c))) /\
  forall later, let m := run n' later in
    (In f (watchers m (s, p)) -> kept m (Func f)) /\
    ((forall l1 l2, later = l1 ++ l2 -> kept (run n' l1) (Func f)) -> In f (watchers m (s, p))).
Proof.
  intros os a sf f n' n H. pose proof (wf_run port os net0 wf0) as W. fold n in W. pose proof (wf_step port n (Add3 a sf f) W) as W1. cbn [Net_Model.step] in W1. rewrite H in W1. cbn [fst] in W1.
  unfold Net_Model.addRoute3 in H. destruct (resolve n a) as [s|]; [|discriminate]. destruct (port s sf) as [p|] eqn:Ep; [|discriminate]. injection H as <-.
  set (n' := append _ _) in *. exists s, p. split; [reflexivity|]. split; [exact Ep|].
  assert (I0 : In ((s, p), Func f) (n_conn n')) by (unfold n'; cbn -[connect]; apply in_connect; auto).
  split; [apply in_watchers; exact I0|]. split; [unfold n'; cbn; apply in_or_app; right; left; reflexivity|]. split.
  { intros c g N. rewrite !in_watchers. unfold n'. cbn -[connect]. rewrite in_connect. split; [intros [I|[= -> ->]]; [exact I|destruct N; reflexivity]|auto]. }
  intros later m. split.
  - intros I. apply in_watchers in I. exact (w_alive m (wf_run port later n' W1) _ _ I).
  - intros Kp. apply in_watchers. clearbody n'. subst m. revert n' W1 I0 Kp. induction later as [|o later IH]; intros n' W1 I0 Kp; [exact I0|].
    change (run n' (o :: later)) with (run (step n' o) later). apply IH; [apply wf_step; exact W1| |intros l1 l2 Q; apply (Kp (o :: l1) l2); rewrite Q; reflexivity].
    pose proof (Kp [o] later eq_refl) as K1. change (run n' [o]) with (step n' o) in K1. clear -W1 I0 K1.
    destruct o as [t k|a sf' b df|o|r|a sf' f'|i|[r|f']|x|r d|r t|r s0|r t|r]; cbn [Net_Model.step] in *; try destruct (alive n' (Route r)); try exact I0.
    + rewrite (add4_eq port n' _ _ _ _ W1). cbn. apply in_add_conn. auto.
    + rewrite (new_route_eq port n' _ W1). cbn. apply in_add_conn. auto.
    + unfold Net_Model.addRoute3 in *. destruct (resolve n' a) as [s1|]; [|exact I0]. destruct (port s1 sf') as [p1|]; [|exact I0]. cbn -[connect]. apply in_connect. auto.
    + cbn. apply filter_In. split; [exact I0|]. apply alive_kept. exact K1.
    + cbn. apply filter_In. split; [exact I0|]. apply alive_kept. exact K1.
    + rewrite bind_conn. cbn -[connect]. destruct (bound port (n_obj n' r)); [apply in_connect|]; auto.
Qed.
(** C83.  An assignment that completes calls exactly the functions connected to the
    assigned field, each once, in the order of their addRoute, with the value the
    field now holds; a deletion does so without a value. *)
Theorem C83_functions_called : forall n fuel s c s' vis', (forall x, kind_of x = KField) ->
  (forall v, nset fuel n s c v = NDone s' vis' -> exists w, coerce c v = Ok w /\ calls s' = calls s ++ map (fun f => (f, c, Some w)) (watchers n c)) /\
  (ndel fuel n s c = NDone s' vis' -> calls s' = calls s ++ map (fun f => (f, c, None)) (watchers n c)).
Proof.
  intros n fuel s c s' vis' K. split.
  - intros v. unfold Net_Model.nset. rewrite K. destruct (coerce c v) as [w|e]; [|discriminate]. intros H. exists w. split; [reflexivity|].
    rewrite (ndeliver_calls n K _ _ _ _ _ _ _ H). unfold calls_of. rewrite functions_receivers by discriminate. reflexivity.
  - unfold Net_Model.ndel. destruct (store (base s) c); [|discriminate]. intros H.
    rewrite (ndeliver_calls n K _ _ _ _ _ _ _ H). unfold calls_of. rewrite functions_receivers by discriminate. reflexivity.
Qed.
(** C83 (refuted): a function is not called for values that arrive by a ROUTE,
    though the field changes. *)
Theorem C83_every_change_refuted : forall os s c v fuel, Forall keeps_sources os -> let n := run net0 os in
  complete n -> (forall x, kind_of x = KField) -> coerce c v = Ok v -> (forall x, reaches n c x -> coerce x v = Ok v) ->
  length (n_conn n) < fuel ->
  forall b f, reaches n c b -> b <> c -> In f (watchers n b) ->
  exists s' vis' new, nset fuel n s c v = NDone s' vis' /\ store (base s') b = Some v /\
    calls s' = calls s ++ new /\ forall g o, ~ In (g, b, o) new.
Proof.
  intros os s c v fuel F n Cm K Cc Cr L b f R Nb _. destruct (C82_value_goes_along_routes os s c v fuel F Cm K Cc Cr L) as (s' & vis' & U & H). fold n in U, H.
  destruct (proj1 (C83_functions_called n fuel s c s' vis' K) v U) as (w & _ & Q). exists s', vis'. eexists. split; [exact U|]. split; [apply H; auto|]. split; [exact Q|].
  intros g o I. apply in_map_iff in I. destruct I as (g' & [= _ E _] & _). congruence.
Qed.
(** C83 (refuted): removing the entry of a watch from scene.routes does not end it
    if the function watches something else too. *)
Theorem C83_removed_watch_ends_refuted : forall os a sf b sf' f n1 n2, let n := run net0 os in
  addRoute3 n a sf f = (n1, Ok tt) -> addRoute3 n1 b sf' f = (n2, Ok tt) ->
  let i := length (n_routes n) in nth_error (n_routes n2) i = Some (Func f) /\
  forall c, In f (watchers n2 c) -> In f (watchers (step n2 (Pop i)) c).
Proof.
  intros os a sf b sf' f n1 n2 n H1 H2 i.
  assert (R1 : n_routes n1 = n_routes n ++ [Func f]) by (unfold Net_Model.addRoute3 in H1; destruct (resolve n a) as [s|]; [|discriminate]; destruct (port s sf); [|discriminate]; injection H1 as <-; reflexivity).
  assert (R2 : n_routes n2 = n_routes n1 ++ [Func f]) by (unfold Net_Model.addRoute3 in H2; destruct (resolve n1 b) as [s|]; [|discriminate]; destruct (port s sf'); [|discriminate]; injection H2 as <-; reflexivity).
  rewrite R1, <- app_assoc in R2. split.
  - rewrite R2, nth_error_app2 by apply le_n. unfold i. rewrite Nat.sub_diag. reflexivity.
  - intros c I. apply in_watchers in I. apply in_watchers. cbn. apply filter_In. split; [exact I|]. apply alive_kept. left. cbn [snd with_routes n_routes].
    unfold remove_nth, i. rewrite R2. apply in_or_app. right.
    replace (S (length (n_routes n))) with (length (n_routes n ++ [Func f])) by (rewrite app_length; cbn; lia).
    change ([Func f] ++ [Func f]) with ([Func f] ++ [Func f]). rewrite app_assoc, skipn_app, skipn_all, Nat.sub_diag. left. reflexivity.
Qed.
(** C83 (refuted): a scene with such an entry cannot be written. *)
Theorem C83_scene_can_be_saved_refuted : forall n f, In (Func f) (n_routes n) -> routes_for_writing n = Exc AttributeError.
Proof.
  intros n f. unfold routes_for_writing. induction (n_routes n) as [|x l IH]; intros I; [destruct I|]. cbn [fold_right]. destruct x as [r|g]; [|reflexivity].
  destruct I as [[=]|I]. rewrite (IH I). reflexivity.
Qed.

(** ** C84: ROUTEs that lead nowhere *)
(** whether a receiver is a ROUTE without destination *)
Definition aimless (n : net) (x : recv) : bool :=
  match x with Route r => match r_dst (n_obj n r), r_df (n_obj n r) with Some _, _ :: _ => false | _, _ => true end | Func _ => false end.
(** C84.  A ROUTE without destination does nothing: every assignment goes as if it
    was not connected. *)
Theorem C84_no_destination : forall n fuel s c v,
  nset fuel n s c v = nset fuel (with_conn n (filter (fun p => negb (aimless n (snd p))) (n_conn n))) s c v.
Proof.
  intros n. set (n' := with_conn n _).
  assert (G : forall fuel s vis c g, g <> SDel -> ndeliver fuel n s vis c g = ndeliver fuel n' s vis c g).
  { induction fuel as [|k IH]; intros s vis c g Ng; [reflexivity|]. rewrite !ndeliver_S.
    assert (R : receivers n' c g = filter (fun x => negb (aimless n x)) (receivers n c g)).
    { unfold receivers, n'. cbn [n_conn with_conn]. generalize (n_conn n) as q. clear IH n'. induction q as [|[a x] l IHl]; [reflexivity|]. cbn [filter fst snd].
      destruct (aimless n x) eqn:A; cbn [negb].
      - destruct (cell_eqb a c); cbn [map snd filter]; [|exact IHl]. destruct x as [r|f]; [|discriminate]. cbn [filter]. rewrite A. exact IHl.
      - cbn [filter fst]. destruct (cell_eqb a c); cbn [map snd filter]; [|exact IHl].
        destruct (match x, g with Func _, SRoute _ => false | _, _ => true end) eqn:B; [|destruct x, g; try discriminate B; exact IHl].
        transitivity (x :: filter (fun x0 => match x0, g with Func _, SRoute _ => false | _, _ => true end)
           (map snd (filter (fun p => cell_eqb (fst p) c) (filter (fun p => negb (aimless n (snd p))) l)))); [destruct x, g; try discriminate B; reflexivity|]. rewrite IHl.
        transitivity (filter (fun x0 => negb (aimless n x0)) (x :: filter (fun x0 => match x0, g with Func _, SRoute _ => false | _, _ => true end) (map snd (filter (fun p => cell_eqb (fst p) c) l))));
          [cbn [filter]; rewrite A; reflexivity|destruct x, g; try discriminate B; reflexivity]. }
    rewrite R. assert (St : forall o x, nfwd n' (ndeliver k n') c g o x = nfwd n (ndeliver k n) c g o x).
    { intros [s0 v0| |] [r|f]; try reflexivity. unfold nfwd. cbn [n_obj with_conn n']. destruct (fetch deflt (base s0) c g) as [b [v|e]]; [|reflexivity]. cbn zeta.
      destruct (r_dst (n_obj n r)) as [d|]; [|reflexivity]. destruct (r_df (n_obj n r)) as [|a0 t0]; [reflexivity|]. destruct (port d (a0 :: t0)) as [p|]; [|reflexivity].
      destruct (mem (d, p) _); [reflexivity|]. destruct (kind_of (d, p)).
      - destruct (coerce (d, p) v) as [w|e]; [rewrite <- IH by discriminate; reflexivity|]. destruct (swallowed e); [rewrite <- IH by discriminate; reflexivity|reflexivity].
      - rewrite <- IH by discriminate. destruct (ndeliver k n _ [] (d, p) (SSet v)); try reflexivity. rewrite <- IH by discriminate. reflexivity. }
    assert (Nd : forall o r, aimless n (Route r) = true -> nfwd n (ndeliver k n) c g o (Route r) = o).
    { intros [s0 v0| |] r A; try reflexivity. unfold nfwd, aimless in *. assert (B : on_base s0 (base s0) = s0) by (destruct s0; reflexivity).
      destruct g as [w| |w]; cbn [fetch]; [|destruct (Ng eq_refl)|]; rewrite B; cbn zeta; destruct (r_dst (n_obj n r)); try reflexivity; destruct (r_df (n_obj n r)); try reflexivity; discriminate. }
    generalize (NDone s vis) as o. generalize (receivers n c g) as l. induction l as [|x l IHl]; intros o; [reflexivity|]. cbn [fold_left filter].
    destruct (aimless n x) eqn:A; cbn [negb].
    - destruct x as [r|f]; [|discriminate]. rewrite (Nd o r A). apply IHl.
    - cbn [fold_left]. rewrite St. apply IHl. }
  intros fuel s c v. unfold Net_Model.nset. destruct (kind_of c); [|apply G; discriminate]. destruct (coerce c v); [apply G; discriminate|reflexivity].
Qed.
(** C84 (refuted): a ROUTE to a field that does not exist is accepted, and then
    every assignment to its source raises, after storing the value; receivers after
    it are not told. *)
Theorem C84_missing_field_refuted : forall n k s c v w r rest d, kind_of c = KField -> coerce c v = Ok w ->
  receivers n c (SSet w) = Route r :: rest -> r_dst (n_obj n r) = Some d -> r_df (n_obj n r) <> [] -> port d (r_df (n_obj n r)) = None ->
  exists s', nset (S k) n s c v = NRaised AttributeError s' /\ store (base s') c = Some w /\
    (forall x, x <> c -> store (base s') x = store (base s) x) /\ trace (base s') = trace (base s) /\ calls s' = calls s.
Proof.
  intros n k s c v w r rest d K Cw R D Df P. unfold Net_Model.nset. rewrite K, Cw, ndeliver_S, R. cbn [fold_left].
  destruct (r_df (n_obj n r)) as [|a0 t0] eqn:Ed; [destruct (Df eq_refl)|].
  assert (X : nfwd n (ndeliver k n) c (SSet w) (NDone (on_base s (put (base s) c w)) []) (Route r) = NRaised AttributeError (on_base s (put (base s) c w))).
  { unfold nfwd. cbn [fetch base on_base]. rewrite D, Ed, P. reflexivity. }
  rewrite X. assert (Y : forall l, fold_left (nfwd n (ndeliver k n) c (SSet w)) l (NRaised AttributeError (on_base s (put (base s) c w))) = NRaised AttributeError (on_base s (put (base s) c w)))
    by (induction l as [|y l IH]; [reflexivity|exact IH]). rewrite Y.
  eexists. split; [reflexivity|]. cbn. rewrite cell_eqb_refl. split; [reflexivity|]. split; [|auto]. intros x N. rewrite cell_eqb_neq by exact N. reflexivity.
Qed.
End Cascade.
End Claims.

(** *** Examples: nodes 1, 2, 3 with fields x and y, values are numbers *)
Definition ex_port (n : nat) (t : text) : option nat :=
  if text_eqb t (lit "x") then Some 0 else if text_eqb t (lit "y") then Some 1 else None.
Definition ex_ops : list op :=
  [ Register (lit "A") 1; Register (lit "B") 2;
    Add4 (EName (lit "A")) (lit "x") (EName (lit "B")) (lit "x");
    Add4 (ENode 2) (lit "x") (ENode 3) (lit "y");
    Add3 (EName (lit "A")) (lit "x") 7; Add3 (ENode 3) (lit "y") 7 ].
Definition ex_net := run ex_port net0 ex_ops.
Definition ex_s : nstate nat := {| base := {| store := fun _ => None; trace := [] |}; calls := [] |}.
Definition ex_set (n : net) (c : cell) (v : nat) := nset ex_port (fun _ => KField) (fun _ v => Ok v) (fun _ => Ok 0) 0 9 n ex_s c v.
Example ex_keeps : Forall keeps_sources ex_ops.
Proof. repeat constructor. Qed.
Example C81_demo : n_routes ex_net = [Route 0; Route 1; Func 7; Func 7] /\ n_conn ex_net = [((1, 0), Route 0); ((2, 0), Route 1); ((1, 0), Func 7); ((3, 1), Func 7)] /\
  n_routes (scene_with ex_port [(lit "A", 1); (lit "B", 2)] [(EName (lit "A"), lit "x", (EName (lit "B"), lit "x")); (ENode 2, lit "x", (ENode 3, lit "y"))]) = [Route 0; Route 1] /\
  dget text_eqb (n_defs ex_net) (lit "C") = None.
Proof. repeat split. Qed.
Example C82_demo_complete : complete ex_port ex_net.
Proof.
  intros r [I|[]]. destruct I as [[= <-]|[[= <-]|[[=]|[[=]|[]]]]].
  - exists (2, 0). split; [reflexivity|]. split; [discriminate|reflexivity].
  - exists (3, 1). split; [reflexivity|]. split; [discriminate|reflexivity].
Qed.
Example C82_demo_reaches : reaches ex_port ex_net (1, 0) (3, 1).
Proof.
  apply t_trans with (2, 0); apply t_step; [exists 0|exists 1]; (split; [left; cbn; auto|]); (split; (split; [reflexivity|split; [discriminate|reflexivity]])).
Qed.
(** the value arrives at the end of the chain; the function is called for the first
    field only.  Without the first route, nothing arrives; a retargeted route leads
    to the new place; a ROUTE with a new source still forwards from the old one. *)
Definition stored (o : noutcome nat) (c : cell) : option nat := match o with NDone s _ => store (base s) c | _ => None end.
Definition told (o : noutcome nat) : list (nat * cell * option nat) := match o with NDone s _ => calls s | _ => [] end.
Example C82_demo : stored (ex_set ex_net (1, 0) 5) (3, 1) = Some 5 /\ stored (ex_set ex_net (1, 0) 5) (3, 0) = None /\
  told (ex_set ex_net (1, 0) 5) = [(7, (1, 0), Some 5)] /\
  stored (ex_set (run ex_port ex_net [Pop 0]) (1, 0) 5) (3, 1) = None /\
  stored (ex_set (run ex_port ex_net [SetDf 1 (lit "x")]) (1, 0) 5) (3, 0) = Some 5 /\
  stored (ex_set (run ex_port ex_net [SetSrc 0 (Some 3)]) (1, 0) 5) (2, 0) = Some 5 /\
  stored (ex_set (run ex_port ex_net [SetSrc 0 (Some 3)]) (3, 0) 5) (2, 0) = None.
Proof. repeat split. Qed.
Example C83_demo : watchers ex_net (1, 0) = [7] /\ watchers ex_net (3, 1) = [7] /\ watchers (run ex_port ex_net [Pop 2]) (1, 0) = [7] /\
  watchers (run ex_port ex_net [Pop 2; Pop 2]) (1, 0) = [] /\
  snd (addRoute3 ex_port ex_net (ENode 1) (lit "y") 8) = Ok tt /\ snd (addRoute3 ex_port ex_net (EName (lit "C")) (lit "y") 8) = Exc AttributeError.
Proof. repeat split. Qed.
Example C84_demo : let n := run ex_port net0 [Add4 (ENode 1) (lit "x") (ENode 2) (lit "z"); Add4 (ENode 1) (lit "x") (ENode 3) (lit "x")] in
  receivers n (1, 0) (SSet 5) = [Route 0; Route 1] /\
  (exists s', ex_set n (1, 0) 5 = NRaised AttributeError s' /\ store (base s') (1, 0) = Some 5 /\ store (base s') (3, 0) = None) /\
  aimless (run ex_port n [SetDst 0 None]) (Route 0) = true /\ stored (ex_set (run ex_port n [SetDst 0 None]) (1, 0) 5) (3, 0) = Some 5.
Proof. split; [reflexivity|]. split; [eexists; split; [reflexivity|split; reflexivity]|split; reflexivity]. Qed.

Print Assumptions C81_adds_the_route.
Print Assumptions C81_forms_agree.
Print Assumptions C81_constructor.
Print Assumptions C81_unknown_name_reported_refuted.
Print Assumptions C82_routes_in_effect.
Print Assumptions C82_removed_route_ends.
Print Assumptions C82_value_goes_along_routes.
Print Assumptions C82_reaches_exactly.
Print Assumptions C82_ends.
Print Assumptions C82_new_source_refuted.
Print Assumptions C83_watch_in_effect.
Print Assumptions C83_functions_called.
Print Assumptions C83_every_change_refuted.
Print Assumptions C83_removed_watch_ends_refuted.
Print Assumptions C83_scene_can_be_saved_refuted.
Print Assumptions C84_no_destination.
Print Assumptions C84_missing_field_refuted.
