(** Proofs about the routes of a scene over time. *)
From Verif Require Import Base Text PyDict Route_Model Route_Spec Route_Proofs Net_Model Net_Spec.
From Coq Require Import Relations.
Local Open Scope nat_scope.

Lemma recv_eqb_spec a b : recv_eqb a b = true <-> a = b.
Proof.
  destruct a, b; cbn; try (split; [discriminate|intros [=]]); rewrite Nat.eqb_eq; (split; [intros ->; reflexivity|intros [= ->]; reflexivity]).
Qed.
Lemma recv_eqb_refl a : recv_eqb a a = true.
Proof. apply recv_eqb_spec. reflexivity. Qed.
Lemma has_in l x : has l x = true <-> In x l.
Proof.
  unfold has. rewrite existsb_exists. split.
  - intros (y & I & E). apply recv_eqb_spec in E. subst. exact I.
  - intros I. exists x. split; [exact I|apply recv_eqb_refl].
Qed.
Lemma alive_kept n x : alive n x = true <-> kept n x.
Proof. unfold alive, kept. rewrite Bool.orb_true_iff, !has_in. reflexivity. Qed.
Lemma in_connect l c x p : In p (connect l c x) <-> In p l \/ p = (c, x).
Proof.
  unfold connect. rewrite in_app_iff, filter_In. cbn [In]. split.
  - intros [[I _]|[<-|[]]]; auto.
  - intros [I| ->]; [|auto]. destruct p as [c' x']. destruct (cell_eqb c' c && recv_eqb x' x) eqn:E.
    + apply Bool.andb_true_iff in E. destruct E as [E1 E2]. apply cell_eqb_spec in E1. apply recv_eqb_spec in E2. subst. auto.
    + left. cbn [fst snd]. rewrite E. auto.
Qed.
Lemma nodup_connect l c x : NoDup l -> NoDup (connect l c x).
Proof.
  intros H. unfold connect. apply NoDup_app_iff || idtac.
  assert (N : ~ In (c, x) (filter (fun p => negb (cell_eqb (fst p) c && recv_eqb (snd p) x)) l)).
  { rewrite filter_In. intros [_ E]. cbn [fst snd] in E. rewrite cell_eqb_refl, recv_eqb_refl in E. discriminate. }
  pose proof (NoDup_filter (fun p : cell * recv => negb (cell_eqb (fst p) c && recv_eqb (snd p) x)) H) as F.
  revert F N. generalize (filter (fun p : cell * recv => negb (cell_eqb (fst p) c && recv_eqb (snd p) x)) l). clear.
  intros q F N. induction q as [|y q IH]; cbn [app]; [constructor; [intros []|constructor]|].
  inversion F as [|? ? A B]; subst. constructor; [|apply IH; [exact B|intros I; apply N; right; exact I]].
  rewrite in_app_iff. intros [I|[I|[]]]; [exact (A I)|apply N; left; congruence].
Qed.
Lemma connect_new l c x : ~ In (c, x) l -> connect l c x = l ++ [(c, x)].
Proof.
  intros N. unfold connect. f_equal. induction l as [|[c' x'] l IH]; [reflexivity|]. cbn [filter fst snd].
  destruct (cell_eqb c' c && recv_eqb x' x) eqn:E; cbn [negb].
  - apply Bool.andb_true_iff in E. destruct E as [E1 E2]. apply cell_eqb_spec in E1. apply recv_eqb_spec in E2. subst. destruct N. left. reflexivity.
  - rewrite IH; [reflexivity|]. intros I. apply N. right. exact I.
Qed.
Lemma filter_all {A} (p : A -> bool) l : (forall x, In x l -> p x = true) -> filter p l = l.
Proof.
  induction l as [|x l IH]; intros H; [reflexivity|]. cbn [filter]. rewrite (H x (or_introl eq_refl)), IH; [reflexivity|].
  intros y I. apply H. right. exact I.
Qed.

Section Proofs.
Variable port : nat -> text -> option nat.
Notation comes_from := (comes_from port).
Notation goes_to := (goes_to port).
Notation bind := (Net_Model.bind port).
Notation step := (Net_Model.step port).
Notation run := (Net_Model.run port).
Notation new_route := (Net_Model.new_route port).
Notation addRoute4 := (Net_Model.addRoute4 port).
Notation addRoute3 := (Net_Model.addRoute3 port).

(** what holds of every state *)
Record wf (n : net) : Prop := {
  w_known : forall r, kept n (Route r) -> r < n_next n;
  w_alive : forall c x, In (c, x) (n_conn n) -> kept n x;
  w_nodup : NoDup (n_conn n) }.
(** ... if no source was changed *)
Definition exact (n : net) : Prop :=
  forall c r, In (c, Route r) (n_conn n) <-> kept n (Route r) /\ comes_from (n_obj n r) c.

(** the connection a ROUTE makes *)
Definition bound (o : robj) : option cell :=
  match r_src o, r_sf o with
  | Some s, (_ :: _) as sf => match port s sf with Some p => Some (s, p) | None => None end
  | _, _ => None
  end.
Lemma bound_spec o c : bound o = Some c <-> comes_from o c.
Proof.
  unfold bound, Net_Spec.comes_from. destruct (r_src o) as [s|]; [|split; [discriminate|intros [[=] _]]].
  destruct (r_sf o) as [|a t] eqn:E; [split; [discriminate|intros (_ & [] & _); reflexivity]|].
  destruct c as [k p]. cbn [fst snd]. destruct (port s (a :: t)) as [q|] eqn:Q.
  - split; [intros [= <- <-]; repeat split; [discriminate|exact Q]|]. intros ([= <-] & _ & P). assert (X : Some q = Some p) by (rewrite <- Q; exact P). injection X as ->. reflexivity.
  - split; [discriminate|]. intros ([= <-] & _ & P). assert (X : None = Some p) by (rewrite <- Q; exact P). discriminate.
Qed.
Lemma bind_conn n r : bind n r = with_conn n (match bound (n_obj n r) with Some c => connect (n_conn n) c (Route r) | None => n_conn n end).
Proof.
  unfold Net_Model.bind, bound, with_conn. destruct n as [d x o rs h c]. cbn.
  destruct (r_src (o r)); [|reflexivity]. destruct (r_sf (o r)); [reflexivity|]. destruct (port _ _); reflexivity.
Qed.

Lemma wf0 : wf net0.
Proof. split; cbn; [intros r [[]|[]]|intros c x []|constructor]. Qed.
Lemma exact0 : exact net0.
Proof. intros c r. cbn. split; [intros []|]. intros [[[]|[]] _]. Qed.

Lemma wf_collect n : (forall r, kept n (Route r) -> r < n_next n) -> NoDup (n_conn n) -> wf (collect n).
Proof.
  intros K D. split; cbn.
  - exact K.
  - intros c x I. apply filter_In in I. apply alive_kept. exact (proj2 I).
  - apply NoDup_filter. exact D.
Qed.
Lemma collect_id n : wf n -> collect n = n.
Proof.
  intros W. unfold collect. rewrite filter_all; [destruct n; reflexivity|]. intros [c x] I. apply alive_kept. exact (w_alive n W c x I).
Qed.
Lemma wf_bind n r : wf n -> kept n (Route r) -> wf (bind n r).
Proof.
  intros W K. rewrite bind_conn. destruct (bound (n_obj n r)) as [c|]; [|destruct n; exact W]. split; cbn.
  - exact (w_known n W).
  - intros c' x I. apply in_connect in I. destruct I as [I|[= -> ->]]; [exact (w_alive n W _ _ I)|exact K].
  - apply nodup_connect. exact (w_nodup n W).
Qed.
Lemma fresh_conn n c r : wf n -> n_next n <= r -> ~ In (c, Route r) (n_conn n).
Proof. intros W L I. pose proof (w_known n W r (w_alive n W _ _ I)). lia. Qed.
(** a new ROUTE, in one piece *)
Lemma new_route_eq n o : wf n -> fst (new_route n o) =
  {| n_defs := n_defs n; n_next := S (n_next n); n_obj := fun k => if Nat.eqb k (n_next n) then o else n_obj n k;
     n_routes := n_routes n; n_held := n_held n ++ [Route (n_next n)];
     n_conn := n_conn n ++ match bound o with Some c => [(c, Route (n_next n))] | None => [] end |}.
Proof.
  intros W. unfold Net_Model.new_route. cbn [fst]. rewrite bind_conn. cbn -[connect]. rewrite Nat.eqb_refl. unfold with_conn. cbn -[connect].
  destruct (bound o) as [c|]; [|rewrite app_nil_r; reflexivity]. rewrite connect_new; [reflexivity|].
  apply fresh_conn; [exact W|lia].
Qed.
Lemma add4_eq n a sf b df : wf n ->
  let o := {| r_src := resolve n a; r_sf := sf; r_dst := resolve n b; r_df := df |} in
  addRoute4 n a sf b df =
  ({| n_defs := n_defs n; n_next := S (n_next n); n_obj := fun k => if Nat.eqb k (n_next n) then o else n_obj n k;
     n_routes := n_routes n ++ [Route (n_next n)]; n_held := n_held n;
     n_conn := n_conn n ++ match bound o with Some c => [(c, Route (n_next n))] | None => [] end |}, n_next n).
Proof.
  intros W o. unfold Net_Model.addRoute4. fold o. pose proof (new_route_eq n o W) as E.
  destruct (new_route n o) as [n1 r] eqn:Q. cbn [fst] in E. assert (r = n_next n) by (unfold Net_Model.new_route in Q; congruence). subst r n1. reflexivity.
Qed.
Lemma nodup_add_conn n o : wf n -> NoDup (n_conn n ++ match bound o with Some c => [(c, Route (n_next n))] | None => [] end).
Proof.
  intros W. destruct (bound o) as [c|]; [|rewrite app_nil_r; exact (w_nodup n W)].
  rewrite <- connect_new; [apply nodup_connect; exact (w_nodup n W)|apply fresh_conn; [exact W|lia]].
Qed.
Lemma in_add_conn n o c x : In (c, x) (n_conn n ++ match bound o with Some c => [(c, Route (n_next n))] | None => [] end) <->
  In (c, x) (n_conn n) \/ (x = Route (n_next n) /\ bound o = Some c).
Proof.
  rewrite in_app_iff. destruct (bound o) as [d|]; cbn [In].
  - split; [intros [I|[[= -> <-]|[]]]; auto|]. intros [I|[-> [= ->]]]; auto.
  - split; [intros [I|[]]; auto|]. intros [I|[_ [=]]]; auto.
Qed.

Lemma remove_nth_in {A} (l : list A) i x : In x (remove_nth l i) -> In x l.
Proof.
  unfold remove_nth. intros I. apply in_app_or in I. rewrite <- (firstn_skipn i l). apply in_or_app. destruct I as [I|I]; [left; exact I|right].
  revert I. generalize l at 1 2. clear. intros l. revert l. induction i as [|i IH]; intros [|y l]; cbn; auto.
Qed.
Lemma remove_one_in l x y : In y (remove_one l x) -> In y l.
Proof. induction l as [|z l IH]; cbn; [auto|]. destruct (recv_eqb z x); [auto|]. intros [->|I]; auto. Qed.

Lemma wf_step n o : wf n -> wf (step n o).
Proof.
  intros W. destruct o as [t k|a sf b df|o|r|a sf f|i|x|x|r d|r t|r s|r t|r]; cbn -[addRoute4 addRoute3 new_route bind].
  - split; [exact (w_known n W)|exact (w_alive n W)|exact (w_nodup n W)].
  - rewrite (add4_eq n a sf b df W). cbn zeta. split; cbn.
    + unfold kept. cbn. intros r [I|I]; [apply in_app_or in I; destruct I as [I|[[= <-]|[]]]; [|lia]|].
      * assert (kept n (Route r)) as K by (left; exact I). apply (w_known n W) in K. lia.
      * assert (kept n (Route r)) as K by (right; exact I). apply (w_known n W) in K. lia.
    + intros c x I. unfold kept. cbn. rewrite in_app_iff. apply in_add_conn in I. destruct I as [I|[-> _]]; [|left; right; left; reflexivity].
      destruct (w_alive n W c x I); auto.
    + apply nodup_add_conn. exact W.
  - rewrite new_route_eq by exact W. split; cbn.
    + unfold kept. cbn. intros r [I|I]; [|apply in_app_or in I; destruct I as [I|[[= <-]|[]]]; [|lia]].
      * assert (kept n (Route r)) as K by (left; exact I). apply (w_known n W) in K. lia.
      * assert (kept n (Route r)) as K by (right; exact I). apply (w_known n W) in K. lia.
    + intros c x I. unfold kept. cbn. rewrite in_app_iff. apply in_add_conn in I. destruct I as [I|[-> _]]; [|right; right; left; reflexivity].
      destruct (w_alive n W c x I); auto.
    + apply nodup_add_conn. exact W.
  - destruct (alive n (Route r)) eqn:A; [|exact W]. apply alive_kept in A. split; cbn.
    + intros q K. apply (w_known n W). unfold kept in K. cbn in K. rewrite in_app_iff in K. destruct K as [[K|[[= <-]|[]]]|K]; [left; exact K|exact A|right; exact K].
    + intros c x I. unfold kept. cbn. rewrite in_app_iff. destruct (w_alive n W c x I); auto.
    + exact (w_nodup n W).
  - unfold Net_Model.addRoute3. destruct (resolve n a) as [s|]; [|exact W]. destruct (port s sf) as [p|]; [|exact W]. split; cbn.
    + intros q K. apply (w_known n W). unfold kept in K. cbn in K. rewrite in_app_iff in K. destruct K as [[K|[[=]|[]]]|K]; [left; exact K|right; exact K].
    + intros c x I. unfold kept. cbn. rewrite in_app_iff. apply in_connect in I. destruct I as [I|[= -> ->]]; [destruct (w_alive n W c x I); auto|left; right; left; reflexivity].
    + apply nodup_connect. exact (w_nodup n W).
  - apply wf_collect; [|exact (w_nodup n W)]. cbn. intros r [K|K]; apply (w_known n W); [left; exact (remove_nth_in _ _ _ K)|right; exact K].
  - destruct x as [r|f].
    + destruct (alive n (Route r)) eqn:A; [|exact W]. apply alive_kept in A. split; cbn.
      * intros q K. apply (w_known n W). unfold kept in K. cbn in K. rewrite in_app_iff in K. destruct K as [K|[K|[[= <-]|[]]]]; [left; exact K|right; exact K|exact A].
      * intros c x I. unfold kept. cbn. rewrite in_app_iff. destruct (w_alive n W c x I); auto.
      * exact (w_nodup n W).
    + split; cbn.
      * intros q K. apply (w_known n W). unfold kept in K. cbn in K. rewrite in_app_iff in K. destruct K as [K|[K|[[=]|[]]]]; [left; exact K|right; exact K].
      * intros c x I. unfold kept. cbn. rewrite in_app_iff. destruct (w_alive n W c x I); auto.
      * exact (w_nodup n W).
  - apply wf_collect; [|exact (w_nodup n W)]. cbn. intros r [K|K]; apply (w_known n W); [left; exact K|right; exact (remove_one_in _ _ _ K)].
  - destruct (alive n (Route r)); [|exact W]. split; [exact (w_known n W)|exact (w_alive n W)|exact (w_nodup n W)].
  - destruct (alive n (Route r)); [|exact W]. split; [exact (w_known n W)|exact (w_alive n W)|exact (w_nodup n W)].
  - destruct (alive n (Route r)); [|exact W]. split; [exact (w_known n W)|exact (w_alive n W)|exact (w_nodup n W)].
  - destruct (alive n (Route r)); [|exact W]. split; [exact (w_known n W)|exact (w_alive n W)|exact (w_nodup n W)].
  - destruct (alive n (Route r)) eqn:A; [|exact W]. apply alive_kept in A. apply wf_bind; assumption.
Qed.
Lemma wf_run os : forall n, wf n -> wf (run n os).
Proof. induction os as [|o os IH]; intros n W; [exact W|]. apply IH. apply wf_step. exact W. Qed.

Lemma exact_collect n : (forall c r, kept n (Route r) -> (In (c, Route r) (n_conn n) <-> comes_from (n_obj n r) c)) -> exact (collect n).
Proof.
  intros H c r. cbn. rewrite filter_In. cbn [snd]. rewrite alive_kept. split.
  - intros [I K]. split; [exact K|]. apply (H c r K). exact I.
  - intros [K C]. split; [|exact K]. apply (H c r K). exact C.
Qed.
Lemma exact_step n o : wf n -> exact n -> keeps_sources o -> exact (step n o).
Proof.
  intros W E KS. destruct o as [t k|a sf b df|o|r|a sf f|i|x|x|r d|r t|r s|r t|r]; cbn -[addRoute4 addRoute3 new_route bind].
  - exact E.
  - rewrite (add4_eq n a sf b df W). cbn zeta. set (o := {| r_src := _ |}). intros c r. cbn. rewrite in_add_conn, (E c r), (bound_spec o c). unfold kept. cbn.
    rewrite in_app_iff. cbn [In]. destruct (Nat.eqb_spec r (n_next n)) as [->|N].
    + split; [intros [[K _]|[_ B0]]; [apply (w_known n W) in K; lia|auto]|]. intros [_ B0]. auto.
    + split; [intros [[[K|K] C]|[[=] _]]; [auto|auto|congruence]|]. intros [[[K|[[=]|[]]]|K] C]; auto; congruence.
  - rewrite new_route_eq by exact W. intros c r. cbn. rewrite in_add_conn, (E c r), (bound_spec o c). unfold kept. cbn.
    rewrite in_app_iff. cbn [In]. destruct (Nat.eqb_spec r (n_next n)) as [->|N].
    + split; [intros [[K _]|[_ B0]]; [apply (w_known n W) in K; lia|auto]|]. intros [_ B0]. auto.
    + split; [intros [[[K|K] C]|[[=] _]]; [auto|auto|congruence]|]. intros [[K|[K|[[=]|[]]]] C]; auto; congruence.
  - destruct (alive n (Route r)) eqn:A; [|exact E]. apply alive_kept in A. intros c q. cbn. rewrite (E c q). unfold kept. cbn. rewrite in_app_iff. cbn [In].
    split; [intros [[K|K] C]; auto|]. intros [[[K|[[= <-]|[]]]|K] C]; auto.
  - unfold Net_Model.addRoute3. destruct (resolve n a) as [s|]; [|exact E]. destruct (port s sf) as [p|]; [|exact E]. intros c r. cbn. rewrite in_connect, (E c r). unfold kept. cbn.
    rewrite in_app_iff. cbn [In]. split; [intros [[[K|K] C]|[=]]; auto|]. intros [[[K|[[=]|[]]]|K] C]; auto.
  - apply exact_collect. intros c r K. cbn in *. rewrite (E c r). split; [intros [_ C]; exact C|]. intros C. split; [|exact C].
    destruct K as [K|K]; [left; exact (remove_nth_in _ _ _ K)|right; exact K].
  - destruct x as [r|f].
    + destruct (alive n (Route r)) eqn:A; [|exact E]. apply alive_kept in A. intros c q. cbn. rewrite (E c q). unfold kept. cbn. rewrite in_app_iff. cbn [In].
      split; [intros [[K|K] C]; auto|]. intros [[K|[K|[[= <-]|[]]]] C]; auto.
    + intros c q. cbn. rewrite (E c q). unfold kept. cbn. rewrite in_app_iff. cbn [In].
      split; [intros [[K|K] C]; auto|]. intros [[K|[K|[[=]|[]]]] C]; auto.
  - apply exact_collect. intros c r K. cbn in *. rewrite (E c r). split; [intros [_ C]; exact C|]. intros C. split; [|exact C].
    destruct K as [K|K]; [left; exact K|right; exact (remove_one_in _ _ _ K)].
  - destruct (alive n (Route r)); [|exact E]. intros c q. cbn. rewrite (E c q). destruct (Nat.eqb_spec q r) as [->|]; reflexivity.
  - destruct (alive n (Route r)); [|exact E]. intros c q. cbn. rewrite (E c q). destruct (Nat.eqb_spec q r) as [->|]; reflexivity.
  - destruct KS.
  - destruct KS.
  - destruct (alive n (Route r)) eqn:A; [|exact E]. apply alive_kept in A. rewrite bind_conn. intros c q. cbn.
    destruct (bound (n_obj n r)) as [d|] eqn:B; [|exact (E c q)]. rewrite in_connect, (E c q). split; [intros [H|[= -> ->]]; [exact H|]|auto].
    split; [exact A|apply bound_spec; exact B].
Qed.
Lemma exact_run os : forall n, wf n -> exact n -> Forall keeps_sources os -> exact (run n os).
Proof.
  induction os as [|o os IH]; intros n W E F; [exact E|]. inversion F; subst. apply IH; [apply wf_step; exact W|apply exact_step; assumption|assumption].
Qed.
End Proofs.
