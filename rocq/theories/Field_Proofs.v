From Verif Require Import Base Field_Model Field_Spec.

Section Proofs.
Context {V : Type}.
Variable fname : nat -> nat.
Variable coerce : nat -> V -> res V.
Variable deflt : nat -> res V.
Notation step := (step fname coerce deflt).
Notation run := (run fname coerce deflt).
Implicit Types (s : state (V:=V)) (o : op (V:=V)) (os : list (op (V:=V))).

Lemma upd_same (d : store (V:=V)) n k x : upd d n k x n k = x.
Proof. unfold upd. rewrite !Nat.eqb_refl. reflexivity. Qed.
Lemma upd_other (d : store (V:=V)) n k x n' k' :
  (n', k') <> (n, k) -> upd d n k x n' k' = d n' k'.
Proof.
  intros H. unfold upd. destruct (Nat.eqb_spec n' n); destruct (Nat.eqb_spec k' k); simpl; congruence.
Qed.

Lemma set_other s n f v n' k' :
  (n', k') <> (n, fname f) -> dict (fst (set_ fname coerce s n f v)) n' k' = dict s n' k'.
Proof.
  intros H. unfold set_. destruct (coerce f v); [|reflexivity]. simpl. apply upd_other. exact H.
Qed.

Lemma fset_dict s n f v b :
  dict (fst (fset fname coerce s n f v b)) = dict (fst (set_ fname coerce s n f v)).
Proof.
  unfold fset. destruct (set_ fname coerce s n f v) as [s' [w|e]]; [|reflexivity].
  destruct b; reflexivity.
Qed.
Lemma attr_set_state s n f v : fst (attr_set fname coerce s n f v) = fst (fset fname coerce s n f v true).
Proof. unfold attr_set. destruct (fset fname coerce s n f v true) as [s' [w|e]]; reflexivity. Qed.

(** Frame: only the addressed cell changes. *)
Lemma step_frame i s o n k :
  touches fname o <> Some (n, k) ->
  dict (fst (step i s o)) n k = dict s n k.
Proof.
  destruct o as [n' f|n' f v|n' f v b|n' f|n' f b|f|n' f]; simpl; intros H.
  - unfold get. destruct (dict s n' (fname f)) eqn:E; [reflexivity|]. simpl.
    unfold get_default. destruct (deflt f); [|reflexivity]. apply set_other. congruence.
  - rewrite attr_set_state, fset_dict. apply set_other. congruence.
  - rewrite fset_dict. apply set_other. congruence.
  - destruct i.
    + unfold py_delete. destruct (dict s n' (fname f)); reflexivity.
    + unfold ac_delete, ac_del. destruct (dict s n' (fname f)); simpl; [|reflexivity].
      apply upd_other. congruence.
  - destruct i.
    + unfold py_fdel, py_delete. destruct (dict s n' (fname f)); [|reflexivity]. destruct b; reflexivity.
    + unfold ac_del. destruct (dict s n' (fname f)); [|reflexivity].
      destruct b; simpl; apply upd_other; congruence.
  - unfold get_default. destruct (deflt f); reflexivity.
  - reflexivity.
Qed.

Lemma run_frame i os : forall s n k,
  Forall (fun o => touches fname o <> Some (n, k)) os ->
  dict (fst (run i s os)) n k = dict s n k.
Proof.
  induction os as [|o os IH]; intros s n k H; [reflexivity|].
  inversion H; subst. simpl. pose proof (step_frame i s o n k) as F.
  destruct (step i s o) as [s1 r]. specialize (IH s1 n k).
  destruct (run i s1 os) as [s2 rs]. simpl in *. rewrite IH by assumption. apply F. assumption.
Qed.

(** A stored value survives every operation that does not overwrite it. *)
Lemma step_keeps i s o n k v :
  dict s n k = Some v -> ~ overwrites fname coerce n k o ->
  dict (fst (step i s o)) n k = Some v.
Proof.
  intros Hv Ho.
  destruct (touches fname o) as [[n' k']|] eqn:T.
  2:{ rewrite step_frame; [exact Hv|congruence]. }
  destruct (Nat.eq_dec n' n) as [En|En]; [|rewrite step_frame; [exact Hv|congruence]].
  destruct (Nat.eq_dec k' k) as [Ek|Ek]; [|rewrite step_frame; [exact Hv|congruence]].
  subst. destruct o as [n' f|n' f w|n' f w b|n' f|n' f b|f|n' f]; simpl in T; try discriminate;
  injection T as -> <-; simpl in *.
  - unfold get. rewrite Hv. exact Hv.
  - rewrite attr_set_state, fset_dict. unfold set_.
    destruct (coerce f w) eqn:E; [|exact Hv]. exfalso. apply Ho. repeat split; eauto.
  - rewrite fset_dict. unfold set_.
    destruct (coerce f w) eqn:E; [|exact Hv]. exfalso. apply Ho. repeat split; eauto.
  - exfalso. apply Ho. split; reflexivity.
  - exfalso. apply Ho. split; reflexivity.
  - exact Hv.
Qed.

Lemma run_keeps i os : forall s n k v,
  dict s n k = Some v -> Forall (fun o => ~ overwrites fname coerce n k o) os ->
  dict (fst (run i s os)) n k = Some v.
Proof.
  induction os as [|o os IH]; intros s n k v Hv H; [exact Hv|].
  inversion H; subst. simpl. pose proof (step_keeps i s o n k v Hv) as F.
  destruct (step i s o) as [s1 r]. specialize (IH s1 n k v).
  destruct (run i s1 os) as [s2 rs]. simpl in *. apply IH; [apply F|]; assumption.
Qed.

Lemma run_app i os1 os2 : forall s,
  fst (run i s (os1 ++ os2)) = fst (run i (fst (run i s os1)) os2).
Proof.
  induction os1 as [|o os IH]; intros s; [reflexivity|].
  simpl. destruct (step i s o) as [s1 r]. specialize (IH s1).
  destruct (run i s1 (os ++ os2)) as [sa ra]. destruct (run i s1 os) as [sb rb]. exact IH.
Qed.

Lemma read_last_write i s h1 h2 n f v w (o : op) :
  (o = Set_ n f v \/ exists b, o = FSet n f v b) -> coerce f v = Ok w ->
  Forall (fun o => ~ overwrites fname coerce n (fname f) o) h2 ->
  let s' := fst (run i s (h1 ++ o :: h2)) in
  step i s' (Get n f) = (s', Ok (OVal w)).
Proof.
  intros Ho Hc Hh s'. simpl. unfold get.
  assert (dict s' n (fname f) = Some w) as ->; [|reflexivity].
  unfold s'. rewrite run_app. set (s1 := fst (run i s h1)). simpl.
  assert (D : dict (fst (step i s1 o)) n (fname f) = Some w).
  { destruct Ho as [->|[b ->]]; simpl; rewrite ?attr_set_state, fset_dict;
    unfold set_; rewrite Hc; simpl; apply upd_same. }
  pose proof (run_keeps i h2 (fst (step i s1 o)) n (fname f) w D Hh) as K.
  destruct (step i s1 o) as [s2 r]. simpl in K. destruct (run i s2 h2) as [s3 rs]. exact K.
Qed.

(** Cells are only ever filled by a successful write or by a read of the
    default. *)
Definition cell_ok (n f : nat) s : Prop :=
  dict s n (fname f) = None \/
  exists d w, deflt f = Ok d /\ coerce f d = Ok w /\ dict s n (fname f) = Some w.

Lemma step_cell_ok i s o n f :
  (forall g, fname g = fname f -> g = f) ->
  cell_ok n f s -> ~ writes fname coerce n (fname f) o -> cell_ok n f (fst (step i s o)).
Proof.
  intros Inj Hc Hw. unfold cell_ok in *.
  destruct (touches fname o) as [[n' k']|] eqn:T.
  2:{ rewrite step_frame; [exact Hc|congruence]. }
  destruct (Nat.eq_dec n' n) as [En|En]; [|rewrite step_frame; [exact Hc|congruence]].
  destruct (Nat.eq_dec k' (fname f)) as [Ek|Ek]; [|rewrite step_frame; [exact Hc|congruence]].
  subst. destruct o as [n' g|n' g w|n' g w b|n' g|n' g b|g|n' g]; simpl in T; try discriminate;
  injection T as -> Eg; pose proof (Inj _ Eg) as ->; clear Eg; simpl in *.
  - unfold get. destruct (dict s n (fname f)) as [x|] eqn:E.
    + simpl. rewrite E. exact Hc.
    + simpl. unfold get_default. destruct (deflt f) as [d|e] eqn:Ed; [|left; exact E].
      unfold set_. destruct (coerce f d) as [w|e] eqn:Ec; [|left; exact E].
      right. exists d, w. simpl. rewrite upd_same. auto.
  - rewrite attr_set_state, fset_dict. unfold set_.
    destruct (coerce f w) eqn:E; [|exact Hc]. exfalso. apply Hw. repeat split; eauto.
  - rewrite fset_dict. unfold set_.
    destruct (coerce f w) eqn:E; [|exact Hc]. exfalso. apply Hw. repeat split; eauto.
  - destruct i.
    + unfold py_delete. destruct (dict s n (fname f)) eqn:E; simpl; rewrite E; exact Hc.
    + unfold ac_delete, ac_del. destruct (dict s n (fname f)) eqn:E; simpl.
      * left. apply upd_same.
      * left. exact E.
  - destruct i.
    + unfold py_fdel, py_delete. destruct (dict s n (fname f)) eqn:E; simpl; [|rewrite E; exact Hc].
      destruct b; simpl; rewrite E; exact Hc.
    + unfold ac_del. destruct (dict s n (fname f)) eqn:E; simpl; [|left; exact E].
      destruct b; simpl; left; apply upd_same.
  - exact Hc.
Qed.

Lemma run_cell_ok i os : forall s n f,
  (forall g, fname g = fname f -> g = f) ->
  cell_ok n f s -> Forall (fun o => ~ writes fname coerce n (fname f) o) os ->
  cell_ok n f (fst (run i s os)).
Proof.
  induction os as [|o os IH]; intros s n f Inj Hc H; [exact Hc|].
  inversion H; subst. simpl. pose proof (step_cell_ok i s o n f Inj Hc) as F.
  destruct (step i s o) as [s1 r]. specialize (IH s1 n f Inj).
  destruct (run i s1 os) as [s2 rs]. simpl in *. apply IH; [apply F|]; assumption.
Qed.

(** Never written: reads give the coerced default. *)
Lemma read_default i s h n f d w :
  (forall g, fname g = fname f -> g = f) ->
  dict s n (fname f) = None -> deflt f = Ok d -> coerce f d = Ok w ->
  Forall (fun o => ~ writes fname coerce n (fname f) o) h ->
  snd (step i (fst (run i s h)) (Get n f)) = Ok (OVal w).
Proof.
  intros Inj Hn Hd Hw Hh.
  assert (C : cell_ok n f (fst (run i s h))) by (apply run_cell_ok; [exact Inj|left; exact Hn|exact Hh]).
  simpl. unfold get. destruct C as [C|(d' & w' & D1 & D2 & C)]; rewrite C.
  - unfold get_default. rewrite Hd. simpl. unfold set_. rewrite Hw. reflexivity.
  - simpl. congruence.
Qed.

(** Deleted under the accelerator and not written since: back to default. *)
Lemma read_after_delete s h1 h2 n f d w (o : op) v :
  (forall g, fname g = fname f -> g = f) ->
  (o = Del n f \/ exists b, o = FDel n f b) ->
  deflt f = Ok d -> coerce f d = Ok w ->
  dict (fst (run Accel s h1)) n (fname f) = Some v ->
  Forall (fun o => ~ writes fname coerce n (fname f) o) h2 ->
  snd (step Accel (fst (run Accel s (h1 ++ o :: h2))) (Get n f)) = Ok (OVal w).
Proof.
  intros Inj Ho Hd Hw Hv Hh. rewrite run_app. set (s1 := fst (run Accel s h1)) in *.
  assert (D : dict (fst (step Accel s1 o)) n (fname f) = None).
  { destruct Ho as [->|[b ->]]; simpl; unfold ac_delete, ac_del; rewrite Hv; simpl.
    - apply upd_same.
    - destruct b; simpl; apply upd_same. }
  pose proof (read_default Accel (fst (step Accel s1 o)) h2 n f d w Inj D Hd Hw Hh) as R.
  cbn [Field_Model.run]. destruct (step Accel s1 o) as [s2 r]. simpl fst in R.
  destruct (run Accel s2 h2) as [s3 rs]. exact R.
Qed.

(** Failed sets are atomic. *)
Lemma set_fails_atomic i s n f v e (o : op) :
  (o = Set_ n f v \/ exists b, o = FSet n f v b) -> coerce f v = Exc e ->
  step i s o = (s, Exc (wrap_exn e)).
Proof.
  intros [->|[b ->]] H; simpl; unfold attr_set, fset, set_; rewrite H; reflexivity.
Qed.

(** Every exception whatever leaves the state unchanged. *)
Lemma exn_atomic i s o e : snd (step i s o) = Exc e -> fst (step i s o) = s.
Proof.
  destruct o as [n f|n f v|n f v b|n f|n f b|f|n f]; simpl.
  - unfold get. destruct (dict s n (fname f)); [discriminate|].
    unfold get_default. destruct (deflt f) as [d|]; [|reflexivity].
    unfold set_. destruct (coerce f d); [discriminate|reflexivity].
  - unfold attr_set, fset, set_. destruct (coerce f v); [discriminate|reflexivity].
  - unfold fset, set_. destruct (coerce f v); [discriminate|reflexivity].
  - destruct i; unfold py_delete, ac_delete, ac_del; destruct (dict s n (fname f));
      try discriminate; reflexivity.
  - destruct i; unfold py_fdel, py_delete, ac_del; destruct (dict s n (fname f));
      try discriminate; reflexivity.
  - unfold get_default. destruct (deflt f); [discriminate|reflexivity].
  - discriminate.
Qed.

(** Messages *)
Lemma step_log i s o :
  exists ms, log (fst (step i s o)) = log s ++ ms /\
    filter is_set_msg ms = announces coerce o /\
    (is_delete o = false -> ms = announces coerce o).
Proof.
  assert (NIL : forall s', log s' = log s -> exists ms, log s' = log s ++ ms /\
     filter is_set_msg ms = [] /\ ms = (@nil (msg (V:=V)))).
  { intros s' E. exists []. rewrite app_nil_r. auto. }
  destruct o as [n f|n f v|n f v b|n f|n f b|f|n f]; simpl.
  - destruct (NIL (fst (get fname coerce deflt s n f))) as (ms & A & B & C).
    + unfold get. destruct (dict s n (fname f)); [reflexivity|].
      unfold get_default. destruct (deflt f) as [d|]; [|reflexivity].
      simpl. unfold set_. destruct (coerce f d); reflexivity.
    + exists ms. subst ms. auto.
  - unfold attr_set, fset, set_. destruct (coerce f v) as [w|e]; simpl.
    + exists [MSet f n w]. auto.
    + exists []. rewrite app_nil_r. auto.
  - unfold fset, set_. destruct (coerce f v) as [w|e]; simpl.
    + destruct b; simpl.
      * exists [MSet f n w]. auto.
      * exists []. rewrite app_nil_r. auto.
    + exists []. rewrite app_nil_r. destruct b; auto.
  - destruct i.
    + exists []. rewrite app_nil_r. unfold py_delete. destruct (dict s n (fname f)); auto.
    + unfold ac_delete, ac_del. destruct (dict s n (fname f)); simpl.
      * exists [MDel f n]. repeat split; auto. discriminate.
      * exists []. rewrite app_nil_r. auto.
  - destruct i.
    + unfold py_fdel, py_delete. destruct (dict s n (fname f)); simpl.
      * destruct b; simpl; [exists [MDel f n]|exists []]; rewrite ?app_nil_r; repeat split; auto; discriminate.
      * exists []. rewrite app_nil_r. auto.
    + unfold ac_del. destruct (dict s n (fname f)); simpl.
      * destruct b; simpl; [exists [MDel f n]|exists []]; rewrite ?app_nil_r; repeat split; auto; discriminate.
      * exists []. rewrite app_nil_r. auto.
  - destruct (NIL (fst (get_default fname coerce deflt s None f))) as (ms & A & B & C).
    + unfold get_default. destruct (deflt f); reflexivity.
    + exists ms. subst ms. auto.
  - exists []. rewrite app_nil_r. auto.
Qed.

Lemma run_log i os : forall s,
  exists ms, log (fst (run i s os)) = log s ++ ms /\
    filter is_set_msg ms = flat_map (announces coerce) os /\
    (forallb (fun o => negb (is_delete o)) os = true -> ms = flat_map (announces coerce) os).
Proof.
  induction os as [|o os IH]; intros s; simpl.
  - exists []. rewrite app_nil_r. auto.
  - destruct (step_log i s o) as (m1 & A1 & B1 & C1). destruct (step i s o) as [s1 r].
    destruct (IH s1) as (m2 & A2 & B2 & C2). destruct (run i s1 os) as [s2 rs]. simpl in *.
    exists (m1 ++ m2). rewrite A2, A1, app_assoc. split; [reflexivity|]. split.
    + rewrite filter_app, B1, B2. reflexivity.
    + intros H. apply andb_prop in H. destruct H as [H1 H2].
      rewrite C2, C1; auto. destruct (is_delete o); [discriminate|reflexivity].
Qed.

Lemma last_heard_app n f (a b : list (msg (V:=V))) :
  last_heard n f (a ++ b) =
  match last_heard n f b with Some v => Some v | None => last_heard n f a end.
Proof.
  induction a as [|m a IH]; simpl; [destruct (last_heard n f b); reflexivity|].
  rewrite IH. destruct (last_heard n f b); [reflexivity|]. reflexivity.
Qed.

(** Watchers of notified-only, deletion-free histories know the value. *)
Definition notified (o : op (V:=V)) : bool :=
  match o with FSet _ _ _ false => false | Del _ _ | FDel _ _ _ => false | _ => true end.

Lemma watcher_step i s o n f :
  (forall g, fname g = fname f -> g = f) ->
  notified o = true ->
  (forall v, last_heard n f (log s) = Some v -> dict s n (fname f) = Some v) ->
  forall v, last_heard n f (log (fst (step i s o))) = Some v ->
            dict (fst (step i s o)) n (fname f) = Some v.
Proof.
  intros Inj Hn H v.
  destruct (step_log i s o) as (ms & A & _ & C).
  assert (is_delete o = false) as Hd by (destruct o; simpl in *; congruence).
  rewrite A, (C Hd), last_heard_app. clear A C.
  assert (K : forall v, announces coerce o = [] -> last_heard n f (log s) = Some v ->
              dict (fst (step i s o)) n (fname f) = Some v).
  { intros x Ha Hx. apply H in Hx. apply step_keeps; [exact Hx|].
    destruct o as [n' g|n' g w|n' g w b|n' g|n' g b|g|n' g]; simpl in *; try (intros []; fail); try discriminate.
    - intros (_ & _ & w' & E). rewrite E in Ha. discriminate.
    - intros (_ & _ & w' & E). destruct b; [|discriminate]. rewrite E in Ha. discriminate. }
  destruct (announces coerce o) as [|m ms'] eqn:EA.
  - simpl. apply K. reflexivity.
  - assert (exists n' g w x, (o = Set_ n' g w \/ o = FSet n' g w true) /\ coerce g w = Ok x /\ m = MSet g n' x /\ ms' = []) as (n' & g & w & x & Ho & Ec & -> & ->).
    { destruct o as [n' g|n' g w|n' g w b|n' g|n' g b|g|n' g]; simpl in *; try discriminate.
      - destruct (coerce g w) as [x|] eqn:Ec; [|discriminate]. injection EA as <- <-. exists n', g, w, x. auto.
      - destruct b; [|discriminate]. destruct (coerce g w) as [x|] eqn:Ec; [|discriminate]. injection EA as <- <-.
        exists n', g, w, x. auto. }
    simpl last_heard. destruct (Nat.eqb_spec n' n) as [En|En]; destruct (Nat.eqb_spec g f) as [Eg|Eg]; simpl.
    + subst. intros E. injection E as <-.
      destruct Ho as [->| ->]; simpl; rewrite ?attr_set_state, fset_dict; unfold set_; rewrite Ec; simpl; apply upd_same.
    + intros E. apply H in E. rewrite step_frame; [exact E|].
      destruct Ho as [->| ->]; simpl; intros X; injection X as -> X; apply Eg, Inj; exact X.
    + intros E. apply H in E. rewrite step_frame; [exact E|].
      destruct Ho as [->| ->]; simpl; congruence.
    + intros E. apply H in E. rewrite step_frame; [exact E|].
      destruct Ho as [->| ->]; simpl; congruence.
Qed.

Lemma watcher_run i os : forall s n f,
  (forall g, fname g = fname f -> g = f) ->
  Forall (fun o => notified o = true) os ->
  (forall v, last_heard n f (log s) = Some v -> dict s n (fname f) = Some v) ->
  forall v, last_heard n f (log (fst (run i s os))) = Some v ->
            dict (fst (run i s os)) n (fname f) = Some v.
Proof.
  induction os as [|o os IH]; intros s n f Inj Hn H; [exact H|].
  inversion Hn; subst. pose proof (watcher_step i s o n f Inj ltac:(assumption) H) as W.
  simpl. destruct (step i s o) as [s1 r]. simpl in W.
  specialize (IH s1 n f Inj ltac:(assumption) W). destruct (run i s1 os) as [s2 rs]. exact IH.
Qed.

(** Default materialisation *)
Lemma first_read i s n f d w :
  dict s n (fname f) = None -> deflt f = Ok d -> coerce f d = Ok w ->
  let r := step i s (Get n f) in
  snd r = Ok (OVal w) /\ log (fst r) = log s /\
  snd (step i s (Has n f)) = Ok (OBool false) /\
  snd (step i (fst r) (Has n f)) = Ok (OBool true) /\
  step i (fst r) (Get n f) = (fst r, Ok (OVal w)).
Proof.
  intros H Hd Hc r. unfold r. simpl. unfold get, get_default, fhas, set_. rewrite H, Hd. simpl.
  rewrite Hc. simpl. rewrite upd_same. repeat split; reflexivity.
Qed.

Lemma default_no_store i s f : fst (step i s (Default f)) = s.
Proof. simpl. unfold get_default. destruct (deflt f); reflexivity. Qed.

(** Deletion *)
Lemma accel_delete s n f v (o : op) :
  (o = Del n f \/ o = FDel n f true) -> dict s n (fname f) = Some v ->
  let r := step Accel s o in
  is_ok (snd r) = true /\ dict (fst r) n (fname f) = None /\ log (fst r) = log s ++ [MDel f n].
Proof.
  intros [->| ->] H r; unfold r; simpl; unfold ac_delete, ac_del; rewrite H; simpl;
  rewrite upd_same; auto.
Qed.
Lemma delete_unset i s n f (o : op) :
  (o = Del n f \/ exists b, o = FDel n f b) -> dict s n (fname f) = None ->
  step i s o = (s, Exc AttributeError).
Proof.
  intros [->|[b ->]] H; destruct i; simpl; unfold py_fdel, ac_delete, ac_del, py_delete; rewrite H; reflexivity.
Qed.
Lemma pure_delete_keeps s n f v (o : op) :
  (o = Del n f \/ exists b, o = FDel n f b) -> dict s n (fname f) = Some v ->
  let r := step Pure s o in
  is_ok (snd r) = true /\ dict (fst r) = dict s.
Proof.
  intros [->|[b ->]] H r; unfold r; simpl; unfold py_fdel, py_delete; rewrite H; simpl; [auto|].
  destruct b; auto.
Qed.

(** Both implementations agree up to deletions. *)
Lemma impl_agree os : forall s,
  forallb (fun o => negb (is_delete o)) os = true ->
  run Pure s os = run Accel s os.
Proof.
  induction os as [|o os IH]; intros s H; [reflexivity|].
  simpl in H. apply andb_prop in H. destruct H as [H1 H2].
  assert (step Pure s o = step Accel s o) as E by (destruct o; simpl in *; congruence).
  simpl. rewrite E. destruct (step Accel s o) as [s1 r]. rewrite IH by assumption. reflexivity.
Qed.
End Proofs.
