From Verif Require Import Base PyDict PyDict_Proofs Cache_Model Cache_Spec.

Lemma upd_same {A} (f : nat -> A) n a : upd f n a n = a.
Proof. unfold upd. rewrite Nat.eqb_refl. reflexivity. Qed.
Lemma upd_other {A} (f : nat -> A) n a m : m <> n -> upd f n a m = f m.
Proof. intros H. unfold upd. rewrite (proj2 (Nat.eqb_neq m n) H). reflexivity. Qed.

Section C.
Context {K D : Type}.
Variable keqb : K -> K -> bool.
Hypothesis keqb_spec : forall a b, keqb a b = true <-> a = b.
Variable truthy : nat -> bool.
Notation state := (state K D).
Notation getHolder := (getHolder keqb).
Notation call := (call keqb).
Notation clear := (clear keqb truthy).
Notation step := (step keqb truthy (D := D)).
Notation run := (run keqb truthy (D := D)).
Notation notify := (notify keqb truthy).
Notation collect := (collect keqb).

Record inv (s : state) : Prop := {
  i_live : forall o, live s o = true -> o < next s;
  i_hold : forall h x, hold s h = Some x -> h < next s /\ h_client x < next s;
  i_addr : forall o o', live s o = true -> live s o' = true -> addr s o = addr s o' -> o = o';
  i_nodup : forall a cur, cache s a = Some cur -> NoDup (dkeys cur);
  i_entry : forall a cur k h, cache s a = Some cur -> dget keqb cur k = Some h ->
     live s h = true /\ exists x, hold s h = Some x /\ live s (h_client x) = true /\
     addr s (h_client x) = a /\ h_key x = k
}.

(** what callbacks may change: data is dropped, entries disappear *)
Record frame (s s' : state) : Prop := {
  f_next : next s' = next s;
  f_live : live s' = live s;
  f_addr : addr s' = addr s;
  f_none : forall h, hold s h = None -> hold s' h = None;
  f_some : forall h x, hold s h = Some x -> exists x', hold s' h = Some x' /\ h_client x' = h_client x /\
     h_key x' = h_key x /\ h_sigs x' = h_sigs x /\ (h_data x' = h_data x \/ h_data x' = None) /\
     incl (h_objs x') (h_objs x);
  f_cache : forall a cur', cache s' a = Some cur' -> exists cur, cache s a = Some cur /\
     (NoDup (dkeys cur) -> NoDup (dkeys cur') /\
      forall k h, dget keqb cur' k = Some h -> dget keqb cur k = Some h)
}.
Lemma frame_refl s : frame s s.
Proof.
  split; auto.
  - intros h x E. exists x. repeat split; auto. intros y I. exact I.
  - intros a cur E. exists cur. split; [exact E|]. auto.
Qed.
Lemma frame_trans s s1 s2 : frame s s1 -> frame s1 s2 -> frame s s2.
Proof.
  intros [A1 A2 A3 A4 A5 A6] [B1 B2 B3 B4 B5 B6]. split; try congruence.
  - auto.
  - intros h x E. destruct (A5 h x E) as (x1 & E1 & C1 & K1 & S1 & D1 & O1).
    destruct (B5 h x1 E1) as (x2 & E2 & C2 & K2 & S2 & D2 & O2). exists x2.
    repeat split; try congruence.
    + destruct D2 as [D2|D2]; [|auto]. destruct D1; [left|right]; congruence.
    + intros y I. apply O1, O2, I.
  - intros a c2 E2. destruct (B6 a c2 E2) as (c1 & E1 & H1). destruct (A6 a c1 E1) as (c & E & H).
    exists c. split; [exact E|]. intros N. destruct (H N) as [N1 G1]. destruct (H1 N1) as [N2 G2]. split; auto.
Qed.
Lemma frame_inv s s' : frame s s' -> inv s -> inv s'.
Proof.
  intros [A1 A2 A3 A4 A5 A6] [I1 I2 I3 I4 I5]. split.
  - rewrite A1, A2. exact I1.
  - intros h x' E. destruct (hold s h) as [x|] eqn:H; [|rewrite (A4 h H) in E; discriminate].
    destruct (A5 h x H) as (x1 & E1 & C1 & _). rewrite E in E1. injection E1 as <-.
    rewrite A1, C1. apply (I2 h x H).
  - rewrite A2, A3. exact I3.
  - intros a c' E. destruct (A6 a c' E) as (c & Ec & H). apply H, (I4 a c Ec).
  - intros a c' k h E G. destruct (A6 a c' E) as (c & Ec & H). destruct (H (I4 a c Ec)) as [_ Gc].
    destruct (I5 a c k h Ec (Gc k h G)) as (L & x & Hx & Lc & Ac & Kx).
    destruct (A5 h x Hx) as (x' & E' & C' & K' & _). rewrite A2, A3. split; [exact L|].
    exists x'. rewrite C', K'. auto.
Qed.
Lemma set_hold_frame s h x y : hold s h = Some x -> h_client y = h_client x -> h_key y = h_key x ->
  h_sigs y = h_sigs x -> (h_data y = h_data x \/ h_data y = None) -> incl (h_objs y) (h_objs x) ->
  frame s (set_hold s h y).
Proof.
  intros E C Kx S Dt O. split; try reflexivity.
  - intros h' N. cbn. destruct (Nat.eq_dec h' h) as [->|Ne]; [congruence|]. rewrite upd_other by exact Ne. exact N.
  - intros h' x' E'. cbn. destruct (Nat.eq_dec h' h) as [->|Ne].
    + rewrite upd_same. rewrite E in E'. injection E' as <-. exists y. repeat split; auto.
    + rewrite upd_other by exact Ne. exists x'. repeat split; auto. intros z I. exact I.
  - intros a cur E'. exists cur. split; [exact E'|auto].
Qed.
Lemma del_frame s ca cur k : cache s ca = Some cur ->
  frame s (set_cache s ca (match ddel keqb cur k with [] => None | _ => Some (ddel keqb cur k) end)).
Proof.
  intros E. split; try reflexivity; auto.
  - intros h x Hx. exists x. repeat split; auto. intros z I. exact I.
  - intros a c'. cbn. destruct (Nat.eq_dec a ca) as [->|Ne].
    + rewrite upd_same. intros E'. assert (c' = ddel keqb cur k) as -> by (destruct (ddel keqb cur k); [discriminate|injection E' as <-; reflexivity]).
      exists cur. split; [exact E|]. intros N. split; [apply nodup_ddel; assumption|].
      intros k' h G. destruct (keqb k k') eqn:Ek.
      * apply keqb_spec in Ek. subst. rewrite dget_ddel_same in G by assumption. discriminate.
      * rewrite dget_ddel_other in G; [exact G|assumption|]. intros ->.
        assert (X : keqb k' k' = true) by (apply keqb_spec; reflexivity). congruence.
    + rewrite upd_other by exact Ne. intros E'. exists c'. split; [exact E'|auto].
Qed.
Lemma call_frame s h : frame s (call s h).
Proof.
  unfold Cache_Model.call. destruct (hold s h) as [x|] eqn:E; [|apply frame_refl].
  destruct (live s (h_client x)); [|apply frame_refl].
  assert (F1 : frame s (set_hold s h (with_data x None))).
  { apply (set_hold_frame s h x); [exact E|reflexivity|reflexivity|reflexivity|right; reflexivity|]. intros z I. exact I. }
  cbn [cache set_hold]. destruct (cache s (addr s (h_client x))) as [cur|] eqn:Ec; [|exact F1].
  destruct (dget keqb cur (h_key x)); [|exact F1].
  eapply frame_trans; [exact F1|]. eapply frame_trans; [apply del_frame; exact Ec|].
  apply (set_hold_frame _ h (with_data x None)); [cbn; apply upd_same|reflexivity|reflexivity|reflexivity|right; reflexivity|].
  intros z [].
Qed.
Lemma clear_frame s h : frame s (clear s h).
Proof.
  unfold Cache_Model.clear. destruct (hold s h) as [x|] eqn:E; [|apply frame_refl].
  destruct (live s (h_client x) && truthy (h_client x)); [|apply call_frame].
  apply (set_hold_frame s h x); [exact E|reflexivity|reflexivity|reflexivity|right; reflexivity|]. intros z I. exact I.
Qed.
Lemma fold_frame (f : state -> nat -> state) l : (forall s h, frame s (f s h)) -> forall s, frame s (fold_left f l s).
Proof.
  intros H. induction l as [|h l IH]; intros s; cbn; [apply frame_refl|].
  eapply frame_trans; [apply H|apply IH].
Qed.
Lemma notify_frame s n f : frame s (notify s n f).
Proof. apply fold_frame, clear_frame. Qed.

Lemma holders_In (s : state) p h : (forall o, live s o = true -> o < next s) ->
  (In h (holders s p) <-> live s h = true /\ exists x, hold s h = Some x /\ p x = true).
Proof.
  intros I. unfold holders. rewrite filter_In, in_seq, andb_true_iff. split.
  - intros (_ & L & H). split; [exact L|]. destruct (hold s h) as [x|]; [eauto|discriminate].
  - intros (L & x & E & P). split; [specialize (I h L); lia|]. split; [exact L|]. rewrite E. exact P.
Qed.

(** the part of collect before the dependency callbacks *)
Definition collect1 (s : state) (o : nat) : state :=
  let s1 := {| next := next s; live := upd (live s) o false; addr := addr s; hold := hold s; cache := cache s |} in
  match holders s1 (fun x => Nat.eqb (h_client x) o) with
  | [] => s1
  | _ => set_cache s1 (addr s1 o) None
  end.
Lemma collect_eq s o : collect s o = fold_left call (holders (collect1 s o) (fun x => memn o (h_objs x))) (collect1 s o).
Proof. reflexivity. Qed.
Lemma collect1_proj s o : next (collect1 s o) = next s /\ live (collect1 s o) = upd (live s) o false /\
  addr (collect1 s o) = addr s /\ hold (collect1 s o) = hold s /\
  (forall a c, cache (collect1 s o) a = Some c -> cache s a = Some c).
Proof.
  unfold collect1. destruct (holders _ _); repeat split; auto.
  intros a c. cbn. unfold upd. destruct (Nat.eqb a (addr s o)); [discriminate|auto].
Qed.
Lemma collect1_inv s o : inv s -> live s o = true -> in_cache keqb s o = false -> inv (collect1 s o).
Proof.
  intros [I1 I2 I3 I4 I5] Lo NC. destruct (collect1_proj s o) as (P1 & P2 & P3 & P4 & P5).
  assert (Lup : forall o', upd (live s) o false o' = true -> live s o' = true /\ o' <> o).
  { intros o'. unfold upd. destruct (Nat.eqb o' o) eqn:E; [discriminate|]. apply Nat.eqb_neq in E. auto. }
  split.
  - rewrite P1, P2. intros o' L. apply I1, Lup, L.
  - rewrite P1, P4. exact I2.
  - rewrite P2, P3. intros a b La Lb. apply I3; apply Lup; assumption.
  - intros a c E. eapply I4, P5, E.
  - intros a c k h E G. destruct (I5 a c k h (P5 a c E) G) as (L & x & Hx & Lc & Ac & Kx).
    rewrite P2, P3, P4.
    assert (Nh : h <> o).
    { intros ->. unfold in_cache in NC. rewrite Hx, Ac, (P5 a c E), Kx, G, Nat.eqb_refl in NC. discriminate. }
    assert (Nc : h_client x <> o).
    { intros Ec. unfold collect1 in E.
      match type of E with cache (match ?H with _ => _ end) _ = _ => destruct H as [|h0 l] eqn:EH end.
      - assert (X : In h []); [|destruct X]. rewrite <- EH. apply holders_In.
        + cbn. intros o' L'. apply I1, Lup, L'.
        + cbn. split; [rewrite upd_other by exact Nh; exact L|]. exists x. split; [exact Hx|]. apply Nat.eqb_eq, Ec.
      - cbn in E. rewrite <- Ac, Ec, upd_same in E. discriminate. }
    split; [rewrite upd_other by exact Nh; exact L|]. exists x. rewrite upd_other by exact Nc. auto.
Qed.

Lemma free_addr_spec s a : inv s -> (free_addr s a = true <-> forall o, live s o = true -> addr s o <> a).
Proof.
  intros I. unfold free_addr. rewrite forallb_forall. split.
  - intros H o L E. specialize (H o). rewrite in_seq, L, E, Nat.eqb_refl in H.
    pose proof (i_live _ I o L). discriminate H. lia.
  - intros H o _. destruct (live s o) eqn:L; [|reflexivity]. cbn.
    rewrite (proj2 (Nat.eqb_neq _ _) (H o L)). reflexivity.
Qed.
Lemma alloc_inv s a : inv s -> free_addr s a = true -> inv (alloc s a).
Proof.
  intros I F. pose proof I as [I1 I2 I3 I4 I5]. pose proof (proj1 (free_addr_spec s a I) F) as FA.
  assert (Lup : forall o', upd (live s) (next s) true o' = true -> o' = next s \/ (live s o' = true /\ o' <> next s)).
  { intros o'. unfold upd. destruct (Nat.eqb o' (next s)) eqn:E; [apply Nat.eqb_eq in E; auto|].
    apply Nat.eqb_neq in E. auto. }
  split; cbn.
  - intros o L. destruct (Lup o L) as [->|[L' _]]; [lia|]. specialize (I1 o L'). lia.
  - intros h x E. destruct (I2 h x E). lia.
  - intros o o' L L' E. destruct (Lup o L) as [->|[Lo No]], (Lup o' L') as [->|[Lo' No']]; auto.
    + rewrite upd_same, upd_other in E by exact No'. exfalso. apply (FA o' Lo'). congruence.
    + rewrite upd_same, upd_other in E by exact No. exfalso. apply (FA o Lo). congruence.
    + rewrite !upd_other in E by assumption. apply I3; assumption.
  - exact I4.
  - intros a' c k h E G. destruct (I5 a' c k h E G) as (L & x & Hx & Lc & Ac & Kx).
    pose proof (I1 h L). pose proof (I1 _ Lc).
    rewrite upd_other by lia. split; [exact L|]. exists x. rewrite !upd_other by lia. auto.
Qed.
Lemma set_hold_inv s h x y : hold s h = Some x -> h_client y = h_client x -> h_key y = h_key x ->
  inv s -> inv (set_hold s h y).
Proof.
  intros E C Kx [I1 I2 I3 I4 I5]. split; cbn; auto.
  - intros h' x'. destruct (Nat.eq_dec h' h) as [->|Ne].
    + rewrite upd_same. intros [= <-]. rewrite C. apply (I2 h x E).
    + rewrite upd_other by exact Ne. apply I2.
  - intros a c k h' Ec G. destruct (I5 a c k h' Ec G) as (L & x' & Hx & Lc & Ac & Kk). split; [exact L|].
    destruct (Nat.eq_dec h' h) as [->|Ne].
    + rewrite upd_same. rewrite E in Hx. injection Hx as <-. exists y. rewrite C, Kx. auto.
    + rewrite upd_other by exact Ne. exists x'. auto.
Qed.
Lemma new_holder_inv s c k a d : inv s -> live s c = true -> free_addr s a = true -> inv (new_holder keqb s c k a d).
Proof.
  intros I Lc F. pose proof (alloc_inv s a I F) as [I1 I2 I3 I4 I5].
  pose proof (i_live _ I c Lc) as Cn. unfold new_holder. split; cbn.
  - exact I1.
  - intros h x. destruct (Nat.eq_dec h (next s)) as [->|Ne].
    + rewrite upd_same. intros [= <-]. cbn. lia.
    + rewrite upd_other by exact Ne. apply I2.
  - exact I3.
  - intros a' c'. destruct (Nat.eq_dec a' (upd (addr s) (next s) a c)) as [->|Ne].
    + rewrite upd_same. intros [= <-]. apply nodup_dset; [exact keqb_spec|].
      destruct (cache s (upd (addr s) (next s) a c)) as [cur|] eqn:Ec; [eapply I4, Ec|constructor].
    + rewrite upd_other by exact Ne. apply I4.
  - intros a' c' k' h. rewrite upd_other with (n := next s) (m := c) by lia.
    destruct (Nat.eq_dec a' (addr s c)) as [->|Ne].
    + rewrite upd_same. intros [= <-] G. destruct (keqb k k') eqn:Ek.
      * apply keqb_spec in Ek. subst. rewrite dget_dset_same in G by exact keqb_spec. injection G as <-.
        rewrite !upd_same. split; [reflexivity|]. eexists. split; [reflexivity|]. cbn.
        rewrite !upd_other by lia. auto.
      * rewrite dget_dset_other in G; [|exact keqb_spec|].
        2:{ intros ->. assert (X : keqb k' k' = true) by (apply keqb_spec; reflexivity). congruence. }
        destruct (cache s (addr s c)) as [cur|] eqn:Ec; [|discriminate].
        destruct (I5 (addr s c) cur k' h Ec G) as (L & x & Hx & Lx & Ax & Kx). cbn in *.
        split; [exact L|]. pose proof (proj1 (i_hold _ I h x Hx)). rewrite upd_other by lia. exists x. auto.
    + rewrite upd_other by exact Ne. intros Ec G.
      destruct (I5 a' c' k' h Ec G) as (L & x & Hx & Lx & Ax & Kx). cbn in *.
      split; [exact L|]. pose proof (proj1 (i_hold _ I h x Hx)). rewrite upd_other by lia. exists x. auto.
Qed.
Lemma step_inv s o : inv s -> inv (step s o).
Proof.
  intros I. destruct o as [a|c k a d|h d|h n f|h n|n f|h|h|o]; cbn.
  - destruct (free_addr s a) eqn:F; [apply alloc_inv; assumption|exact I].
  - destruct (live s c) eqn:L; [|exact I]. destruct (free_addr s a) eqn:F; [apply new_holder_inv; assumption|exact I].
  - destruct (hold s h) as [x|] eqn:E; [|exact I]. destruct (live s h); [|exact I].
    eapply set_hold_inv; try eassumption; reflexivity.
  - destruct (hold s h) as [x|] eqn:E; [|exact I]. destruct (live s h && live s n); [|exact I].
    eapply set_hold_inv; try eassumption; reflexivity.
  - destruct (hold s h) as [x|] eqn:E; [|exact I]. destruct (live s h && live s n); [|exact I].
    eapply set_hold_inv; try eassumption; reflexivity.
  - destruct (live s n); [|exact I]. eapply frame_inv; [apply notify_frame|exact I].
  - destruct (is_holder s h); [|exact I]. eapply frame_inv; [apply clear_frame|exact I].
  - destruct (is_holder s h); [|exact I]. eapply frame_inv; [apply call_frame|exact I].
  - destruct (live s o) eqn:L; [|exact I]. destruct (in_cache keqb s o) eqn:C; [exact I|].
    change (inv (collect s o)). rewrite collect_eq. eapply frame_inv; [apply fold_frame, call_frame|].
    apply collect1_inv; assumption.
Qed.
Lemma empty_inv : inv empty.
Proof. split; cbn; discriminate. Qed.
Lemma run_inv os : forall s, inv s -> inv (run s os).
Proof. induction os as [|o os IH]; intros s I; [exact I|]. cbn. apply IH, step_inv, I. Qed.

(** ** liveness is never regained; holders keep client, key and dependencies *)
Lemma live_step s o x : inv s -> live (step s o) x = true -> x < next s -> live s x = true.
Proof.
  intros I. assert (AL : forall a, live (alloc s a) x = true -> x < next s -> live s x = true).
  { intros a. cbn. intros L Lt. rewrite upd_other in L by lia. exact L. }
  destruct o as [a|c k a d|h d|h n f|h n|n f|h|h|o]; cbn.
  - destruct (free_addr s a); [apply AL|auto].
  - destruct (live s c && free_addr s a); [|auto]. cbn. intros L Lt. rewrite upd_other in L by lia. exact L.
  - destruct (hold s h); [|auto]. destruct (live s h); auto.
  - destruct (hold s h); [|auto]. destruct (live s h && live s n); auto.
  - destruct (hold s h); [|auto]. destruct (live s h && live s n); auto.
  - destruct (live s n); [|auto]. rewrite (f_live _ _ (notify_frame s n f)). auto.
  - destruct (is_holder s h); [|auto]. rewrite (f_live _ _ (clear_frame s h)). auto.
  - destruct (is_holder s h); [|auto]. rewrite (f_live _ _ (call_frame s h)). auto.
  - destruct (live s o && negb (in_cache keqb s o)); [|auto]. change (Cache_Model.collect keqb s o) with (collect s o).
    rewrite collect_eq, (f_live _ _ (fold_frame call _ call_frame _)).
    rewrite (proj1 (proj2 (collect1_proj s o))). unfold upd. destruct (Nat.eqb x o); [discriminate|auto].
Qed.
Lemma next_step (s : state) o : next s <= next (step s o).
Proof.
  destruct o as [a|c k a d|h d|h n f|h n|n f|h|h|o]; cbn.
  - destruct (free_addr s a); cbn; lia.
  - destruct (live s c && free_addr s a); cbn; lia.
  - destruct (hold s h); [|lia]. destruct (live s h); cbn; lia.
  - destruct (hold s h); [|lia]. destruct (live s h && live s n); cbn; lia.
  - destruct (hold s h); [|lia]. destruct (live s h && live s n); cbn; lia.
  - destruct (live s n); [|lia]. rewrite (f_next _ _ (notify_frame s n f)). lia.
  - destruct (is_holder s h); [|lia]. rewrite (f_next _ _ (clear_frame s h)). lia.
  - destruct (is_holder s h); [|lia]. rewrite (f_next _ _ (call_frame s h)). lia.
  - destruct (live s o && negb (in_cache keqb s o)); [|lia]. change (Cache_Model.collect keqb s o) with (collect s o).
    rewrite collect_eq, (f_next _ _ (fold_frame call _ call_frame _)).
    rewrite (proj1 (collect1_proj s o)). lia.
Qed.
Lemma live_run os : forall s x, inv s -> live (run s os) x = true -> x < next s -> live s x = true.
Proof.
  induction os as [|o os IH]; intros s x I L Lt; [exact L|]. cbn in L.
  eapply live_step; [exact I| |exact Lt]. apply IH; [apply step_inv, I|exact L|].
  pose proof (next_step s o). lia.
Qed.

Lemma hold_step s o h x : inv s -> hold s h = Some x ->
  exists x', hold (step s o) h = Some x' /\ h_client x' = h_client x /\ h_key x' = h_key x /\
    incl (h_sigs x) (h_sigs x') /\
    (live s h = true -> match sets h o with
                        | Some d => h_data x' = d
                        | None => h_data x' = h_data x \/ h_data x' = None
                        end).
Proof.
  intros I E. pose proof (i_hold _ I h x E) as [Hn _].
  assert (SAME : sets h o = None -> exists x', Some x = Some x' /\ h_client x' = h_client x /\ h_key x' = h_key x /\
    incl (h_sigs x) (h_sigs x') /\
    (live s h = true -> match sets h o with Some d => h_data x' = d | None => h_data x' = h_data x \/ h_data x' = None end)).
  { intros ->. exists x. repeat split; auto. intros z Iz. exact Iz. }
  assert (FR : forall s', frame s s' -> sets h o = None -> exists x', hold s' h = Some x' /\ h_client x' = h_client x /\ h_key x' = h_key x /\
    incl (h_sigs x) (h_sigs x') /\
    (live s h = true -> match sets h o with Some d => h_data x' = d | None => h_data x' = h_data x \/ h_data x' = None end)).
  { intros s' F ->. destruct (f_some _ _ F h x E) as (x' & E' & C & Kx & S & Dt & _). exists x'.
    repeat split; auto. rewrite S. intros z Iz. exact Iz. }
  destruct o as [a|c k a d|h' d|h' n f|h' n|n f|h'|h'|o]; cbn -[sets].
  - destruct (free_addr s a); cbn -[sets]; rewrite E; apply SAME; reflexivity.
  - destruct (live s c && free_addr s a); cbn -[sets]; [rewrite upd_other by lia|]; rewrite E; apply SAME; reflexivity.
  - cbn. destruct (Nat.eqb h' h) eqn:Eh.
    + apply Nat.eqb_eq in Eh. subst. rewrite E. destruct (live s h) eqn:L.
      * cbn. rewrite upd_same. exists (with_data x d). repeat split; auto. intros z Iz. exact Iz.
      * rewrite E. exists x. repeat split; auto; try discriminate. intros z Iz. exact Iz.
    + apply Nat.eqb_neq in Eh. destruct (hold s h') as [y|] eqn:E'; [destruct (live s h')|]; cbn;
        [rewrite upd_other by congruence| |]; rewrite E; exists x; repeat split; auto; intros z Iz; exact Iz.
  - cbn. destruct (hold s h') as [y|] eqn:E'; [destruct (live s h' && live s n) eqn:LL|]; cbn;
      [|rewrite E; exists x; repeat split; auto; intros z Iz; exact Iz|rewrite E; exists x; repeat split; auto; intros z Iz; exact Iz].
    destruct (Nat.eq_dec h h') as [->|Ne].
    + rewrite upd_same. rewrite E in E'. injection E' as <-. eexists. split; [reflexivity|]. cbn.
      repeat split; auto. intros z Iz. apply in_or_app. auto.
    + rewrite upd_other by exact Ne. rewrite E. exists x. repeat split; auto. intros z Iz. exact Iz.
  - cbn. destruct (hold s h') as [y|] eqn:E'; [destruct (live s h' && live s n) eqn:LL|]; cbn;
      [|rewrite E; exists x; repeat split; auto; intros z Iz; exact Iz|rewrite E; exists x; repeat split; auto; intros z Iz; exact Iz].
    destruct (Nat.eq_dec h h') as [->|Ne].
    + rewrite upd_same. rewrite E in E'. injection E' as <-. eexists. split; [reflexivity|]. cbn.
      repeat split; auto. intros z Iz. exact Iz.
    + rewrite upd_other by exact Ne. rewrite E. exists x. repeat split; auto. intros z Iz. exact Iz.
  - destruct (live s n); [apply FR; [apply notify_frame|reflexivity]|rewrite E; apply SAME; reflexivity].
  - destruct (is_holder s h'); [apply FR; [apply clear_frame|reflexivity]|rewrite E; apply SAME; reflexivity].
  - destruct (is_holder s h'); [apply FR; [apply call_frame|reflexivity]|rewrite E; apply SAME; reflexivity].
  - destruct (live s o && negb (in_cache keqb s o)); [|rewrite E; apply SAME; reflexivity].
    change (Cache_Model.collect keqb s o) with (collect s o). rewrite collect_eq.
    destruct (collect1_proj s o) as (_ & _ & _ & P4 & _).
    assert (E1 : hold (collect1 s o) h = Some x) by (rewrite P4; exact E).
    destruct (f_some _ _ (fold_frame call (holders (collect1 s o) (fun x => memn o (h_objs x))) call_frame (collect1 s o)) h x E1)
      as (x' & E' & C & Kx & S & Dt & _).
    exists x'. repeat split; auto. rewrite S. intros z Iz. exact Iz.
Qed.

Lemma hold_run os : forall s h x, inv s -> hold s h = Some x -> live (run s os) h = true ->
  exists x', hold (run s os) h = Some x' /\ h_client x' = h_client x /\ h_key x' = h_key x /\
    incl (h_sigs x) (h_sigs x') /\
    match last_set h os with
    | Some d => h_data x' = d \/ h_data x' = None
    | None => h_data x' = h_data x \/ h_data x' = None
    end.
Proof.
  induction os as [|o os IH]; intros s h x I E L.
  - exists x. cbn. repeat split; auto. intros z Iz. exact Iz.
  - cbn [Cache_Model.run fold_left] in *. change (fold_left step os (step s o)) with (run (step s o) os) in *.
    destruct (hold_step s o h x I E) as (x1 & E1 & C1 & K1 & S1 & D1).
    destruct (IH _ h x1 (step_inv s o I) E1 L) as (x2 & E2 & C2 & K2 & S2 & D2).
    exists x2. split; [exact E2|]. split; [congruence|]. split; [congruence|].
    split; [intros z Iz; apply S2, S1, Iz|].
    cbn [last_set]. destruct (last_set h os) as [d|]; [exact D2|].
    assert (Ls : live s h = true).
    { pose proof (i_hold _ I h x E) as [Hn _]. eapply live_step; [exact I| |exact Hn].
      eapply live_run; [apply step_inv, I|exact L|]. pose proof (next_step s o). lia. }
    specialize (D1 Ls). destruct (sets h o) as [d|].
    + rewrite <- D1. exact D2.
    + destruct D2 as [->|]; [exact D1|auto].
Qed.

Lemma mem2_In p l : mem2 p l = true <-> In p l.
Proof.
  unfold mem2. rewrite existsb_exists. split.
  - intros ([a b] & I & E). cbn in E. rewrite andb_true_iff, !Nat.eqb_eq in E. destruct E, p; cbn in *. subst. exact I.
  - intros I. exists p. rewrite !Nat.eqb_refl. auto.
Qed.

Lemma clear_data (s : state) h x : hold s h = Some x -> live s (h_client x) = true ->
  exists x', hold (clear s h) h = Some x' /\ h_data x' = None.
Proof.
  intros E L. unfold Cache_Model.clear. rewrite E, L. cbn. destruct (truthy (h_client x)).
  - cbn. rewrite upd_same. eexists; split; reflexivity.
  - unfold Cache_Model.call. rewrite E, L. cbn [cache set_hold].
    destruct (cache s (addr s (h_client x))) as [cur|]; [|cbn; rewrite upd_same; eexists; split; reflexivity].
    destruct (dget keqb cur (h_key x)); cbn; rewrite upd_same; eexists; split; reflexivity.
Qed.
Lemma fold_clear_data l : forall (s : state) h x, hold s h = Some x -> live s (h_client x) = true ->
  h_data x = None \/ In h l -> exists x', hold (fold_left clear l s) h = Some x' /\ h_data x' = None.
Proof.
  induction l as [|h' l IH]; intros s h x E L H; cbn.
  - destruct H as [H|[]]. eauto.
  - destruct (f_some _ _ (clear_frame s h') h x E) as (x1 & E1 & C1 & _ & _ & D1 & _).
    assert (L1 : live (clear s h') (h_client x1) = true) by (rewrite (f_live _ _ (clear_frame s h')), C1; exact L).
    apply (IH _ h x1 E1 L1). destruct H as [H|[<-|H]].
    + left. destruct D1; congruence.
    + left. destruct (clear_data s h' x E L) as (x2 & E2 & D2). congruence.
    + right. exact H.
Qed.
Lemma notify_clears (s : state) n f h x : inv s -> hold s h = Some x -> live s h = true ->
  live s (h_client x) = true -> In (n, f) (h_sigs x) ->
  exists x', hold (notify s n f) h = Some x' /\ h_data x' = None.
Proof.
  intros I E L Lc In2. unfold Cache_Model.notify. eapply fold_clear_data; [exact E|exact Lc|].
  right. apply holders_In; [apply i_live, I|]. split; [exact L|]. exists x. split; [exact E|]. apply mem2_In, In2.
Qed.

(** ** No stale data *)
Theorem no_stale os1 n f os2 h x1 c k d :
  let s1 := run empty os1 in
  let s2 := run s1 (Notify n f :: os2) in
  hold s1 h = Some x1 -> In (n, f) (h_sigs x1) -> live s1 n = true ->
  getHolder s2 c k = Some h -> getData keqb s2 c k = Some (Some d) ->
  last_set h os2 = Some (Some d).
Proof.
  intros s1 s2 E1 Dep Ln G Gd.
  assert (I1 : inv s1) by apply run_inv, empty_inv.
  assert (I2 : inv s2) by (apply run_inv, I1).
  unfold Cache_Model.getData in Gd. rewrite G in Gd.
  unfold Cache_Model.getHolder in G. destruct (cache s2 (addr s2 c)) as [cur|] eqn:Ec; [|discriminate].
  destruct (i_entry _ I2 _ _ _ _ Ec G) as (L2 & x2 & Hx2 & Lc2 & _ & _).
  rewrite Hx2 in Gd. injection Gd as Gd.
  pose proof (i_hold _ I1 h x1 E1) as [Hn Cn].
  assert (L1 : live s1 h = true) by (eapply live_run; [exact I1|exact L2|exact Hn]).
  destruct (hold_step s1 (Notify n f) h x1 I1 E1) as (xn & En & Cxn & _ & _ & _).
  pose proof (step_inv s1 (Notify n f) I1) as In1.
  change s2 with (run (step s1 (Notify n f)) os2) in *.
  destruct (hold_run os2 (step s1 (Notify n f)) h xn In1 En L2) as (x2' & E2' & C2 & _ & _ & D2).
  rewrite Hx2 in E2'. injection E2' as <-.
  assert (Lc1 : live s1 (h_client x1) = true).
  { rewrite C2, Cxn in Lc2. eapply (live_run (Notify n f :: os2)); [exact I1|exact Lc2|exact Cn]. }
  cbn in En. rewrite Ln in En.
  destruct (notify_clears s1 n f h x1 I1 E1 L1 Lc1 Dep) as (xc & Exc & Dxc).
  rewrite En in Exc. injection Exc as <-.
  destruct (last_set h os2) as [d'|]; destruct D2 as [D2|D2]; congruence.
Qed.

(** ** Entries belong to their client *)
Theorem entry_belongs (s : state) c k h : inv s -> live s c = true -> getHolder s c k = Some h ->
  exists x, hold s h = Some x /\ h_client x = c /\ h_key x = k.
Proof.
  intros I L G. unfold Cache_Model.getHolder in G.
  destruct (cache s (addr s c)) as [cur|] eqn:Ec; [|discriminate].
  destruct (i_entry _ I _ _ _ _ Ec G) as (_ & x & Hx & Lx & Ax & Kx).
  exists x. split; [exact Hx|]. split; [|exact Kx]. apply (i_addr _ I); assumption.
Qed.
Theorem fresh_sees_nothing (s : state) a k : inv s -> free_addr s a = true ->
  getHolder (step s (New a)) (next s) k = None.
Proof.
  intros I F. cbn. rewrite F. unfold Cache_Model.getHolder. cbn. rewrite upd_same.
  destruct (cache s a) as [cur|] eqn:Ec; [|reflexivity].
  destruct (dget keqb cur k) as [h|] eqn:G; [|reflexivity].
  destruct (i_entry _ I _ _ _ _ Ec G) as (_ & x & _ & Lx & Ax & _).
  exfalso. eapply (proj1 (free_addr_spec s a I) F); eassumption.
Qed.
Lemma collect_live (s : state) c : live s c = true -> in_cache keqb s c = false -> live (step s (Collect c)) c = false.
Proof.
  intros L N. cbn. rewrite L, N. cbn. change (Cache_Model.collect keqb s c) with (collect s c).
  rewrite collect_eq, (f_live _ _ (fold_frame call _ call_frame _)).
  rewrite (proj1 (proj2 (collect1_proj s c))). apply upd_same.
Qed.
Theorem entries_die (s : state) c k : inv s -> live s c = true -> in_cache keqb s c = false ->
  getHolder (step s (Collect c)) c k = None.
Proof.
  intros I L NC. pose proof (step_inv s (Collect c) I) as I2. unfold Cache_Model.getHolder.
  destruct (cache (step s (Collect c)) (addr (step s (Collect c)) c)) as [cur|] eqn:Ec; [|reflexivity].
  destruct (dget keqb cur k) as [h|] eqn:G; [|reflexivity].
  destruct (i_entry _ I2 _ _ _ _ Ec G) as (_ & x & _ & Lx & Ax & _).
  pose proof (collect_live s c L NC) as Dc.
  assert (Ne : h_client x <> c) by (intros E; congruence).
  exfalso. apply Ne. 
  assert (Ad : addr (step s (Collect c)) = addr s).
  { cbn. rewrite L, NC. cbn. change (Cache_Model.collect keqb s c) with (collect s c).
    rewrite collect_eq, (f_addr _ _ (fold_frame call _ call_frame _)). apply collect1_proj. }
  rewrite Ad in Ax. apply (i_addr _ I); [|exact L|exact Ax].
  eapply live_step; [exact I|exact Lx|].
  assert (Nx : next (step s (Collect c)) = next s).
  { cbn. rewrite L, NC. cbn. change (Cache_Model.collect keqb s c) with (collect s c).
    rewrite collect_eq, (f_next _ _ (fold_frame call _ call_frame _)). apply collect1_proj. }
  rewrite <- Nx. apply (i_live _ I2 _ Lx).
Qed.

(** ** Data is retained while nothing it depends on changes *)
Section Retain.
Variables (c h : nat) (k : K) (x : holder K D).

Notation harmless := (Cache_Spec.harmless c h k x).
Notation only := (Cache_Spec.only c h k).

Record kept (s : state) : Prop := {
  k_inv : inv s;
  k_live : live s c = true;
  k_get : getHolder s c k = Some h;
  k_hold : hold s h = Some x;
  k_only : only s
}.
Lemma kept_live_h s : kept s -> live s h = true.
Proof.
  intros [I L G H O]. unfold Cache_Model.getHolder in G.
  destruct (cache s (addr s c)) as [cur|] eqn:Ec; [|discriminate]. apply (i_entry _ I _ _ _ _ Ec G).
Qed.
Lemma kept_frame s s' : frame s s' -> hold s' h = Some x -> getHolder s' c k = Some h -> kept s -> kept s'.
Proof.
  intros F H G [I L _ _ O]. split; auto.
  - eapply frame_inv; eassumption.
  - rewrite (f_live _ _ F). exact L.
  - intros h' y' L' H' C' K'. destruct (hold s h') as [y|] eqn:E; [|rewrite (f_none _ _ F h' E) in H'; discriminate].
    destruct (f_some _ _ F h' y E) as (y2 & E2 & C2 & K2 & _). rewrite H' in E2. injection E2 as <-.
    apply (O h' y); try congruence. rewrite <- (f_live _ _ F). exact L'.
Qed.
Lemma kept_call s h' : kept s -> live s h' = true -> h' <> h -> kept (call s h').
Proof.
  intros Kp L N. apply (kept_frame s); [apply call_frame| | |exact Kp]; destruct Kp as [I Lc G H O];
    unfold Cache_Model.call; destruct (hold s h') as [y|] eqn:E; auto;
    destruct (live s (h_client y)) eqn:Ly; auto; cbn [cache set_hold];
    destruct (cache s (addr s (h_client y))) as [cur|] eqn:Ec; try (destruct (dget keqb cur (h_key y)) eqn:Dg);
    cbn; try (rewrite !upd_other by congruence); auto.
  unfold Cache_Model.getHolder in *. cbn. destruct (Nat.eq_dec (h_client y) c) as [Cy|Cy].
  - rewrite Cy in *. rewrite Ec in G. rewrite upd_same.
    assert (Nk : h_key y <> k) by (intros Ky; apply N; eapply O; eassumption).
    assert (G2 : dget keqb (ddel keqb cur (h_key y)) k = Some h) by (rewrite dget_ddel_other by assumption; exact G).
    destruct (ddel keqb cur (h_key y)); [discriminate|exact G2].
  - rewrite upd_other; [exact G|]. intros Ea. apply Cy. symmetry. apply (i_addr _ I); assumption.
Qed.
Lemma kept_clear s h' : truthy c = true -> kept s -> live s h' = true -> h' <> h -> kept (clear s h').
Proof.
  intros T Kp L N. unfold Cache_Model.clear. destruct (hold s h') as [y|] eqn:E; [|exact Kp].
  destruct (live s (h_client y) && truthy (h_client y)); [|apply kept_call; assumption].
  apply (kept_frame s); [|cbn; rewrite upd_other by congruence; apply k_hold, Kp|exact (k_get _ Kp)|exact Kp].
  apply (set_hold_frame s h' y); [exact E|reflexivity|reflexivity|reflexivity|right; reflexivity|]. intros z Iz. exact Iz.
Qed.
Lemma kept_fold f l : (forall s h', kept s -> live s h' = true -> h' <> h -> kept (f s h')) ->
  (forall s h', frame s (f s h')) ->
  forall s, kept s -> (forall h', In h' l -> live s h' = true /\ h' <> h) -> kept (fold_left f l s).
Proof.
  intros Hf Fr. induction l as [|h' l IH]; intros s Kp H; [exact Kp|]. cbn.
  destruct (H h' (or_introl eq_refl)) as [L N]. apply IH; [apply Hf; assumption|].
  intros h2 I2. rewrite (f_live _ _ (Fr s h')). apply H. right. exact I2.
Qed.
Lemma kept_upd s h' y z : kept s -> h' <> h -> hold s h' = Some y -> h_client z = h_client y -> h_key z = h_key y ->
  kept (set_hold s h' z).
Proof.
  intros [I L G H O] N E C Kk. split.
  - eapply set_hold_inv; eassumption.
  - exact L.
  - exact G.
  - cbn. rewrite upd_other by congruence. exact H.
  - intros h2 y2 L2 H2 C2 K2. cbn in H2. destruct (Nat.eq_dec h2 h') as [->|Ne].
    + rewrite upd_same in H2. injection H2 as <-. apply (O h' y); [exact L2|exact E|congruence|congruence].
    + rewrite upd_other in H2 by exact Ne. eapply O; eassumption.
Qed.
Lemma kept_step s o : truthy c = true -> kept s -> harmless o -> kept (step s o).
Proof.
  intros T Kp Hm. pose proof Kp as [I Lc G H O]. pose proof (kept_live_h s Kp) as Lh.
  pose proof (i_live _ I c Lc) as Cn. pose proof (i_live _ I h Lh) as Hn.
  destruct o as [a|c' k' a d|h' d|h' n f|h' n|n f|h'|h'|o]; cbn in *.
  - destruct (free_addr s a) eqn:F; [|exact Kp]. split.
    + apply alloc_inv; assumption.
    + cbn. rewrite upd_other by lia. exact Lc.
    + unfold Cache_Model.getHolder in *. cbn. rewrite upd_other by lia. exact G.
    + exact H.
    + intros h2 y2 L2 H2 C2 K2. cbn in *. pose proof (i_hold _ I h2 y2 H2).
      rewrite upd_other in L2 by lia. eapply O; eassumption.
  - destruct (live s c') eqn:Lc'; [|exact Kp]. destruct (free_addr s a) eqn:F; [|exact Kp]. cbn.
    pose proof (i_live _ I c' Lc') as Cn'. split.
    + apply new_holder_inv; assumption.
    + cbn. rewrite upd_other by lia. exact Lc.
    + unfold Cache_Model.getHolder in *. cbn. rewrite (upd_other _ _ _ c), (upd_other (addr s) _ _ c') by lia.
      destruct (Nat.eq_dec c' c) as [->|Ne].
      * rewrite upd_same. destruct (cache s (addr s c)) as [cur|] eqn:Ec; [|discriminate].
        rewrite dget_dset_other; [exact G|exact keqb_spec|]. intros ->. apply Hm. auto.
      * rewrite upd_other; [exact G|]. intros Ea. apply Ne. symmetry. apply (i_addr _ I); assumption.
    + cbn. rewrite upd_other by lia. exact H.
    + intros h2 y2 L2 H2 C2 K2. cbn in *. destruct (Nat.eq_dec h2 (next s)) as [->|Ne].
      * rewrite upd_same in H2. injection H2 as <-. cbn in *. exfalso. apply Hm. auto.
      * rewrite upd_other in H2 by exact Ne. rewrite upd_other in L2 by exact Ne. eapply O; eassumption.
  - destruct (hold s h') as [y|] eqn:E; [|exact Kp]. destruct (live s h'); [|exact Kp].
    eapply kept_upd; try eassumption; reflexivity.
  - destruct (hold s h') as [y|] eqn:E; [|exact Kp]. destruct (live s h' && live s n); [|exact Kp].
    eapply kept_upd; try eassumption; reflexivity.
  - destruct (hold s h') as [y|] eqn:E; [|exact Kp]. destruct (live s h' && live s n); [|exact Kp].
    eapply kept_upd; try eassumption; reflexivity.
  - destruct (live s n); [|exact Kp]. unfold Cache_Model.notify.
    apply kept_fold; [intros; apply kept_clear; assumption|apply clear_frame|exact Kp|].
    intros h' I'. apply holders_In in I'; [|apply i_live, I]. destruct I' as (L' & y & E & M). split; [exact L'|].
    intros ->. rewrite H in E. injection E as <-. apply mem2_In in M. contradiction.
  - unfold is_holder. destruct (live s h') eqn:L'; [|exact Kp]. destruct (hold s h'); [|exact Kp]. cbn.
    apply kept_clear; assumption.
  - unfold is_holder. destruct (live s h') eqn:L'; [|exact Kp]. destruct (hold s h'); [|exact Kp]. cbn.
    apply kept_call; assumption.
  - destruct (live s o) eqn:Lo; [|exact Kp]. destruct (in_cache keqb s o) eqn:NC; [exact Kp|]. cbn.
    change (Cache_Model.collect keqb s o) with (collect s o). rewrite collect_eq.
    destruct Hm as [Nc No]. destruct (collect1_proj s o) as (P1 & P2 & P3 & P4 & P5).
    assert (Nh : h <> o).
    { intros ->. destruct (entry_belongs s c k o I Lc G) as (y & Hy & Cy & Ky).
      unfold in_cache in NC. rewrite Hy, Cy, Ky in NC. unfold Cache_Model.getHolder in G.
      destruct (cache s (addr s c)); [|discriminate]. rewrite G, Nat.eqb_refl in NC. discriminate. }
    assert (K1 : kept (collect1 s o)).
    { split.
      - apply collect1_inv; assumption.
      - rewrite P2, upd_other by congruence. exact Lc.
      - unfold Cache_Model.getHolder in *. rewrite P3.
        assert (Ce : cache (collect1 s o) (addr s c) = cache s (addr s c)).
        { unfold collect1. destruct (holders _ _); [reflexivity|]. cbn. apply upd_other.
          intros Ea. apply Nc. symmetry. apply (i_addr _ I); assumption. }
        rewrite Ce. exact G.
      - rewrite P4. exact H.
      - intros h2 y2 L2 H2 C2 K2. rewrite P2 in L2. rewrite P4 in H2.
        unfold upd in L2. destruct (Nat.eqb h2 o); [discriminate|]. eapply O; eassumption. }
    apply kept_fold; [intros; apply kept_call; assumption|apply call_frame|exact K1|].
    intros h' I'. apply holders_In in I'; [|apply (i_live _ (k_inv _ K1))]. destruct I' as (L' & y & E & M).
    split; [exact L'|]. intros ->. rewrite P4, H in E. injection E as <-.
    unfold memn in M. apply existsb_exists in M. destruct M as (z & Iz & Ez). apply Nat.eqb_eq in Ez. subst. contradiction.
Qed.
Theorem retained os : truthy c = true -> forall s, kept s -> Forall harmless os -> kept (run s os).
Proof.
  intros T. induction os as [|o os IH]; intros s Kp F; [exact Kp|]. inversion F; subst. cbn.
  apply IH; [apply kept_step; assumption|assumption].
Qed.
End Retain.
End C.
