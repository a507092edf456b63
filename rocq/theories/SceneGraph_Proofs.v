From Verif Require Import Base Text PyDict PyDict_Proofs SceneGraph_Model.
From Coq Require Import Relations Wellfounded FinFun.
Local Open Scope nat_scope.

Local Notation dg := (dget text_eqb).
Definition ts := text_eqb_spec.

Lemma set_def_same f n d : set_def f n d n = d.
Proof. unfold set_def. rewrite Nat.eqb_refl. reflexivity. Qed.
Lemma set_def_other f n d m : m <> n -> set_def f n d m = f m.
Proof. unfold set_def. intros H. apply Nat.eqb_neq in H. rewrite H. reflexivity. Qed.

Definition dinv (s : dstate) : Prop :=
  NoDup (dkeys (defs s)) /\ forall d o, getDEF s d = Some o -> ndef s o = d.

Lemma dinv_empty : dinv dempty.
Proof. split; [constructor|discriminate]. Qed.

Lemma reg_nodup s d o : NoDup (dkeys (defs s)) -> NoDup (dkeys (defs (regDefName s d o))).
Proof.
  intros ND. cbn. apply nodup_dset; [exact ts|].
  destruct (dg (defs s) (ndef s o)) as [x|]; [|exact ND].
  destruct (Nat.eqb x o); [|exact ND]. apply nodup_ddel, ND.
Qed.
Lemma reg_get_same s d o : getDEF (regDefName s d o) d = Some o.
Proof. unfold getDEF. cbn. apply dget_dset_same. exact ts. Qed.
Lemma reg_get_other s d o x : NoDup (dkeys (defs s)) -> x <> d ->
  getDEF (regDefName s d o) x =
  (if text_eqb x (ndef s o) then
     match getDEF s x with Some y => if Nat.eqb y o then None else Some y | None => None end
   else getDEF s x).
Proof.
  intros ND N. unfold getDEF. cbn. rewrite dget_dset_other by (auto using ts).
  destruct (text_eqb x (ndef s o)) eqn:E.
  - apply ts in E. subst x. destruct (dg (defs s) (ndef s o)) as [y|] eqn:G.
    + destruct (Nat.eqb y o); [apply dget_ddel_same; auto using ts|exact G].
    + exact G.
  - assert (Nx : ndef s o <> x) by (intros <-; rewrite (proj2 (ts _ _) eq_refl) in E; discriminate).
    destruct (dg (defs s) (ndef s o)) as [y|]; [|reflexivity].
    destruct (Nat.eqb y o); [apply dget_ddel_other; auto using ts|reflexivity].
Qed.

Lemma reg_inv s d o : dinv s -> dinv (regDefName s d o).
Proof.
  intros [ND I]. split; [apply reg_nodup, ND|].
  intros x y G. destruct (list_eq_dec N.eq_dec x d) as [->|N].
  - rewrite reg_get_same in G. injection G as <-. cbn. apply set_def_same.
  - rewrite reg_get_other in G by assumption. cbn.
    destruct (text_eqb x (ndef s o)) eqn:E.
    + destruct (getDEF s x) as [z|] eqn:Gx; [|discriminate].
      destruct (Nat.eqb_spec z o) as [->|Nz]; [discriminate|]. injection G as <-.
      rewrite set_def_other by exact Nz. apply I, Gx.
    + destruct (Nat.eq_dec y o) as [->|Ny].
      * apply I in G. subst x. rewrite (proj2 (ts _ _) eq_refl) in E. discriminate.
      * rewrite set_def_other by exact Ny. apply I, G.
Qed.
Lemma reg_all_inv h s : dinv s -> dinv (reg_all s h).
Proof.
  unfold reg_all. revert s. induction h as [|[d o] h IH]; intros s I; cbn; [exact I|].
  apply IH, reg_inv, I.
Qed.

Lemma reg_all_snoc s h d o : reg_all s (h ++ [(d, o)]) = regDefName (reg_all s h) d o.
Proof. unfold reg_all. rewrite fold_left_app. reflexivity. Qed.

(** complete history characterisation *)
Lemma reg_history h d o :
  getDEF (reg_all dempty h) d = Some o <->
  exists h1 h2, h = h1 ++ (d, o) :: h2 /\
    (forall o', ~ In (d, o') h2) /\ (forall d', ~ In (d', o) h2).
Proof.
  revert d o. induction h as [|[d0 o0] h IH] using rev_ind; intros d o.
  - cbn. split; [discriminate|]. intros (h1 & h2 & E & _). destruct h1; discriminate.
  - rewrite reg_all_snoc.
    pose proof (reg_all_inv h dempty dinv_empty) as [ND I].
    destruct (list_eq_dec N.eq_dec d d0) as [->|N].
    + rewrite reg_get_same. split.
      * intros [= ->]. exists h, []. split; [reflexivity|split; intros ? []].
      * intros (h1 & h2 & E & A & B). destruct h2 as [|x h2] using rev_ind.
        -- apply app_inj_tail in E. destruct E as [_ E]. congruence.
        -- rewrite app_comm_cons, app_assoc in E. apply app_inj_tail in E. destruct E as [_ <-].
           exfalso. apply (A o0). apply in_or_app. right. left. reflexivity.
    + rewrite reg_get_other by assumption.
      assert (S : forall h1 h2, h ++ [(d0, o0)] = h1 ++ (d, o) :: h2 ->
                  exists h3, h2 = h3 ++ [(d0, o0)] /\ h = h1 ++ (d, o) :: h3).
      { intros h1 h2 E. destruct h2 as [|x h2] using rev_ind.
        - apply app_inj_tail in E. destruct E as [_ E]. congruence.
        - rewrite app_comm_cons, app_assoc in E. apply app_inj_tail in E. destruct E as [-> <-].
          exists h2. split; reflexivity. }
      destruct (Nat.eq_dec o o0) as [->|No].
      * split.
        -- intros G. exfalso. destruct (text_eqb d (ndef (reg_all dempty h) o0)) eqn:E.
           ++ destruct (getDEF (reg_all dempty h) d) as [z|]; [|discriminate].
              destruct (Nat.eqb_spec z o0); [discriminate|]. congruence.
           ++ apply I in G. rewrite G in E. rewrite (proj2 (ts _ _) eq_refl) in E. discriminate.
        -- intros (h1 & h2 & E & A & B). destruct (S _ _ E) as (h3 & -> & _).
           exfalso. apply (B d0). apply in_or_app. right. left. reflexivity.
      * transitivity (getDEF (reg_all dempty h) d = Some o).
        { destruct (text_eqb d _); [|tauto].
          destruct (getDEF (reg_all dempty h) d) as [z|]; [|tauto].
          destruct (Nat.eqb_spec z o0) as [->|]; [|tauto]. split; [discriminate|congruence]. }
        rewrite IH. split.
        -- intros (h1 & h2 & -> & A & B). exists h1, (h2 ++ [(d0, o0)]).
           split; [rewrite <- app_assoc; reflexivity|]. split.
           ++ intros o'. rewrite in_app_iff. intros [X|[X|[]]]; [eapply A; exact X|congruence].
           ++ intros d'. rewrite in_app_iff. intros [X|[X|[]]]; [eapply B; exact X|congruence].
        -- intros (h1 & h2 & E & A & B). destruct (S _ _ E) as (h3 & -> & ->).
           exists h1, h3. split; [reflexivity|]. split.
           ++ intros o' X. apply (A o'). apply in_or_app. left. exact X.
           ++ intros d' X. apply (B d'). apply in_or_app. left. exact X.
Qed.
Lemma reg_all_ndef h o : ndef (reg_all dempty h) o =
  match find (fun p => Nat.eqb (snd p) o) (rev h) with Some p => fst p | None => [] end.
Proof.
  induction h as [|[d0 o0] h IH] using rev_ind; [reflexivity|].
  rewrite reg_all_snoc, rev_app_distr. cbn. unfold set_def. rewrite Nat.eqb_sym.
  destruct (Nat.eqb o0 o); [reflexivity|exact IH].
Qed.

(** ** preroute *)
Lemma auto_inj p a b : auto_name p a = auto_name p b -> a = b.
Proof.
  unfold auto_name. intros H. apply app_inv_head in H. apply app_inv_head in H. apply dec_inj, H.
Qed.
Lemma auto_nonempty p c : auto_name p c <> [].
Proof. unfold auto_name. destruct p; discriminate. Qed.

Lemma find_count_none s p fuel c :
  find_count s p fuel c = None -> forall i, c <= i < c + fuel -> getDEF s (auto_name p i) <> None.
Proof.
  revert c. induction fuel as [|k IH]; cbn; intros c H i L; [lia|].
  destruct (getDEF s (auto_name p c)) as [o|] eqn:G; [|discriminate].
  destruct (Nat.eq_dec i c) as [->|N]; [congruence|]. apply (IH (S c) H). lia.
Qed.
Lemma find_count_some s p fuel c r :
  find_count s p fuel c = Some r ->
  c <= r /\ getDEF s (auto_name p r) = None /\
  forall i, c <= i < r -> getDEF s (auto_name p i) <> None.
Proof.
  revert c. induction fuel as [|k IH]; cbn; intros c H; [discriminate|].
  destruct (getDEF s (auto_name p c)) as [o|] eqn:G.
  - destruct (IH (S c) H) as (A & B & C). split; [lia|]. split; [exact B|].
    intros i L. destruct (Nat.eq_dec i c) as [->|N]; [congruence|]. apply C. lia.
  - injection H as <-. split; [lia|]. split; [exact G|]. lia.
Qed.
(** the loop terminates: a table with k entries cannot use k+1 distinct names *)
Lemma find_count_total s p : exists c, find_count s p (S (List.length (defs s))) 0 = Some c.
Proof.
  destruct (find_count s p (S (List.length (defs s))) 0) as [c|] eqn:E; [exists c; reflexivity|].
  exfalso. pose proof (find_count_none _ _ _ _ E) as H.
  set (names := map (auto_name p) (seq 0 (S (List.length (defs s))))).
  assert (ND : NoDup names).
  { apply Injective_map_NoDup; [intros a b; apply auto_inj|apply seq_NoDup]. }
  assert (IN : incl names (dkeys (defs s))).
  { intros x I. apply in_map_iff in I. destruct I as (i & <- & I). apply in_seq in I.
    destruct (in_dec (list_eq_dec N.eq_dec) (auto_name p i) (dkeys (defs s))) as [Y|Y]; [exact Y|].
    exfalso. apply (H i); [lia|]. apply dget_None_notin; [exact ts|exact Y]. }
  pose proof (NoDup_incl_length ND IN) as L. unfold names, dkeys in L.
  rewrite !map_length, seq_length in L. lia.
Qed.

(** what one pre-scanned endpoint does *)
Lemma child_spec proto s c : NoDup (dkeys (defs s)) ->
  exists s', preroute_child proto s c = Some s' /\ NoDup (dkeys (defs s')) /\
  (ndef s c <> [] -> s' = s) /\
  (ndef s c = [] -> exists n, s' = regDefName s (auto_name (proto c) n) c /\
     getDEF s (auto_name (proto c) n) = None /\
     forall i, i < n -> getDEF s (auto_name (proto c) i) <> None).
Proof.
  intros ND. unfold preroute_child. destruct (ndef s c) as [|a l] eqn:E.
  - destruct (find_count_total s (proto c)) as [n F]. rewrite F.
    destruct (find_count_some _ _ _ _ _ F) as (_ & G & M).
    eexists. split; [reflexivity|]. split; [apply reg_nodup, ND|]. split; [congruence|].
    intros _. exists n. split; [reflexivity|]. split; [exact G|]. intros i L. apply M. lia.
  - exists s. split; [reflexivity|]. split; [exact ND|]. split; [reflexivity|]. congruence.
Qed.

(** a chain of endpoint visits; relation used for the whole pre-scan *)
Fixpoint visit_all proto (s : dstate) (cs : list nat) : option dstate :=
  match cs with
  | [] => Some s
  | c :: cs' => match preroute_child proto s c with
                | Some s1 => visit_all proto s1 cs'
                | None => None
                end
  end.
Definition endpoints (rs : list (nat * nat)) : list nat := flat_map (fun r => [fst r; snd r]) rs.
Lemma preroutes_visit proto rs s : preroutes proto s rs = visit_all proto s (endpoints rs).
Proof.
  revert s. induction rs as [|[a b] rs IH]; intros s; cbn; [reflexivity|].
  unfold preroute. cbn. destruct (preroute_child proto s a) as [s1|]; [|reflexivity].
  destruct (preroute_child proto s1 b) as [s2|]; [apply IH|reflexivity].
Qed.

(** facts preserved along visits *)
Definition grows (s s' : dstate) : Prop :=
  (forall d o, d <> [] -> getDEF s d = Some o -> getDEF s' d = Some o) /\
  (forall m, ndef s m <> [] -> ndef s' m = ndef s m).
Lemma grows_refl s : grows s s.
Proof. split; auto. Qed.
Lemma grows_trans a b c : grows a b -> grows b c -> grows a c.
Proof.
  intros [A1 A2] [B1 B2]. split; [auto|]. intros m H. rewrite B2; [auto|]. rewrite A2 by exact H. exact H.
Qed.
Lemma child_grows proto s c s' : NoDup (dkeys (defs s)) -> preroute_child proto s c = Some s' -> grows s s'.
Proof.
  intros ND E. destruct (child_spec proto s c ND) as (s1 & E1 & _ & A & B).
  rewrite E in E1. injection E1 as <-.
  destruct (list_eq_dec N.eq_dec (ndef s c) []) as [Z|Z].
  - destruct (B Z) as (n & -> & G & _). split.
    + intros d o Nd Gd. assert (d <> auto_name (proto c) n) by congruence.
      rewrite reg_get_other by assumption. rewrite Z.
      destruct (text_eqb d []) eqn:T; [apply ts in T; contradiction|exact Gd].
    + intros m H. cbn. apply set_def_other. congruence.
  - rewrite (A Z). apply grows_refl.
Qed.
Lemma visit_all_spec proto cs s : NoDup (dkeys (defs s)) ->
  exists s', visit_all proto s cs = Some s' /\ NoDup (dkeys (defs s')) /\ grows s s' /\
  (forall c, In c cs -> ndef s' c <> []) /\
  (forall c, ~ In c cs -> ndef s' c = ndef s c) /\
  (forall c, In c cs -> ndef s c = [] ->
     exists n, ndef s' c = auto_name (proto c) n /\ getDEF s (auto_name (proto c) n) = None /\
               getDEF s' (auto_name (proto c) n) = Some c /\
               forall i, i < n -> getDEF s' (auto_name (proto c) i) <> None).
Proof.
  revert s. induction cs as [|c cs IH]; intros s ND.
  - exists s. cbn. repeat split; auto; try (intros ? []). 
  - destruct (child_spec proto s c ND) as (s1 & E1 & ND1 & A & B).
    pose proof (child_grows proto s c s1 ND E1) as G1.
    destruct (IH s1 ND1) as (s' & E & ND' & G & N1 & N2 & N3).
    exists s'. cbn. rewrite E1. split; [exact E|]. split; [exact ND'|].
    split; [eapply grows_trans; eassumption|].
    assert (C : ndef s1 c <> []).
    { destruct (list_eq_dec N.eq_dec (ndef s c) []) as [Z|Z].
      - destruct (B Z) as (n & -> & _). cbn. rewrite set_def_same. apply auto_nonempty.
      - rewrite (A Z). exact Z. }
    assert (O : forall m, m <> c -> ndef s1 m = ndef s m).
    { intros m H. destruct (list_eq_dec N.eq_dec (ndef s c) []) as [Z|Z].
      - destruct (B Z) as (n & -> & _). cbn. apply set_def_other, H.
      - rewrite (A Z). reflexivity. }
    split; [|split].
    + intros m [<-|I]; [|auto]. rewrite (proj2 G) by exact C. exact C.
    + intros m H. rewrite N2 by (intros X; apply H; right; exact X). apply O. intros ->. apply H. left. reflexivity.
    + intros m I Z. destruct (Nat.eq_dec m c) as [->|Nm].
      * destruct (B Z) as (n & S1 & F & M). exists n.
        assert (X : getDEF s1 (auto_name (proto c) n) = Some c) by (rewrite S1; apply reg_get_same).
        split; [|split; [exact F|split]].
        -- rewrite (proj2 G) by exact C. rewrite S1. cbn. apply set_def_same.
        -- apply (proj1 G); [apply auto_nonempty|exact X].
        -- intros i L. specialize (M i L). destruct (getDEF s (auto_name (proto c) i)) as [o|] eqn:Q; [|contradiction].
           pose proof (proj1 (grows_trans _ _ _ G1 G) _ _ (auto_nonempty _ _) Q) as Q'. rewrite Q'. discriminate.
      * destruct I as [->|I]; [contradiction|].
        destruct (N3 m I) as (n & P1 & P2 & P3 & P4); [rewrite O by exact Nm; exact Z|].
        exists n. split; [exact P1|]. split; [|split; [exact P3|exact P4]].
        destruct (getDEF s (auto_name (proto m) n)) as [o|] eqn:Q; [|reflexivity].
        exfalso. apply (proj1 G1) in Q; [congruence|apply auto_nonempty].
Qed.

(** ** prototypes *)
Definition ginv (s : gstate) : Prop :=
  forall g r, groot s g = Some r -> r < g.
Definition gbound (s : gstate) : Prop := forall g, galive s g = true -> g < gnext s.
Lemma ginv_step s o : ginv s -> gbound s -> ginv (gstep s o) /\ gbound (gstep s o).
Proof.
  intros I B. destruct o as [r|g n p|g]; cbn.
  - destruct (match r with Some g => galive s g | None => true end) eqn:E; [|auto].
    split.
    + intros g q. cbn. unfold gset. destruct (Nat.eqb_spec g (gnext s)) as [->|N]; [|apply I].
      intros ->. apply B, E.
    + intros g. cbn. unfold gset. destruct (Nat.eqb_spec g (gnext s)); [lia|]. intros H. apply B in H. lia.
  - destruct (galive s g); [|auto]. split; [exact I|exact B].
  - split; [exact I|]. intros x. cbn. unfold gset. destruct (Nat.eqb_spec x g); [discriminate|apply B].
Qed.
Lemma ginv_run os : ginv (grun gempty os) /\ gbound (grun gempty os).
Proof.
  unfold grun. assert (H : ginv gempty /\ gbound gempty) by (split; intros ?; discriminate).
  revert H. generalize gempty. induction os as [|o os IH]; cbn; intros s [A B]; [auto|].
  apply IH, ginv_step; assumption.
Qed.
(** the enclosing scenegraphs that lookup can reach, nearest first *)
Inductive chain (s : gstate) : nat -> list nat -> Prop :=
| chain_top g : groot s g = None -> chain s g [g]
| chain_dead g r : groot s g = Some r -> galive s r = false -> chain s g [g]
| chain_up g r l : groot s g = Some r -> galive s r = true -> chain s r l -> chain s g (g :: l).

Lemma chain_exists s : ginv s -> forall g, exists l, chain s g l.
Proof.
  intros I g. induction g as [g IH] using lt_wf_ind.
  destruct (groot s g) as [r|] eqn:E; [|exists [g]; constructor; exact E].
  destruct (galive s r) eqn:A; [|exists [g]; eapply chain_dead; eassumption].
  destruct (IH r (I g r E)) as [l C]. exists (g :: l). eapply chain_up; eassumption.
Qed.
Fixpoint first_def (s : gstate) (l : list nat) (name : text) : option nat :=
  match l with
  | [] => None
  | g :: l' => match dg (protos s g) name with Some p => Some p | None => first_def s l' name end
  end.
Lemma getProto_fuel_spec s : ginv s -> forall fuel g l name, g < fuel -> chain s g l ->
  getProto_fuel fuel s g name = Some (first_def s l name).
Proof.
  intros I. induction fuel as [|k IH]; intros g l name L C; [lia|]. cbn.
  inversion C; subst; cbn; destruct (dg (protos s g) name) as [p|]; try reflexivity.
  - rewrite H. reflexivity.
  - rewrite H, H0. reflexivity.
  - rewrite H, H0. apply IH; [|exact H1]. apply I in H. lia.
Qed.
Lemma first_def_some s l name p :
  first_def s l name = Some p <->
  exists near g far, l = near ++ g :: far /\ dg (protos s g) name = Some p /\
    forall g', In g' near -> dg (protos s g') name = None.
Proof.
  induction l as [|g l IH]; cbn.
  - split; [discriminate|]. intros (near & g & far & E & _). destruct near; discriminate.
  - destruct (dg (protos s g) name) as [q|] eqn:E.
    + split.
      * intros [= <-]. exists [], g, l. repeat split; auto. intros ? [].
      * intros (near & g' & far & X & Y & Z). destruct near as [|n near].
        -- injection X as <- <-. congruence.
        -- injection X as <- ->. rewrite (Z g) in E; [discriminate|left; reflexivity].
    + rewrite IH. split.
      * intros (near & g' & far & -> & Y & Z). exists (g :: near), g', far. repeat split; auto.
        intros x [<-|I]; auto.
      * intros (near & g' & far & X & Y & Z). destruct near as [|n near].
        -- injection X as <- <-. congruence.
        -- injection X as <- ->. exists near, g', far. repeat split; auto. intros x I. apply Z. right. exact I.
Qed.
Lemma first_def_none s l name :
  first_def s l name = None <-> forall g, In g l -> dg (protos s g) name = None.
Proof.
  induction l as [|g l IH]; cbn; [split; [intros _ ? []|reflexivity]|].
  destruct (dg (protos s g) name) as [q|] eqn:E.
  - split; [discriminate|]. intros H. rewrite (H g) in E; [discriminate|left; reflexivity].
  - rewrite IH. split; [intros H x [<-|I]; auto|auto].
Qed.

(** ** root propagation *)
Section Root.
Variable kids : nat -> list nat.
Definition child_of (c p : nat) : Prop := In c (kids p).
Definition reach := clos_refl_trans nat (fun p c => child_of c p).
Lemma reach_refl n : reach n n. Proof. apply rt_refl. Qed.
Lemma reach_cons n c m : In c (kids n) -> reach c m -> reach n m.
Proof. intros I R. eapply rt_trans; [apply rt_step; exact I|exact R]. Qed.
Lemma reach_inv n m : reach n m -> n = m \/ exists c, In c (kids n) /\ reach c m.
Proof.
  intros R. apply clos_rt_rt1n in R. destruct R as [|c m I R]; [left; reflexivity|].
  right. exists c. split; [exact I|]. apply clos_rt1n_rt, R.
Qed.

Definition foldk k v l (o : option rstate) :=
  fold_left (fun os c => match os with Some s => set_root kids k s v c | None => None end) l o.

Lemma foldk_none k v l : foldk k v l None = None.
Proof. unfold foldk. induction l; cbn; auto. Qed.

(** a visited node is registered under its own name *)
Definition own (s : rstate) n := regDefName (rdefs s) (ndef (rdefs s) n) n.
Lemma own_ndef s n m : ndef (own s n) m = ndef (rdefs s) m.
Proof.
  unfold own. cbn. unfold set_def. destruct (Nat.eqb_spec m n) as [->|]; reflexivity.
Qed.
Lemma own_get s n d : NoDup (dkeys (defs (rdefs s))) ->
  getDEF (own s n) d =
  (if text_eqb d (ndef (rdefs s) n) then Some n else getDEF (rdefs s) d).
Proof.
  intros ND. unfold own. destruct (text_eqb d (ndef (rdefs s) n)) eqn:E.
  - apply ts in E. subst d. apply reg_get_same.
  - rewrite reg_get_other; [rewrite E; reflexivity|exact ND|].
    intros ->. rewrite (proj2 (ts _ _) eq_refl) in E. discriminate.
Qed.

Record spec (V : nat -> Prop) (v : nat) (s s' : rstate) : Prop := {
  sp_in : forall m, V m -> rroot s' m = Some v;
  sp_out : forall m, ~ V m -> rroot s' m = rroot s m;
  sp_def : forall m, ndef (rdefs s') m = ndef (rdefs s) m;
  sp_nd : NoDup (dkeys (defs (rdefs s')));
  sp_reg : forall m, V m -> exists m', V m' /\
             ndef (rdefs s) m' = ndef (rdefs s) m /\ getDEF (rdefs s') (ndef (rdefs s) m) = Some m';
  sp_old : forall d, (forall m, V m -> ndef (rdefs s) m <> d) -> getDEF (rdefs s') d = getDEF (rdefs s) d
}.

Lemma spec_ext V W v s s' : (forall m, V m <-> W m) -> spec V v s s' -> spec W v s s'.
Proof.
  intros E [A B C D F G]. split; auto.
  - intros m H. apply A, E, H.
  - intros m H. apply B. intros X. apply H, E, X.
  - intros m H. apply E in H. destruct (F m H) as (m' & X & Y). exists m'. split; [apply E, X|exact Y].
  - intros d H. apply G. intros m X. apply H, E, X.
Qed.
Lemma spec_trans V W v s t u : (forall m, V m \/ ~ V m) ->
  (forall m, W m \/ ~ W m) -> spec V v s t -> spec W v t u -> spec (fun m => V m \/ W m) v s u.
Proof.
  intros dV dW [A1 B1 C1 D1 F1 G1] [A2 B2 C2 D2 F2 G2]. split.
  - intros m [H|H]; [|auto]. destruct (dW m); [auto|]. rewrite B2 by assumption. auto.
  - intros m H. rewrite B2 by tauto. apply B1. tauto.
  - intros m. rewrite C2. apply C1.
  - exact D2.
  - intros m H.
    assert (Q : (exists w, W w /\ ndef (rdefs t) w = ndef (rdefs s) m) \/
                ~ (exists w, W w /\ ndef (rdefs t) w = ndef (rdefs s) m) ->
            exists m', (V m' \/ W m') /\ ndef (rdefs s) m' = ndef (rdefs s) m /\
                       getDEF (rdefs u) (ndef (rdefs s) m) = Some m').
    { intros [(w & Ww & E)|N].
      - destruct (F2 w Ww) as (m' & X & Y & Z). exists m'. split; [right; exact X|].
        rewrite <- E. split; [rewrite <- C1; congruence|exact Z].
      - destruct H as [H|H].
        + destruct (F1 m H) as (m' & X & Y & Z). exists m'. split; [left; exact X|]. split; [exact Y|].
          rewrite G2; [exact Z|]. intros w Ww E. apply N. exists w. auto.
        + exfalso. apply N. exists m. split; [exact H|]. apply C1. }
    apply Q. clear Q. destruct H as [H|H].
    + destruct (getDEF (rdefs u) (ndef (rdefs s) m)) as [z|] eqn:Z.
      * destruct (dW z) as [Wz|Nz].
        -- destruct (list_eq_dec N.eq_dec (ndef (rdefs t) z) (ndef (rdefs s) m)) as [E|E];
             [left; exists z; auto|].
           right. intros (w & Ww & E'). destruct (F2 w Ww) as (m' & X & Y & Zz).
           rewrite E' in Zz. rewrite Z in Zz. injection Zz as <-. congruence.
        -- right. intros (w & Ww & E'). destruct (F2 w Ww) as (m' & X & Y & Zz).
           rewrite E' in Zz. rewrite Z in Zz. injection Zz as <-. contradiction.
      * right. intros (w & Ww & E'). destruct (F2 w Ww) as (m' & X & Y & Zz). congruence.
    + left. exists m. split; [exact H|]. apply C1.
  - intros d H. rewrite G2; [apply G1|].
    + intros m X. apply H. left. exact X.
    + intros m X E. apply (H m); [right; exact X|]. rewrite <- C1. exact E.
Qed.

Lemma reach_dec_acc n : Acc child_of n -> forall m, reach n m \/ ~ reach n m.
Proof.
  intros A. induction A as [n _ IH]. intros m.
  destruct (Nat.eq_dec n m) as [->|N]; [left; apply reach_refl|].
  assert (L : forall l, incl l (kids n) ->
     (exists c, In c l /\ reach c m) \/ ~ (exists c, In c l /\ reach c m)).
  { induction l as [|c l IHl]; intros Hl; [right; intros (c & [] & _)|].
    destruct (IH c (Hl c (or_introl eq_refl)) m) as [R|R]; [left; exists c; split; [left; reflexivity|exact R]|].
    destruct IHl as [(d & I & Rd)|Nd]; [intros x X; apply Hl; right; exact X|left; exists d; split; [right; exact I|exact Rd]|].
    right. intros (d & [<-|I] & Rd); [contradiction|]. apply Nd. exists d. auto. }
  destruct (L (kids n) (fun x h => h)) as [(c & I & R)|Nc]; [left; eapply reach_cons; eassumption|].
  right. intros R. destruct (reach_inv _ _ R) as [E|(c & I & Rc)]; [contradiction|]. apply Nc. exists c. auto.
Qed.

Lemma set_root_unfold k s v n : rroot s v <> None \/ v = n ->
  set_root kids (S k) s v n =
  foldk k v (kids n) (Some {| rroot := gset (rroot s) n (Some v); rdefs := own s n |}).
Proof.
  intros H. cbn [set_root]. cbn [rroot].
  assert (E : exists r, gset (rroot s) n (Some v) v = Some r).
  { unfold gset. destruct (Nat.eqb_spec v n); [eexists; reflexivity|].
    destruct H as [H|H]; [|contradiction].
    destruct (rroot s v); [eexists; reflexivity|contradiction]. }
  destruct E as [r E]. rewrite E. reflexivity.
Qed.

Lemma visit_spec s v n : NoDup (dkeys (defs (rdefs s))) ->
  spec (fun m => m = n) v s {| rroot := gset (rroot s) n (Some v); rdefs := own s n |}.
Proof.
  intros ND. split; cbn [rroot rdefs].
  - intros m ->. unfold gset. rewrite Nat.eqb_refl. reflexivity.
  - intros m H. unfold gset. apply Nat.eqb_neq in H. rewrite H. reflexivity.
  - intros m. apply own_ndef.
  - unfold own. apply reg_nodup, ND.
  - intros m ->. exists n. split; [reflexivity|]. split; [reflexivity|].
    rewrite own_get by exact ND. rewrite (proj2 (ts _ _) eq_refl). reflexivity.
  - intros d H. rewrite own_get by exact ND. destruct (text_eqb d (ndef (rdefs s) n)) eqn:E; [|reflexivity].
    apply ts in E. exfalso. apply (H n eq_refl). congruence.
Qed.

Theorem set_root_acyclic n : Acc child_of n ->
  exists fuel0, forall fuel s v, fuel0 <= fuel -> rroot s v <> None \/ v = n -> NoDup (dkeys (defs (rdefs s))) ->
  exists s', set_root kids fuel s v n = Some s' /\ spec (reach n) v s s'.
Proof.
  intros A. induction A as [n Acn IH].
  assert (L : forall l, incl l (kids n) -> exists fuel0, forall fuel s v, fuel0 <= fuel ->
     rroot s v <> None -> NoDup (dkeys (defs (rdefs s))) ->
     exists s', foldk fuel v l (Some s) = Some s' /\ spec (fun m => exists c, In c l /\ reach c m) v s s').
  { induction l as [|c l IHl]; intros Hl.
    - exists 0. intros fuel s v _ Hv ND. exists s. split; [reflexivity|]. split; auto.
      + intros m (c & [] & _).
      + intros m (c & [] & _).
    - destruct (IH c (Hl c (or_introl eq_refl))) as [f1 H1].
      destruct IHl as [f2 H2]; [intros x X; apply Hl; right; exact X|].
      exists (f1 + f2). intros fuel s v Hf Hv ND.
      destruct (H1 fuel s v) as (s1 & E1 & S1); [lia|left; exact Hv|exact ND|].
      assert (Hv1 : rroot s1 v <> None).
      { destruct (reach_dec_acc c (Acn c (Hl c (or_introl eq_refl))) v) as [R|R].
        - rewrite (sp_in _ _ _ _ S1) by exact R. discriminate.
        - rewrite (sp_out _ _ _ _ S1) by exact R. exact Hv. }
      destruct (H2 fuel s1 v) as (s2 & E2 & S2); [lia|exact Hv1|exact (sp_nd _ _ _ _ S1)|].
      exists s2. split; [unfold foldk in *; cbn; rewrite E1; exact E2|].
      eapply spec_ext; [|eapply spec_trans; [| |exact S1|exact S2]].
      + intros m. cbn. split.
        * intros [R|(d & I & R)]; [exists c; auto|exists d; auto].
        * intros (d & [<-|I] & R); [left; exact R|right; exists d; auto].
      + apply reach_dec_acc. apply Acn. apply Hl. left. reflexivity.
      + assert (Hl' : forall d, In d l -> Acc child_of d).
        { intros d I. apply Acn. apply Hl. right. exact I. }
        clear -Hl'. induction l as [|d l IHl]; intros m; [right; intros (? & [] & _)|].
        destruct (reach_dec_acc d (Hl' d (or_introl eq_refl)) m) as [R|R];
          [left; exists d; split; [left; reflexivity|exact R]|].
        destruct (IHl (fun x h => Hl' x (or_intror h)) m) as [(x & I & Rx)|Nx];
          [left; exists x; split; [right; exact I|exact Rx]|].
        right. intros (x & [<-|I] & Rx); [contradiction|]. apply Nx. exists x. auto. }
  destruct (L (kids n) (fun x h => h)) as [f0 H0]. exists (S f0). intros fuel s v Hf Hv ND.
  destruct fuel as [|k]; [lia|]. rewrite set_root_unfold by exact Hv.
  pose proof (visit_spec s v n ND) as SV.
  destruct (H0 k {| rroot := gset (rroot s) n (Some v); rdefs := own s n |} v) as (s' & E & S').
  - lia.
  - cbn. unfold gset. destruct (Nat.eqb_spec v n); [discriminate|]. destruct Hv; [assumption|contradiction].
  - exact (sp_nd _ _ _ _ SV).
  - exists s'. split; [exact E|]. eapply spec_ext; [|eapply spec_trans; [| |exact SV|exact S']].
    + intros m. cbn. split.
      * intros [->|(c & I & R)]; [apply reach_refl|eapply reach_cons; eassumption].
      * intros R. destruct (reach_inv _ _ R) as [->|(c & I & Rc)]; [left; reflexivity|right; exists c; auto].
    + intros m. destruct (Nat.eq_dec m n); auto.
    + intros m. cbn. destruct (reach_dec_acc n (Acc_intro n Acn) m) as [R|R].
      * destruct (reach_inv _ _ R) as [->|X]; [|left; exact X].
        right. intros (c & I & Rc).
        clear -Acn I Rc. assert (A : Acc (clos_trans nat child_of) m).
        { apply Acc_clos_trans. constructor. exact Acn. }
        assert (T : clos_trans nat child_of m m).
        { assert (forall a b, reach a b -> b = a \/ clos_trans nat child_of b a) as Hr.
          { intros a b R. induction R as [a b H|a|a b d _ IH1 _ IH2].
            - right. apply t_step. exact H.
            - left. reflexivity.
            - destruct IH1 as [->|IH1], IH2 as [->|IH2]; auto. right. eapply t_trans; eassumption. }
          destruct (Hr c m Rc) as [->|T]; [apply t_step; exact I|]. eapply t_trans; [exact T|]. apply t_step. exact I. }
        clear -A T. induction A as [m _ IH]. exact (IH m T T).
      * right. intros (c & I & Rc). apply R. eapply reach_cons; eassumption.
Qed.

(** divergence on cycles *)
Lemma foldk_member k v l : forall o s', foldk k v l o = Some s' -> forall c, In c l ->
  exists s1 s2, set_root kids k s1 v c = Some s2.
Proof.
  induction l as [|x l IH]; intros o s' E c; [intros []|].
  unfold foldk in E. cbn in E. intros [<-|I].
  - destruct o as [s|].
    + destruct (set_root kids k s v x) as [s2|] eqn:Q; [exists s, s2; exact Q|].
      fold (foldk k v l None) in E. rewrite foldk_none in E. discriminate.
    + fold (foldk k v l None) in E. rewrite foldk_none in E. discriminate.
  - eapply IH; [exact E|exact I].
Qed.
Lemma set_root_child fuel s v n s' c : set_root kids fuel s v n = Some s' -> In c (kids n) ->
  exists k s1 s2, fuel = S k /\ set_root kids k s1 v c = Some s2.
Proof.
  destruct fuel as [|k]; cbn [set_root]; [discriminate|].
  match goal with |- match ?X with Some _ => _ | None => _ end = _ -> _ => destruct X as [s1|] end; [|discriminate].
  intros E I. apply (foldk_member k v _ _ _ E) in I. destruct I as (a & b & X). exists k, a, b. auto.
Qed.
Lemma set_root_descend fuel s v n s' m : set_root kids fuel s v n = Some s' -> reach n m ->
  exists k s1 s2, k <= fuel /\ set_root kids k s1 v m = Some s2.
Proof.
  intros E R. apply clos_rt_rt1n in R. revert fuel s s' E.
  induction R as [n|n c m I R IH]; intros fuel s s' E; [exists fuel, s, s'; auto|].
  destruct (set_root_child _ _ _ _ _ _ E I) as (k & s1 & s2 & -> & E').
  destruct (IH _ _ _ E') as (k' & a & b & L & X). exists k', a, b. split; [lia|exact X].
Qed.
Theorem set_root_cycle_diverges n m c :
  reach n m -> In c (kids m) -> reach c m ->
  forall fuel s v, set_root kids fuel s v n = None.
Proof.
  intros R1 I R2 fuel s v. destruct (set_root kids fuel s v n) as [s'|] eqn:E; [|reflexivity].
  exfalso. destruct (set_root_descend _ _ _ _ _ _ E R1) as (k & a & b & _ & X).
  clear -X I R2. revert a b X. induction k as [k IH] using lt_wf_ind. intros a b X.
  destruct (set_root_child _ _ _ _ _ _ X I) as (k' & a' & b' & -> & Y).
  destruct (set_root_descend _ _ _ _ _ _ Y R2) as (k2 & a2 & b2 & L & Z).
  eapply (IH k2); [lia|exact Z].
Qed.
End Root.
