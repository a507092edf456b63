(** Proofs about Copy_Model. *)
From Verif Require Import Base PyDict PyDict_Proofs Copy_Model Copy_Spec.

Lemma nat_eqb_spec a b : Nat.eqb a b = true <-> a = b.
Proof. apply Nat.eqb_eq. Qed.
Notation gss := (dget_dset_same Nat.eqb nat_eqb_spec).
Notation gso := (dget_dset_other Nat.eqb nat_eqb_spec).

Lemma upd_same {A} (m : nat -> A) k a : upd m k a k = a.
Proof. unfold upd. now rewrite Nat.eqb_refl. Qed.
Lemma upd_other {A} (m : nat -> A) k a x : x <> k -> upd m k a x = m x.
Proof. unfold upd. intros H. destruct (Nat.eqb_spec x k); congruence. Qed.

(** allocation-only extension of a state *)
Record ext (s s' : state) : Prop := {
  e_next : next s <= next s';
  e_heap : forall l, l < next s -> heap s' l = heap s l;
  e_defs : forall l, l < next s -> defs s' l = defs s l }.
Lemma ext_refl s : ext s s.
Proof. split; auto. Qed.
Lemma ext_trans s1 s2 s3 : ext s1 s2 -> ext s2 s3 -> ext s1 s3.
Proof.
  intros [A1 B1 C1] [A2 B2 C2]. split; [lia| |]; intros l L.
  - rewrite B2 by lia. apply B1, L.
  - rewrite C2 by lia. apply C1, L.
Qed.
Lemma ext_alloc s o : ext s (fst (alloc s o)).
Proof.
  split; cbn; [lia| |]; intros l L; [|reflexivity]. apply upd_other. lia.
Qed.

Lemma val_refs_In (d : list (nat * val)) f v r :
  dget Nat.eqb d f = Some v -> In r (val_refs v) -> In r (concat (map (fun kv => val_refs (snd kv)) d)).
Proof.
  intros E I. apply in_concat. exists (val_refs v). split; [|exact I].
  apply in_map_iff. exists (f, v). split; [reflexivity|]. eapply dget_In; [apply nat_eqb_spec|exact E].
Qed.

(** nothing but arrays, lists and strings is fresh: what fresh objects refer to
    is old *)
Definition old_only (s0 s : state) : Prop :=
  forall l o r, next s0 <= l -> heap s l = Some o -> is_node o = false -> In r (obj_refs o) -> r < next s0.

Lemma wf_alloc_ s o : wf s -> (forall r, In r (obj_refs o) -> r < next s) -> wf (fst (alloc s o)).
Proof.
  intros [W1 W2 W3 W4] H. split; cbn.
  - intros l o'. unfold upd. destruct (Nat.eqb_spec l (next s)); [lia|]. intros E. apply W1 in E. lia.
  - intros l o' r. unfold upd. destruct (Nat.eqb_spec l (next s)).
    + intros [= <-] I. apply H in I. lia.
    + intros E I. specialize (W2 _ _ _ E I). lia.
  - intros l d k r E I. specialize (W3 _ _ _ _ E I). lia.
  - intros l d E. specialize (W4 _ _ E). lia.
Qed.

Section Proofs.
Variable fields : nat -> list (nat * kind).

(** one value *)
Record copied (s s' : state) (k : kind) (v v' : val) : Prop := {
  c_see : see s' (fget s' k v') = see s (fget s k v);
  c_refs : forall r, In r (val_refs v') -> r < next s';
  c_node : forall r, In r (val_refs v') -> r < next s \/ exists o, heap s' r = Some o /\ is_node o = false;
  c_fresh : typed s k v -> match k with
      | KArr | KStrs | KNodes => exists l, v' = VRef l /\ next s <= l < next s'
      | _ => True end;
  c_typed : typed s k v -> typed s' k v' }.

Lemma copyValue_spec s k v : wf s -> (forall r, In r (val_refs v) -> r < next s) ->
  let '(s', v') := copyValue s k v in
  wf s' /\ ext s s' /\ copied s s' k v v'.
Proof.
  intros W R.
  assert (Same : forall k', (typed s k v -> match k' with KArr | KStrs | KNodes => False | _ => True end) -> k = k' ->
            wf s /\ ext s s /\ copied s s k v v).
  { intros k' H ->. split; [exact W|]. split; [apply ext_refl|].
    split; auto. intros T. specialize (H T). destruct k'; tauto. }
  assert (Al : forall l o, v = VRef l -> (k = KArr /\ (exists a, heap s l = Some (OArr a) /\ o = OArr a) \/
                                     k = KStrs /\ (exists a, heap s l = Some (OStrs a) /\ o = OStrs a) \/
                                     k = KNodes /\ (exists b a, heap s l = Some (ONodes b a) /\ o = ONodes false a)) ->
            let '(s', l') := alloc s o in wf s' /\ ext s s' /\ copied s s' k v (VRef l')).
  { intros l o -> C.
    assert (Nn : is_node o = false) by (destruct C as [(_ & a & _ & ->)|[(_ & a & _ & ->)|(_ & b & a & _ & ->)]]; reflexivity).
    assert (X : wf (fst (alloc s o))).
    { apply wf_alloc_; [exact W|]. intros r I.
      destruct C as [(_ & a & E & ->)|[(_ & a & E & ->)|(_ & b & a & E & ->)]]; cbn in I; try tauto.
      eapply (wf_refs _ W _ _ r E), I. }
    pose proof (ext_alloc s o) as Y. cbn in *. split; [exact X|]. split; [exact Y|]. split.
    - destruct C as [(-> & a & E & ->)|[(-> & a & E & ->)|(-> & b & a & E & ->)]]; cbn; rewrite E, upd_same; reflexivity.
    - cbn. intros r [<-|[]]. lia.
    - cbn. intros r [<-|[]]. right. exists o. now rewrite upd_same.
    - intros _. destruct C as [(-> & _)|[(-> & _)|(-> & _)]]; exists (next s); cbn; lia || (split; [reflexivity|lia]).
    - intros _. destruct C as [(-> & a & E & ->)|[(-> & a & E & ->)|(-> & b & a & E & ->)]]; cbn;
        [exists (next s), a|exists (next s), a|exists (next s), false, a]; now rewrite upd_same. }
  destruct k; cbn [copyValue]; try (eapply Same; [|reflexivity]; intros _; exact I).
  - destruct v as [z|l|l|]; try (eapply Same; [|reflexivity]; intros (l' & a & X & Y); congruence).
    destruct (heap s l) as [[| a | |]|] eqn:E; try (eapply Same; [|reflexivity]; intros (l' & a' & [= <-] & Y); congruence).
    apply (Al l (OArr a)); [reflexivity|]. left. eauto.
  - destruct v as [z|l|l|]; try (eapply Same; [|reflexivity]; intros (l' & a & X & Y); congruence).
    destruct (heap s l) as [[| | a |]|] eqn:E; try (eapply Same; [|reflexivity]; intros (l' & a' & [= <-] & Y); congruence).
    apply (Al l (OStrs a)); [reflexivity|]. right. left. eauto.
  - destruct v as [z|l|l|]; try (eapply Same; [|reflexivity]; intros (l' & b & a & X & Y); congruence).
    destruct (heap s l) as [[| | | b a]|] eqn:E; try (eapply Same; [|reflexivity]; intros (l' & b' & a' & [= <-] & Y); congruence).
    apply (Al l (ONodes false a)); [reflexivity|]. right. right. split; [reflexivity|]. eauto.
  - destruct v as [z|l|l|]; try (eapply Same; [|reflexivity]; intros _; exact I).
    destruct (heap s l) as [o|] eqn:E.
    + split; [exact W|]. split; [apply ext_refl|]. split.
      * cbn [fget]. rewrite E. reflexivity.
      * intros r [<-|[]]. eapply wf_alloc; eauto.
      * intros r [<-|[]]. left. eapply wf_alloc; eauto.
      * intros _. exact I.
      * intros [T|[(l' & [= <-] & T)|(l' & c & d & T & _)]]; try discriminate.
        right. right. specialize (T o E). destruct o; try discriminate. eauto.
    + split; [exact W|]. split; [apply ext_refl|]. split.
      * cbn. rewrite E. reflexivity.
      * intros r [].
      * intros r [].
      * intros _. exact I.
      * intros _. cbn. auto.
Qed.

(** seeing a value that does not refer to fresh objects is stable *)
Lemma see_ext s s' k v : ext s s' -> wf s -> (forall r, In r (val_refs v) -> r < next s) ->
  see s' (fget s' k v) = see s (fget s k v).
Proof.
  intros X W R. destruct v as [z|l|l|]; [destruct k; reflexivity| | |destruct k; reflexivity].
  - assert (E : heap s' l = heap s l) by (apply (e_heap _ _ X), R; left; reflexivity).
    destruct k; cbn; rewrite E; reflexivity.
  - assert (E : heap s' l = heap s l) by (apply (e_heap _ _ X), R; left; reflexivity).
    destruct k; cbn; rewrite E; try reflexivity. destruct (heap s l) eqn:E2; cbn; rewrite ?E, ?E2; reflexivity.
Qed.
Lemma typed_ext s s' k v : ext s s' -> (forall r, In r (val_refs v) -> r < next s) ->
  typed s k v -> typed s' k v.
Proof.
  intros X R T.
  assert (E : forall l, In l (val_refs v) -> heap s' l = heap s l) by (intros l I; apply (e_heap _ _ X), R, I).
  destruct k; cbn in *.
  - exact T.
  - destruct T as (l & a & -> & H). exists l, a. rewrite E by (left; reflexivity). auto.
  - destruct T as (l & a & -> & H). exists l, a. rewrite E by (left; reflexivity). auto.
  - destruct T as (l & c & d & -> & H). exists l, c, d. rewrite E by (left; reflexivity). auto.
  - destruct T as (l & c & d & -> & H). exists l, c, d. rewrite E by (left; reflexivity). auto.
  - destruct T as [T|[(l & -> & T)|(l & c & d & -> & H)]]; [auto| |].
    + right. left. exists l. rewrite E by (left; reflexivity). auto.
    + right. right. exists l, c, d. rewrite E by (left; reflexivity). auto.
Qed.

(** the result relation of one copied entry, relative to the state [s0] before *)
Record entry (s0 s : state) (k : kind) (v v' : val) : Prop := {
  n_see : see s (fget s k v') = see s0 (fget s0 k v);
  n_refs : forall r, In r (val_refs v') -> r < next s;
  n_node : forall r, In r (val_refs v') -> r < next s0 \/ exists o, heap s r = Some o /\ is_node o = false;
  n_fresh : typed s0 k v -> match k with
      | KArr | KStrs | KNodes => exists l, v' = VRef l /\ next s0 <= l
      | KWeak => forall l, v' <> VWeak l
      | _ => True end;
  n_typed : typed s0 k v -> typed s k v' }.

Lemma entry_ext s0 s s' k v v' : wf s -> ext s s' -> entry s0 s k v v' -> entry s0 s' k v v'.
Proof.
  intros W X [A B C D T]. split.
  - rewrite <- A. apply see_ext; assumption.
  - intros r I. apply B in I. pose proof (e_next _ _ X). lia.
  - intros r I. destruct (C r I) as [H|(o & E & N)]; [left; exact H|right].
    exists o. rewrite (e_heap _ _ X) by (apply B, I). auto.
  - exact D.
  - intros H. eapply typed_ext; [exact X|exact B|exact (T H)].
Qed.

Lemma copyValue_weak s v : forall l, typed s KWeak v -> snd (copyValue s KWeak v) <> VWeak l.
Proof.
  intros l T. destruct v as [z|l0|l0|]; cbn; try discriminate. destruct (heap s l0); discriminate.
Qed.

Lemma copyDict_spec s0 fs d : wf s0 -> (forall f v r, dget Nat.eqb d f = Some v -> In r (val_refs v) -> r < next s0) ->
  NoDup (map fst fs) -> forall s acc, wf s -> ext s0 s -> 
  old_only s0 s ->
  let '(s', d') := copyDict s fs d acc in
  wf s' /\ ext s s' /\ old_only s0 s' /\
  (forall f k, In (f, k) fs -> 
     match dget Nat.eqb d f with
     | Some v => exists v', dget Nat.eqb d' f = Some v' /\ entry s0 s' k v v'
     | None => dget Nat.eqb d' f = dget Nat.eqb acc f
     end) /\
  (forall f, ~ In f (map fst fs) -> dget Nat.eqb d' f = dget Nat.eqb acc f) /\
  (forall l o, next s <= l -> heap s' l = Some o -> is_node o = false).
Proof.
  intros W0 R. induction fs as [|[f k] fs IH]; intros ND s acc W X O; cbn.
  - split; [exact W|]. split; [apply ext_refl|]. split; [exact O|]. split; [tauto|]. split; [reflexivity|].
    intros l o L E. apply (wf_alloc _ W) in E. lia.
  - inversion ND as [|a b Nf ND']; subst.
    destruct (dget Nat.eqb d f) as [v|] eqn:Ef.
    + assert (Rv : forall r, In r (val_refs v) -> r < next s0) by (intros r I; eapply R; eauto).
      assert (Rv' : forall r, In r (val_refs v) -> r < next s)
        by (intros r I; apply Rv in I; pose proof (e_next _ _ X); lia).
      pose proof (copyValue_spec s k v W Rv') as H.
      destruct (copyValue s k v) as [s1 v1] eqn:Ec. destruct H as (W1 & X1 & [A B C D T]).
      assert (En : entry s0 s1 k v v1).
      { split.
        - rewrite A. apply see_ext; assumption.
        - exact B.
        - intros r I. destruct (C r I) as [H|H]; [|right; exact H].
          destruct (Nat.lt_ge_cases r (next s0)); [left; assumption|].
          assert (Hr : exists o, heap s1 r = Some o /\ is_node o = false \/ r < next s0); [|destruct Hr as (o & [Hr|Hr]); [right; eauto|left; exact Hr]].
          clear - C I H H0 Ec Rv X X1 W.
          destruct k, v as [z|l|l|]; cbn in Ec; try (injection Ec as <- <-; exists (OArr []); right; apply Rv, I).
          + destruct (heap s l) as [[| a | |]|]; cbn in Ec; injection Ec as <- <-; try (exists (OArr []); right; apply Rv, I).
            destruct I as [<-|[]]. cbn. rewrite upd_same. eauto.
          + destruct (heap s l) as [[| | a |]|]; cbn in Ec; injection Ec as <- <-; try (exists (OArr []); right; apply Rv, I).
            destruct I as [<-|[]]. cbn. rewrite upd_same. eauto.
          + destruct (heap s l) as [[| | | b a]|]; cbn in Ec; injection Ec as <- <-; try (exists (OArr []); right; apply Rv, I).
            destruct I as [<-|[]]. cbn. rewrite upd_same. eauto.
          + destruct (heap s l); injection Ec as <- <-; exists (OArr []); right; [apply Rv, I|destruct I].
        - intros Ty. assert (Ty' : typed s k v) by (eapply typed_ext; eauto).
          specialize (D Ty'). pose proof (e_next _ _ X).
          destruct k; try exact I; try (destruct D as (l & -> & L); exists l; split; [reflexivity|lia]).
          intros l. pose proof (copyValue_weak s v l Ty') as Q. rewrite Ec in Q. exact Q.
        - intros Ty. apply T. eapply typed_ext; eauto. }
      assert (O1 : old_only s0 s1).
      { intros l o r L E No I. destruct (Nat.lt_ge_cases l (next s)).
        - rewrite (e_heap _ _ X1) in E by assumption. eapply O; eauto.
        - clear - Ec E I Rv W0 X O W H L.
          destruct k, v as [z|l0|l0|]; cbn in Ec; try (injection Ec as <- <-; apply (wf_alloc _ W) in E; lia).
          + destruct (heap s l0) as [[| a | |]|] eqn:El; cbn in Ec; injection Ec as <- <-; try (apply (wf_alloc _ W) in E; lia).
            cbn in E. unfold upd in E. destruct (Nat.eqb_spec l (next s)); [injection E as <-; destruct I|apply (wf_alloc _ W) in E; lia].
          + destruct (heap s l0) as [[| | a |]|] eqn:El; cbn in Ec; injection Ec as <- <-; try (apply (wf_alloc _ W) in E; lia).
            cbn in E. unfold upd in E. destruct (Nat.eqb_spec l (next s)); [injection E as <-; destruct I|apply (wf_alloc _ W) in E; lia].
          + destruct (heap s l0) as [[| | | b a]|] eqn:El; cbn in Ec; injection Ec as <- <-; try (apply (wf_alloc _ W) in E; lia).
            cbn in E. unfold upd in E. destruct (Nat.eqb_spec l (next s)); [injection E as <-|apply (wf_alloc _ W) in E; lia].
            assert (L0 : l0 < next s0) by (apply Rv; left; reflexivity).
            rewrite (e_heap _ _ X) in El by exact L0. eapply (wf_refs _ W0); [exact El|exact I].
          + destruct (heap s l0); injection Ec as <- <-; apply (wf_alloc _ W) in E; lia. }
      specialize (IH ND' s1 (dset Nat.eqb acc f v1) W1 (ext_trans _ _ _ X X1) O1).
      destruct (copyDict s1 fs d (dset Nat.eqb acc f v1)) as [s2 d2].
      destruct IH as (W2 & X2 & O2 & F2 & G2 & N2).
      split; [exact W2|]. split; [eapply ext_trans; eauto|]. split; [exact O2|]. split; [|split].
      * intros f' k' [[= <- <-]|I'].
        -- rewrite Ef. exists v1. split; [rewrite G2 by exact Nf; apply gss|].
           eapply entry_ext; [exact W1|exact X2|exact En].
        -- specialize (F2 f' k' I').
           assert (f' <> f) by (intros ->; apply Nf, in_map_iff; exists (f, k'); auto).
           destruct (dget Nat.eqb d f'); [exact F2|]. rewrite F2. apply gso. congruence.
      * intros f' Nf'. rewrite G2 by tauto. apply gso. intros ->. tauto.
      * intros l o L E. destruct (Nat.lt_ge_cases l (next s1)); [|eapply N2; eauto].
        rewrite (e_heap _ _ X2) in E by assumption.
        clear - Ec E W L.
        destruct k, v as [z|l0|l0|]; cbn in Ec; try (injection Ec as <- <-; apply (wf_alloc _ W) in E; lia);
          destruct (heap s l0) as [[]|] eqn:El; cbn in Ec; injection Ec as <- <-; try (apply (wf_alloc _ W) in E; lia);
          cbn in E; unfold upd in E; (destruct (Nat.eqb_spec l (next s)); [injection E as <-; reflexivity|apply (wf_alloc _ W) in E; lia]).
    + specialize (IH ND' s acc W X O).
      destruct (copyDict s fs d acc) as [s2 d2]. destruct IH as (W2 & X2 & O2 & F2 & G2 & N2).
      split; [exact W2|]. split; [exact X2|]. split; [exact O2|]. split; [|split].
      * intros f' k' [[= <- <-]|I'].
        -- rewrite Ef. apply G2, Nf.
        -- apply F2, I'.
      * intros f' Nf'. apply G2. tauto.
      * exact N2.
Qed.

Lemma copyDict_nodup fs d : forall s acc, NoDup (dkeys acc) -> NoDup (dkeys (snd (copyDict s fs d acc))).
Proof.
  induction fs as [|[f k] fs IH]; intros s acc H; cbn; [exact H|].
  destruct (dget Nat.eqb d f) as [v|]; [|apply IH, H].
  destruct (copyValue s k v) as [s1 v1]. apply IH. apply nodup_dset; [apply nat_eqb_spec|exact H].
Qed.

(** invariant of a copying pass that started in [s0] *)
Record pass (s0 s : state) (c : copier) : Prop := {
  p_wf : wf s;
  p_ext : ext s0 s;
  p_old : old_only s0 s;
  p_cop : forall n m, dget Nat.eqb c n = Some m ->
            next s0 <= m < next s /\ exists cls d, heap s m = Some (ONode cls d);
  p_inj : forall a b m, dget Nat.eqb c a = Some m -> dget Nat.eqb c b = Some m -> a = b;
  p_ref : forall l o r, next s0 <= l -> heap s l = Some o -> In r (obj_refs o) ->
            r < next s0 \/ exists o', heap s r = Some o' /\ is_node o' = false }.

Lemma pass_start s : wf s -> pass s s [].
Proof.
  intros W. split; auto using ext_refl; try discriminate.
  - intros l o r L E. apply (wf_alloc _ W) in E. lia.
  - intros l o r L E. apply (wf_alloc _ W) in E. lia.
Qed.

Hypothesis fields_nodup : forall cls, NoDup (map fst (fields cls)).
Notation copyNode := (copyNode fields).
Notation copy := (copy fields).

(** a node and its copy, relative to the state [s0] the original is read in *)
Definition is_copy (s0 s : state) (n m : nat) : Prop :=
  exists cls d d', heap s0 n = Some (ONode cls d) /\ heap s m = Some (ONode cls d') /\
  (forall f k, In (f, k) (fields cls) ->
     match dget Nat.eqb d f with
     | Some v => exists v', dget Nat.eqb d' f = Some v' /\ entry s0 s k v v'
     | None => dget Nat.eqb d' f = None
     end) /\
  (forall f, ~ In f (map fst (fields cls)) -> dget Nat.eqb d' f = None).

Lemma copyNode_spec s0 s c n s' c' m : wf s0 -> pass s0 s c -> n < next s0 ->
  copyNode s c n = Some (s', c', m) ->
  pass s0 s' c' /\ ext s s' /\ dget Nat.eqb c' n = Some m /\
  (forall a b, dget Nat.eqb c a = Some b -> dget Nat.eqb c' a = Some b) /\
  (dget Nat.eqb c n = None -> next s <= m /\ is_copy s0 s' n m).
Proof.
  intros W0 P Ln H. unfold Copy_Model.copyNode in H.
  destruct (dget Nat.eqb c n) as [m0|] eqn:Ec.
  { injection H as <- <- <-. split; [exact P|]. split; [apply ext_refl|]. split; [exact Ec|]. split; [auto|discriminate]. }
  destruct (heap s n) as [[cls d| | |]|] eqn:En; try discriminate.
  assert (En0 : heap s0 n = Some (ONode cls d)) by (rewrite <- (e_heap _ _ (p_ext _ _ _ P) n Ln); exact En).
  assert (R : forall f v r, dget Nat.eqb d f = Some v -> In r (val_refs v) -> r < next s0).
  { intros f v r E I. eapply (wf_refs _ W0); [exact En0|]. cbn. eapply val_refs_In; eauto. }
  pose proof (copyDict_spec s0 (fields cls) d W0 R (fields_nodup cls) s [] (p_wf _ _ _ P) (p_ext _ _ _ P) (p_old _ _ _ P)) as S.
  pose proof (copyDict_nodup (fields cls) d s [] (NoDup_nil _)) as ND.
  destruct (copyDict s (fields cls) d []) as [s1 d1]. cbn in ND.
  destruct S as (W1 & X1 & O1 & F1 & G1 & N1).
  cbn in H. injection H as <- <- <-.
  assert (R1 : forall f v, In (f, v) d1 -> exists k v0, dget Nat.eqb d f = Some v0 /\ entry s0 s1 k v0 v).
  { intros f v I. apply (In_dget _ nat_eqb_spec) in I; [|exact ND].
    destruct (in_dec Nat.eq_dec f (map fst (fields cls))) as [If|If]; [|rewrite G1 in I by exact If; discriminate].
    apply in_map_iff in If as ([f' k] & <- & If). cbn in *. specialize (F1 _ _ If).
    destruct (dget Nat.eqb d f') as [v0|] eqn:E0; [|rewrite F1 in I; discriminate].
    destruct F1 as (v' & E' & Hv). rewrite I in E'. injection E' as <-. eauto. }
  assert (W2 : wf (fst (alloc s1 (ONode cls d1)))).
  { apply wf_alloc_; [exact W1|]. cbn. intros r I. apply in_concat in I as (x & Ix & Ir).
    apply in_map_iff in Ix as ([f v] & <- & Iv). destruct (R1 _ _ Iv) as (k & v0 & _ & Hn).
    eapply n_refs; [exact Hn|exact Ir]. }
  pose proof (ext_alloc s1 (ONode cls d1)) as X2. cbn in W2, X2.
  set (s2 := {| next := S (next s1); heap := upd (heap s1) (next s1) (Some (ONode cls d1)); defs := defs s1 |}) in *.
  pose proof (e_next _ _ (p_ext _ _ _ P)) as L0. pose proof (e_next _ _ X1) as L1.
  assert (Hm : heap s2 (next s1) = Some (ONode cls d1)) by (cbn; apply upd_same).
  split; [|split; [eapply ext_trans; eauto|split; [apply gss|split]]].
  - split.
    + exact W2.
    + eapply ext_trans; [apply (p_ext _ _ _ P)|]. eapply ext_trans; eauto.
    + intros l o r L E No I. cbn in E. unfold upd in E. destruct (Nat.eqb_spec l (next s1)).
      * injection E as <-. discriminate.
      * eapply O1; eauto.
    + intros a b E. destruct (Nat.eq_dec a n) as [->|Na].
      * rewrite gss in E. injection E as <-. split; [cbn; lia|eauto].
      * rewrite gso in E by congruence. destruct (p_cop _ _ _ P _ _ E) as ((La & Lb) & cl & dd & Hh).
        split; [cbn; lia|]. exists cl, dd. rewrite <- Hh.
        assert (heap s1 b = heap s b) by (apply (e_heap _ _ X1); lia).
        rewrite <- H. apply (e_heap _ _ X2). lia.
    + intros a b x Ea Eb. destruct (Nat.eq_dec a n) as [->|Na], (Nat.eq_dec b n) as [->|Nb]; auto.
      * rewrite gss in Ea. injection Ea as <-. rewrite gso in Eb by congruence.
        apply (p_cop _ _ _ P) in Eb. lia.
      * rewrite gss in Eb. injection Eb as <-. rewrite gso in Ea by congruence.
        apply (p_cop _ _ _ P) in Ea. lia.
      * rewrite gso in Ea, Eb by congruence. eapply (p_inj _ _ _ P); eauto.
    + intros l o r L E I.
      assert (Keep : forall r', (r' < next s0 \/ exists o', heap s1 r' = Some o' /\ is_node o' = false) ->
                     r' < next s0 \/ exists o', heap s2 r' = Some o' /\ is_node o' = false).
      { intros r' [H|(o' & H & No)]; [left; exact H|right]. exists o'. split; [|exact No].
        rewrite <- H. apply (e_heap _ _ X2). eapply wf_alloc; eauto. }
      apply Keep. cbn in E. unfold upd in E. destruct (Nat.eqb_spec l (next s1)).
      * injection E as <-. cbn in I. apply in_concat in I as (x & Ix & Ir).
        apply in_map_iff in Ix as ([f v] & <- & Iv). destruct (R1 _ _ Iv) as (k & v0 & _ & Hn).
        eapply n_node; [exact Hn|exact Ir].
      * destruct (Nat.lt_ge_cases l (next s)) as [Ll|Ll].
        -- rewrite (e_heap _ _ X1) in E by exact Ll.
           destruct (p_ref _ _ _ P _ _ _ L E I) as [H|(o' & H & No)]; [left; exact H|right].
           exists o'. split; [|exact No]. rewrite <- H. apply (e_heap _ _ X1). eapply (wf_alloc _ (p_wf _ _ _ P)); eauto.
        -- left. eapply O1; [exact L|exact E|eapply N1; eauto|exact I].
  - intros a b E. rewrite gso; [exact E|]. intros ->. congruence.
  - intros _. split; [lia|]. exists cls, d, d1. split; [exact En0|]. split; [exact Hm|]. split.
    + intros f k I. specialize (F1 f k I). destruct (dget Nat.eqb d f) as [v|]; [|exact F1].
      destruct F1 as (v' & E' & Hn). exists v'. split; [exact E'|]. eapply entry_ext; [exact W1|exact X2|exact Hn].
    + intros f I. apply G1, I.
Qed.

(** The loop of SceneGraph.copy, named. *)
Fixpoint entries (rec : state -> copier -> nat -> option (state * copier * nat))
    (s : state) (c : copier) (ds acc : list (nat * option nat)) : option (state * copier * list (nat * option nat)) :=
  match ds with
  | [] => Some (s, c, acc)
  | (k, v) :: ds =>
      match k, v with
      | S _, Some v =>
          match rec s c v with
          | Some (s, c, v') => entries rec s c ds (dset Nat.eqb acc k (Some v'))
          | None => None
          end
      | _, _ => entries rec s c ds acc
      end
  end.
Lemma copy_S fuel s c n : copy (S fuel) s c n =
  match defs s n with
  | None => copyNode s c n
  | Some ds =>
      match entries (copy fuel) s c ds [] with
      | Some (s, c, new) =>
          match copyNode s c n with
          | Some (s, c, m) => Some (set_defs s m new, c, m)
          | None => None
          end
      | None => None
      end
  end.
Proof.
  cbn [Copy_Model.copy]. destruct (defs s n) as [ds|]; [|reflexivity].
  match goal with |- match ?a with _ => _ end = match ?b with _ => _ end => assert (E : a = b); [|rewrite E; reflexivity] end.
  generalize (@nil (nat * option nat)). revert s c.
  induction ds as [|[k v] ds IH]; intros s c acc; cbn; [reflexivity|].
  destruct k, v as [v|]; auto. destruct (copy fuel s c v) as [[[s1 c1] v1]|]; auto.
Qed.

(** result of a copy inside a pass *)
Definition copy_ok (s0 : state) (c : copier) (n : nat) (s' : state) (c' : copier) (m : nat) : Prop :=
  pass s0 s' c' /\ dget Nat.eqb c' n = Some m /\
  (forall a b, dget Nat.eqb c a = Some b -> dget Nat.eqb c' a = Some b).

Lemma In_dset {V} (d : list (nat * V)) k v k' v' :
  In (k', v') (dset Nat.eqb d k v) -> v' = v \/ In (k', v') d.
Proof.
  induction d as [|[a b] d IH]; cbn.
  - intros [[= <- <-]|[]]. auto.
  - destruct (Nat.eqb a k); cbn; intros [[= <- <-]|I]; auto. destruct (IH I); auto.
Qed.

Lemma entries_spec s0 rec : wf s0 ->
  (forall s c n s' c' m, pass s0 s c -> n < next s0 -> rec s c n = Some (s', c', m) -> copy_ok s0 c n s' c' m) ->
  forall ds s c acc s' c' new, pass s0 s c ->
  (forall k r, In (k, Some r) ds -> r < next s0) ->
  (forall k r, In (k, Some r) acc -> exists x, dget Nat.eqb c x = Some r) ->
  entries rec s c ds acc = Some (s', c', new) ->
  pass s0 s' c' /\
  (forall a b, dget Nat.eqb c a = Some b -> dget Nat.eqb c' a = Some b) /\
  (forall k r, In (k, Some r) new -> exists x, dget Nat.eqb c' x = Some r) /\
  (forall k, ~ In k (dkeys ds) -> dget Nat.eqb new k = dget Nat.eqb acc k) /\
  (NoDup (dkeys ds) -> forall k x, In (k, Some x) ds -> k <> 0 ->
     exists x', dget Nat.eqb new k = Some (Some x') /\ dget Nat.eqb c' x = Some x').
Proof.
  intros W0 Hrec. induction ds as [|[k v] ds IH]; intros s c acc s' c' new P R A H; cbn in H.
  - injection H as <- <- <-. split; [exact P|]. split; [auto|]. split; [exact A|]. split; [auto|]. intros _ k x [].
  - assert (Skip : entries rec s c ds acc = Some (s', c', new) -> (k = 0 \/ v = None) ->
      pass s0 s' c' /\
      (forall a b, dget Nat.eqb c a = Some b -> dget Nat.eqb c' a = Some b) /\
      (forall k r, In (k, Some r) new -> exists x, dget Nat.eqb c' x = Some r) /\
      (forall k0, ~ In k0 (dkeys ((k, v) :: ds)) -> dget Nat.eqb new k0 = dget Nat.eqb acc k0) /\
      (NoDup (dkeys ((k, v) :: ds)) -> forall k0 x, In (k0, Some x) ((k, v) :: ds) -> k0 <> 0 ->
        exists x', dget Nat.eqb new k0 = Some (Some x') /\ dget Nat.eqb c' x = Some x')).
    { intros H' Kv. destruct (IH s c acc s' c' new P (fun k r I => R k r (or_intror I)) A H') as (P' & M' & A' & O' & N').
      split; [exact P'|]. split; [exact M'|]. split; [exact A'|]. split.
      - intros k0 I. apply O'. cbn in I. tauto.
      - intros ND k0 x [[= -> ->]|I] Nz; [destruct Kv; congruence|]. inversion ND; subst. apply (N' H3 _ _ I Nz). }
    destruct k as [|k]; [apply Skip; auto|]. destruct v as [v|]; [|apply Skip; auto]. clear Skip.
    destruct (rec s c v) as [[[s1 c1] v1]|] eqn:Er; [|discriminate].
    destruct (Hrec s c v s1 c1 v1 P (R _ _ (or_introl eq_refl)) Er) as (P1 & D1 & M1).
    assert (A1 : forall k0 r, In (k0, Some r) (dset Nat.eqb acc (S k) (Some v1)) -> exists x, dget Nat.eqb c1 x = Some r).
    { intros k0 r I. apply In_dset in I as [[= ->]|I]; [eauto|]. destruct (A _ _ I) as (x & Hx). eauto. }
    destruct (IH s1 c1 _ s' c' new P1 (fun k r I => R k r (or_intror I)) A1 H) as (P' & M' & A' & O' & N').
    split; [exact P'|]. split; [auto|]. split; [exact A'|]. split.
    + intros k0 I. cbn in I. rewrite O' by tauto. apply gso. tauto.
    + intros ND k0 x I Nz. inversion ND as [|? ? Nk ND']; subst. destruct I as [[= <- <-]|I].
      * exists v1. split; [rewrite O' by exact Nk; apply gss|]. apply M', D1.
      * apply (N' ND' _ _ I Nz).
Qed.

Lemma pass_set_defs s0 s c m new : pass s0 s c -> next s0 <= m < next s ->
  (forall k r, In (k, Some r) new -> r < next s) -> pass s0 (set_defs s m new) c.
Proof.
  intros [[W1 W2 W3 W4] [X1 X2 X3] O C I R] Lm Hn. split; auto.
  - split; cbn; auto.
    + intros l d k r. unfold upd. destruct (Nat.eqb_spec l m); [intros [= <-]; apply Hn|apply W3].
    + intros l d. unfold upd. destruct (Nat.eqb_spec l m); [intros _; lia|apply W4].
  - split; cbn; auto. intros l L. rewrite upd_other by lia. apply X3, L.
Qed.

Lemma copy_spec s0 : wf s0 -> forall fuel s c n s' c' m,
  pass s0 s c -> n < next s0 -> copy fuel s c n = Some (s', c', m) -> copy_ok s0 c n s' c' m.
Proof.
  intros W0. induction fuel as [|fuel IH]; intros s c n s' c' m P Ln H; [discriminate|].
  rewrite copy_S in H.
  destruct (defs s n) as [ds|] eqn:Ed.
  - destruct (entries (copy fuel) s c ds []) as [[[s1 c1] new]|] eqn:Ee; [|discriminate].
    assert (Ed0 : defs s0 n = Some ds) by (rewrite <- Ed; symmetry; apply (e_defs _ _ (p_ext _ _ _ P)), Ln).
    destruct (entries_spec s0 (copy fuel) W0 IH ds s c [] s1 c1 new P) as (P1 & M1 & A1 & _ & _); auto.
    { intros k r I. eapply (wf_defs _ W0); eauto. }
    { intros k r []. }
    destruct (copyNode s1 c1 n) as [[[s2 c2] m2]|] eqn:En; [|discriminate]. injection H as <- <- <-.
    destruct (copyNode_spec s0 s1 c1 n s2 c2 m2 W0 P1 Ln En) as (P2 & X2 & D2 & M2 & _).
    split; [|split; auto].
    apply pass_set_defs; [exact P2|apply (p_cop _ _ _ P2 _ _ D2)|].
    intros k r I. destruct (A1 _ _ I) as (x & Hx). apply (p_cop _ _ _ P2 x). apply M2, Hx.
  - destruct (copyNode_spec s0 s c n s' c' m W0 P Ln H) as (P2 & X2 & D2 & M2 & _). split; auto.
Qed.

(** a scenegraph that appears in its own table cannot be copied *)
Lemma copy_diverges s0 n ds k : wf s0 -> defs s0 n = Some ds -> In (S k, Some n) ds ->
  forall fuel s c, pass s0 s c -> copy fuel s c n = None.
Proof.
  intros W0 Ed I. assert (Ln : n < next s0) by (eapply wf_sg; eauto).
  induction fuel as [|fuel IH]; intros s c P; [reflexivity|].
  rewrite copy_S, (e_defs _ _ (p_ext _ _ _ P)) by exact Ln. rewrite Ed.
  assert (R : forall k r, In (k, Some r) ds -> r < next s0) by (intros; eapply (wf_defs _ W0); eauto).
  assert (N : forall acc, entries (copy fuel) s c ds acc = None); [|rewrite N; reflexivity].
  clear Ed. revert s c P.
  induction ds as [|[k0 v0] ds IHds]; intros s c P acc; [destruct I|].
  destruct I as [[= -> ->]|I].
  - cbn. rewrite IH by exact P. reflexivity.
  - assert (R' : forall k r, In (k, Some r) ds -> r < next s0) by (intros; eapply R; right; eauto).
    destruct k0 as [|k0]; [cbn; apply IHds; auto|]. destruct v0 as [v0|]; [|cbn; apply IHds; auto].
    cbn. destruct (copy fuel s c v0) as [[[s1 c1] v1]|] eqn:E; [|reflexivity].
    apply IHds; auto. apply (copy_spec s0 W0 fuel s c v0 s1 c1 v1 P); [|exact E]. eapply R. left. reflexivity.
Qed.

(** what is reachable from fresh objects *)
Lemma reach_fresh s0 s c x y : wf s0 -> pass s0 s c -> reach s x y ->
  (x < next s0 -> y < next s0) /\
  ((exists o, heap s x = Some o /\ is_node o = false) -> y = x \/ y < next s0) /\
  (next s0 <= x -> y = x \/ y < next s0 \/ exists o, heap s y = Some o /\ is_node o = false).
Proof.
  intros W0 P H. induction H as [l|l o r l' E I H (IH1 & IH2 & IH3)].
  - auto.
  - assert (Old : l < next s0 -> l' < next s0).
    { intros L. apply IH1. rewrite (e_heap _ _ (p_ext _ _ _ P)) in E by exact L. eapply (wf_refs _ W0); eauto. }
    split; [exact Old|]. split.
    + intros (o' & E' & No). rewrite E in E'. injection E' as <-.
      destruct (Nat.lt_ge_cases l (next s0)) as [L|L]; [auto|].
      right. apply IH1. eapply (p_old _ _ _ P); eauto.
    + intros L. destruct (p_ref _ _ _ P _ _ _ L E I) as [Lr|(o' & Hr & No)]; [right; left; auto|].
      destruct (IH2 (ex_intro _ _ (conj Hr No))) as [->|Ly]; [|auto]. right. right. eauto.
Qed.

(** ** Frame: operations on other objects *)
Notation part_of := (part_of fields).
Record same_view (s0 s : state) (n : nat) : Prop := {
  v_next : next s0 <= next s;
  v_part : forall l, part_of s0 n l -> heap s l = heap s0 l;
  v_node : forall l c d, l < next s0 -> heap s0 l = Some (ONode c d) -> forall o, heap s l = Some o -> is_node o = true }.

Lemma part_lt s n l : wf s -> n < next s -> part_of s n l -> l < next s.
Proof.
  intros W Ln [->|(cls & d & f & k & E & I & H)]; [exact Ln|].
  eapply (wf_refs _ W); [exact E|]. cbn.
  destruct H as [(_ & H)|(_ & H)]; (eapply val_refs_In; [exact H|left; reflexivity]).
Qed.

Lemma step_view s0 s n o : wf s0 -> n < next s0 -> same_view s0 s n ->
  (forall t, target o = Some t -> ~ part_of s0 n t) -> same_view s0 (step s o) n.
Proof.
  intros W Ln [A B C] T.
  assert (St : forall t o', target o = Some t -> is_node o' = true \/ (exists x, heap s t = Some x /\ is_node x = false) ->
     same_view s0 (store s t o') n).
  { intros t o' Ht No. split; cbn; [exact A| |].
    - intros l P. rewrite upd_other; [apply B, P|]. intros ->. exact (T _ Ht P).
    - intros l c d L E o2. unfold upd. destruct (Nat.eqb_spec l t) as [->|Nt]; [|apply (C _ _ _ L E)].
      intros [= <-]. destruct No as [No|(x & Hx & No)]; [exact No|]. rewrite (C _ _ _ L E _ Hx) in No. discriminate. }
  destruct o as [o|m f v|m f|t o|t]; cbn.
  - split; cbn; [lia| |].
    + intros l P. rewrite upd_other; [apply B, P|]. pose proof (part_lt _ _ _ W Ln P). lia.
    + intros l c d L E o2. rewrite upd_other by lia. apply (C _ _ _ L E).
  - destruct (heap s m) as [[]|] eqn:E; try (split; assumption). apply St; auto.
  - destruct (heap s m) as [[]|] eqn:E; try (split; assumption). apply St; auto.
  - destruct (heap s t) as [o'|] eqn:E; [|split; assumption].
    destruct (is_node o') eqn:N1; [split; assumption|]. destruct (is_node o) eqn:N2; [split; assumption|]. cbn.
    apply St; [reflexivity|]. right. eauto.
  - split; cbn; [exact A| |].
    + intros l P. rewrite upd_other; [apply B, P|]. intros ->. exact (T _ eq_refl P).
    + intros l c d L E o2. unfold upd. destruct (Nat.eqb_spec l t); [discriminate|]. apply (C _ _ _ L E).
Qed.
Lemma run_view s0 n os : wf s0 -> n < next s0 -> forall s, same_view s0 s n ->
  Forall (fun o => forall t, target o = Some t -> ~ part_of s0 n t) os -> same_view s0 (run s os) n.
Proof.
  intros W Ln. induction os as [|o os IH]; intros s V F; [exact V|]. inversion F; subst. cbn.
  apply IH; [|assumption]. apply step_view; assumption.
Qed.
Lemma view_read s0 s n f : wf s0 -> node_ok fields s0 n -> same_view s0 s n ->
  (forall cls d, heap s0 n = Some (ONode cls d) -> In f (map fst (fields cls))) ->
  read fields s n f = read fields s0 n f.
Proof.
  intros W (cls & d & E & ND & Ty) [A B C] If. unfold read.
  rewrite (B n) by (left; reflexivity). rewrite E.
  destruct (dget Nat.eqb d f) as [v|] eqn:Ef; [|reflexivity].
  specialize (If _ _ E). apply in_map_iff in If as ([f' k] & <- & If). cbn in *.
  rewrite (In_dget Nat.eqb nat_eqb_spec _ _ _ ND If). specialize (Ty _ _ _ If Ef).
  assert (Own : forall l, (k = KArr \/ k = KStrs \/ k = KNodes) -> v = VRef l -> heap s l = heap s0 l).
  { intros l Hk ->. apply B. right. exists cls, d, f', k. auto 10. }
  assert (Nd : forall l c dd, heap s0 l = Some (ONode c dd) -> see s (VRef l) = SNode l).
  { intros l c dd H. cbn. destruct (heap s l) as [o|] eqn:Es; [|reflexivity].
    assert (is_node o = true) by (eapply C; [|exact H|exact Es]; eapply wf_alloc; eauto).
    destruct o; try discriminate. reflexivity. }
  destruct k; cbn in Ty.
  - destruct Ty as (z & ->). reflexivity.
  - destruct Ty as (l & a & -> & H). cbn. rewrite (Own l) by auto. reflexivity.
  - destruct Ty as (l & a & -> & H). cbn. rewrite (Own l) by auto. reflexivity.
  - destruct Ty as (l & c & dd & -> & H). cbn [fget]. rewrite (Nd _ _ _ H). cbn. rewrite H. reflexivity.
  - destruct Ty as (l & b & a & -> & H). cbn. rewrite (Own l) by auto. reflexivity.
  - destruct Ty as [->|[(l & -> & T)|(l & c & dd & -> & H)]]; [reflexivity| |].
    + assert (X : heap s l = heap s0 l).
      { apply B. right. exists cls, d, f', KWeak. auto 10. }
      cbn. rewrite X. destruct (heap s0 l) as [o|] eqn:El; [|reflexivity]. cbn. rewrite X. rewrite El. reflexivity.
    + cbn [fget]. rewrite (Nd _ _ _ H). cbn. rewrite H. reflexivity.
Qed.
Lemma view_refl s n : same_view s s n.
Proof. split; auto. intros l c d _ E o E'. rewrite E in E'. injection E' as <-. reflexivity. Qed.
End Proofs.
