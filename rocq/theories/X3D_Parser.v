(** Determinism, termination and composition rules for the X3D parser, as in
    [Grammar_Proofs.v]. *)
From Verif Require Import Base Text Grammar_Model Grammar_Proofs X3D_Model.
Local Open Scope nat_scope.
Local Open Scope list_scope.

Lemma xrun_mono n m e s r : n <= m -> xrun n e s = Some r -> xrun m e s = Some r.
Proof.
  revert m e s r. induction n as [|n IH]; intros m e s r Hm H; [discriminate|].
  destruct m as [|m]; [lia|]. apply le_S_n in Hm.
  destruct e as [l|neg rs|a b|a b|a|a|a|x|]; try exact H; cbn [xrun] in H |- *.
  - destruct (xrun n a s) as [[c1 r1 l1| |]|] eqn:E; try discriminate; rewrite (IH m _ _ _ Hm E); auto.
    destruct (xrun n b r1) as [o|] eqn:E2; [|discriminate]. rewrite (IH m _ _ _ Hm E2). exact H.
  - destruct (xrun n a s) as [[c1 r1 l1| |]|] eqn:E; try discriminate; rewrite (IH m _ _ _ Hm E); auto.
  - destruct (xrun n a s) as [[c1 r1 l1| |]|] eqn:E; try discriminate; rewrite (IH m _ _ _ Hm E); auto.
    destruct (xrun n (Star a) r1) as [o|] eqn:E2; [|discriminate]. rewrite (IH m _ _ _ Hm E2). exact H.
  - destruct (xrun n a s) as [[c1 r1 l1| |]|] eqn:E; try discriminate; rewrite (IH m _ _ _ Hm E); auto.
  - destruct (xrun n a s) as [[c1 r1 l1| |]|] eqn:E; try discriminate; rewrite (IH m _ _ _ Hm E); auto.
  - destruct (xrun n (xrule x) s) as [[c1 r1 l1| |]|] eqn:E; try discriminate; rewrite (IH m _ _ _ Hm E); auto.
Qed.

Lemma xparses_det e s r r' : xparses e s r -> xparses e s r' -> r = r'.
Proof.
  intros [n H] [m H']. apply (xrun_mono n (n + m)) in H; [|lia]. apply (xrun_mono m (n + m)) in H'; [|lia].
  congruence.
Qed.

(** *** composition rules *)
Lemma xp_lit l s r : strip l s = Some r -> xparses (Lit l) s (POk l r []).
Proof. intros H. exists 1. cbn. rewrite H. reflexivity. Qed.
Lemma xp_lit_fail l s : strip l s = None -> xparses (Lit l) s PFail.
Proof. intros H. exists 1. cbn. rewrite H. reflexivity. Qed.
Lemma xp_cls neg rs c r : xorb neg (inr c rs) = true -> xparses (Cls neg rs) (c :: r) (POk [c] r []).
Proof. intros H. exists 1. cbn [xrun]. rewrite H. reflexivity. Qed.
Lemma xp_cls_fail neg rs c r : xorb neg (inr c rs) = false -> xparses (Cls neg rs) (c :: r) PFail.
Proof. intros H. exists 1. cbn [xrun]. rewrite H. reflexivity. Qed.
Lemma xp_cls_nil neg rs : xparses (Cls neg rs) [] PFail.
Proof. exists 1. reflexivity. Qed.
Lemma xp_seq a b s c1 r1 l1 c2 r2 l2 : xparses a s (POk c1 r1 l1) -> xparses b r1 (POk c2 r2 l2) ->
  xparses (Seq a b) s (POk (c1 ++ c2) r2 (l1 ++ l2)).
Proof.
  intros [n H] [m H']. exists (S (n + m)). cbn [xrun].
  rewrite (xrun_mono n (n + m) _ _ _ ltac:(lia) H), (xrun_mono m (n + m) _ _ _ ltac:(lia) H'). reflexivity.
Qed.
Lemma xp_seq' a b s c1 r1 l1 c2 r2 l2 c l : xparses a s (POk c1 r1 l1) -> xparses b r1 (POk c2 r2 l2) ->
  c = c1 ++ c2 -> l = l1 ++ l2 -> xparses (Seq a b) s (POk c r2 l).
Proof. intros H1 H2 -> ->. eapply xp_seq; eauto. Qed.
Lemma xp_seq_bad a b s r : xparses a s r -> (r = PFail \/ r = PErr) -> xparses (Seq a b) s r.
Proof. intros [n H] Hr. exists (S n). cbn [xrun]. rewrite H. destruct Hr; subst; reflexivity. Qed.
Lemma xp_seq_bad2 a b s c1 r1 l1 r : xparses a s (POk c1 r1 l1) -> xparses b r1 r ->
  (r = PFail \/ r = PErr) -> xparses (Seq a b) s r.
Proof.
  intros [n H] [m H'] Hr. exists (S (n + m)). cbn [xrun].
  rewrite (xrun_mono n (n + m) _ _ _ ltac:(lia) H), (xrun_mono m (n + m) _ _ _ ltac:(lia) H').
  destruct Hr; subst; reflexivity.
Qed.
Lemma xp_alt1 a b s r : xparses a s r -> r <> PFail -> xparses (Alt a b) s r.
Proof. intros [n H] Hr. exists (S n). cbn [xrun]. rewrite H. destruct r; congruence. Qed.
Lemma xp_alt2 a b s r : xparses a s PFail -> xparses b s r -> xparses (Alt a b) s r.
Proof.
  intros [n H] [m H']. exists (S (n + m)). cbn [xrun].
  rewrite (xrun_mono n (n + m) _ _ _ ltac:(lia) H). apply (xrun_mono m); [lia|exact H'].
Qed.
Lemma xp_star0 a s : xparses a s PFail -> xparses (Star a) s (POk [] s []).
Proof. intros [n H]. exists (S n). cbn [xrun]. rewrite H. reflexivity. Qed.
Lemma xp_starS a s c1 r1 l1 c2 r2 l2 : xparses a s (POk c1 r1 l1) ->
  xparses (Star a) r1 (POk c2 r2 l2) -> xparses (Star a) s (POk (c1 ++ c2) r2 (l1 ++ l2)).
Proof.
  intros [n H] [m H']. exists (S (n + m)). cbn [xrun].
  rewrite (xrun_mono n (n + m) _ _ _ ltac:(lia) H), (xrun_mono m (n + m) _ _ _ ltac:(lia) H'). reflexivity.
Qed.
Lemma xp_starS' a s c1 r1 l1 c2 r2 l2 c l : xparses a s (POk c1 r1 l1) ->
  xparses (Star a) r1 (POk c2 r2 l2) -> c = c1 ++ c2 -> l = l1 ++ l2 -> xparses (Star a) s (POk c r2 l).
Proof. intros H1 H2 -> ->. eapply xp_starS; eauto. Qed.
Lemma xp_star_err a s : xparses a s PErr -> xparses (Star a) s PErr.
Proof. intros [n H]. exists (S n). cbn [xrun]. rewrite H. reflexivity. Qed.
Lemma xp_star_err2 a s c1 r1 l1 : xparses a s (POk c1 r1 l1) ->
  xparses (Star a) r1 PErr -> xparses (Star a) s PErr.
Proof.
  intros [n H] [m H']. exists (S (n + m)). cbn [xrun].
  rewrite (xrun_mono n (n + m) _ _ _ ltac:(lia) H), (xrun_mono m (n + m) _ _ _ ltac:(lia) H'). reflexivity.
Qed.
Lemma xp_opt0 a s : xparses a s PFail -> xparses (Opt a) s (POk [] s []).
Proof. intros [n H]. exists (S n). cbn [xrun]. rewrite H. reflexivity. Qed.
Lemma xp_opt1 a s r : xparses a s r -> r <> PFail -> xparses (Opt a) s r.
Proof. intros [n H] Hr. exists (S n). cbn [xrun]. rewrite H. destruct r; congruence. Qed.
Lemma xp_cut a s r : xparses a s r -> r <> PFail -> xparses (Cut a) s r.
Proof. intros [n H] Hr. exists (S n). cbn [xrun]. rewrite H. destruct r; congruence. Qed.
Lemma xp_cut_fail a s : xparses a s PFail -> xparses (Cut a) s PErr.
Proof. intros [n H]. exists (S n). cbn [xrun]. rewrite H. reflexivity. Qed.
Lemma xp_nt n s c r l : xparses (xrule n) s (POk c r l) ->
  xparses (NT n) s (POk c r (if reported n then [T n c l] else l)).
Proof. intros [k H]. exists (S k). cbn [xrun]. rewrite H. reflexivity. Qed.
Lemma xp_nt_bad n s r : xparses (xrule n) s r -> (r = PFail \/ r = PErr) -> xparses (NT n) s r.
Proof. intros [k H] Hr. exists (S k). cbn [xrun]. rewrite H. destruct Hr; subst; reflexivity. Qed.
Lemma xp_eof : xparses Eof [] (POk [] [] []).
Proof. exists 1. reflexivity. Qed.
Lemma xp_eof_fail c s : xparses Eof (c :: s) PFail.
Proof. exists 1. reflexivity. Qed.

(** *** the match is a prefix of the text *)
Lemma xrun_prefix n e s c r l : xrun n e s = Some (POk c r l) -> s = c ++ r.
Proof.
  revert e s c r l. induction n as [|n IH]; intros e s c r l H; [discriminate|].
  destruct e as [x|neg rs|a b|a b|a|a|a|m|]; cbn [xrun] in H.
  - destruct (strip x s) eqn:E; [|discriminate]. injection H as <- <- <-. apply strip_app. exact E.
  - destruct s as [|y s]; [discriminate|]. destruct (xorb neg (inr y rs)); [|discriminate].
    injection H as <- <- <-. reflexivity.
  - destruct (xrun n a s) as [[c1 r1 l1| |]|] eqn:E; try discriminate.
    destruct (xrun n b r1) as [[c2 r2 l2| |]|] eqn:E2; try discriminate.
    injection H as <- <- <-. apply IH in E, E2. subst. apply app_assoc.
  - destruct (xrun n a s) as [[c1 r1 l1| |]|] eqn:E; try discriminate; eauto.
    injection H as <- <- <-. eauto.
  - destruct (xrun n a s) as [[c1 r1 l1| |]|] eqn:E; try discriminate.
    + destruct (xrun n (Star a) r1) as [[c2 r2 l2| |]|] eqn:E2; try discriminate.
      injection H as <- <- <-. apply IH in E, E2. subst. apply app_assoc.
    + injection H as <- <- <-. reflexivity.
  - destruct (xrun n a s) as [[c1 r1 l1| |]|] eqn:E; try discriminate;
      injection H as <- <- <-; [eauto|reflexivity].
  - destruct (xrun n a s) as [[c1 r1 l1| |]|] eqn:E; try discriminate; injection H as <- <- <-. eauto.
  - destruct (xrun n (xrule m) s) as [[c1 r1 l1| |]|] eqn:E; try discriminate; injection H as <- <- <-. eauto.
  - destruct s; [|discriminate]. injection H as <- <- <-. reflexivity.
Qed.
Lemma xparses_prefix e s c r l : xparses e s (POk c r l) -> s = c ++ r.
Proof. intros [n H]. eapply xrun_prefix; eauto. Qed.

(** *** termination *)
(** productions that may match the empty text *)
Definition xnulT (n : nt) : bool :=
  match n with
  | G_header | G_vrmlScene | G_ExtProtoURL | G_ts | G_EOF | G_vrmlFile => true
  | _ => false
  end.
Fixpoint xnul (e : expr) : bool :=
  match e with
  | Lit l => match l with [] => true | _ => false end
  | Cls _ _ => false
  | Seq a b => xnul a && xnul b
  | Alt a b => xnul a || xnul b
  | Star _ | Opt _ | Eof => true
  | Cut a => xnul a
  | NT n => xnulT n
  end.
(** order in which productions call one another before consuming anything *)
Definition xrank (n : nt) : nat :=
  match n with
  | G_ts | G_name | G_header | G_EOF | G_CHARNODBLQUOTE | G_SIMPLEBACKSLASH | G_ESCAPEDCHAR
  | G_fieldExposure | G_eventDirection | G_SFNumber | G_SFBool => 0
  | G_dataType | G_USE | G_IS | G_nodegi | G_SFString | G_SFNull | G_vector | G_ROUTE | G_Proto | G_ExternProto
  | G_Attr | G_Script => 1
  | G_Node | G_fieldDecl | G_eventDecl | G_extFieldDecl | G_ExtProtoURL | G_ScriptEventDecl | G_ScriptFieldDecl => 2
  | G_Field => 3
  | G_rootItem => 3
  | G_vrmlScene => 4
  | G_vrmlFile => 5
  end.
Fixpoint xstars_ok (e : expr) : bool :=
  match e with
  | Lit _ | Cls _ _ | NT _ | Eof => true
  | Seq a b | Alt a b => xstars_ok a && xstars_ok b
  | Star a => negb (xnul a) && xstars_ok a
  | Opt a | Cut a => xstars_ok a
  end.
Fixpoint xleft_ok (k : nat) (e : expr) : bool :=
  match e with
  | Lit _ | Cls _ _ | Eof => true
  | Seq a b => xleft_ok k a && (negb (xnul a) || xleft_ok k b)
  | Alt a b => xleft_ok k a && xleft_ok k b
  | Star a | Opt a | Cut a => xleft_ok k a
  | NT n => xrank n <? k
  end.
Lemma xrules_nul n : xnul (xrule n) = true -> xnulT n = true.
Proof. destruct n; cbn; auto. Qed.
Lemma xrules_stars n : xstars_ok (xrule n) = true.
Proof. destruct n; reflexivity. Qed.
Lemma xrules_left n : xleft_ok (xrank n) (xrule n) = true.
Proof. destruct n; reflexivity. Qed.
Lemma xleft_top e : xleft_ok 6 e = true.
Proof.
  induction e as [l|neg rs|a IHa b IHb|a IHa b IHb|a IHa|a IHa|a IHa|n|]; cbn [xleft_ok]; auto;
    try (rewrite ?IHa, ?IHb, ?orb_true_r; reflexivity).
  destruct n; reflexivity.
Qed.

Lemma xrun_nul n e s r l : xrun n e s = Some (POk [] r l) -> xnul e = true.
Proof.
  revert e s r l. induction n as [|n IH]; intros e s r l H; [discriminate|].
  destruct e as [x|neg rs|a b|a b|a|a|a|m|]; cbn [xrun xnul] in *; auto.
  - destruct (strip x s); [|discriminate]. injection H as H _ _. subst. reflexivity.
  - destruct s as [|y s]; [discriminate|]. destruct (xorb neg (inr y rs)); discriminate.
  - destruct (xrun n a s) as [[c1 r1 l1| |]|] eqn:E; try discriminate.
    destruct (xrun n b r1) as [[c2 r2 l2| |]|] eqn:E2; try discriminate.
    injection H as H <- <-. apply app_eq_nil in H as [-> ->].
    rewrite (IH _ _ _ _ E), (IH _ _ _ _ E2). reflexivity.
  - destruct (xrun n a s) as [[c1 r1 l1| |]|] eqn:E; try discriminate.
    + injection H as -> <- <-. rewrite (IH _ _ _ _ E). reflexivity.
    + rewrite (IH _ _ _ _ H). apply orb_true_r.
  - destruct (xrun n a s) as [[c1 r1 l1| |]|] eqn:E; try discriminate.
    injection H as -> <- <-. eauto.
  - destruct (xrun n (xrule m) s) as [[c1 r1 l1| |]|] eqn:E; try discriminate.
    injection H as -> <- <-. apply xrules_nul. eauto.
Qed.

Lemma xstar_no_fail n a s : xrun n (Star a) s <> Some PFail.
Proof.
  revert s. induction n as [|n IH]; intros s; [discriminate|]. cbn [xrun].
  destruct (xrun n a s) as [[c1 r1 l1| |]|]; try discriminate.
  destruct (xrun n (Star a) r1) as [[c2 r2 l2| |]|] eqn:E; try discriminate. exfalso. exact (IH _ E).
Qed.
Lemma xterminates_gen n : forall s, List.length s <= n -> forall k e,
  xstars_ok e = true -> xleft_ok k e = true -> exists r, xparses e s r.
Proof.
  induction n as [n IHn] using (well_founded_induction Wf_nat.lt_wf).
  intros s Hs k. induction k as [k IHk] using (well_founded_induction Wf_nat.lt_wf).
  assert (Hshort : forall c r l a, xparses a s (POk c r l) -> c <> [] ->
            forall e, xstars_ok e = true -> exists r', xparses e r r').
  { intros c r l a Ha Hc e He. apply xparses_prefix in Ha. subst s. destruct c; [congruence|].
    cbn in Hs. rewrite app_length in Hs.
    apply (IHn (List.length r)) with (k := 6); [lia|lia|exact He|apply xleft_top]. }
  induction e as [l|neg rs|a IHa b IHb|a IHa b IHb|a IHa|a IHa|a IHa|m|]; cbn [xstars_ok xleft_ok];
    intros Hst Hl.
  - exists (match strip l s with Some r => POk l r [] | None => PFail end). exists 1. reflexivity.
  - exists (match s with c :: r => if xorb neg (inr c rs) then POk [c] r [] else PFail | [] => PFail end).
    exists 1. reflexivity.
  - apply andb_true_iff in Hst as [Ha Hb]. apply andb_true_iff in Hl as [La Lb].
    destruct (IHa Ha La) as [[c r l| |] Pa].
    + assert (exists r', xparses b r r') as [r' Pb].
      { destruct c as [|x c].
        - pose proof Pa as [f Pf]. apply xrun_nul in Pf. rewrite Pf in Lb. cbn in Lb.
          apply xparses_prefix in Pa. cbn in Pa. subst r. auto.
        - eapply Hshort; eauto. discriminate. }
      destruct r' as [c2 r2 l2| |].
      * eexists. eapply xp_seq; eauto.
      * exists PFail. eapply xp_seq_bad2; eauto.
      * exists PErr. eapply xp_seq_bad2; eauto.
    + exists PFail. apply xp_seq_bad; auto.
    + exists PErr. apply xp_seq_bad; auto.
  - apply andb_true_iff in Hst as [Ha Hb]. apply andb_true_iff in Hl as [La Lb].
    destruct (IHa Ha La) as [[c r l| |] Pa].
    + eexists. apply xp_alt1; [exact Pa|discriminate].
    + destruct (IHb Hb Lb) as [r Pb]. eexists. apply xp_alt2; eauto.
    + eexists. apply xp_alt1; [exact Pa|discriminate].
  - apply andb_true_iff in Hst as [Hn Ha]. pose proof Hn as Hn'. apply negb_true_iff in Hn.
    destruct (IHa Ha Hl) as [[c r l| |] Pa].
    + assert (Hc : c <> []).
      { intros ->. pose proof Pa as [f Pf]. apply xrun_nul in Pf. congruence. }
      destruct (Hshort _ _ _ _ Pa Hc (Star a)) as [r' Pb]; [cbn; rewrite Hn', Ha; reflexivity|].
      destruct r' as [c2 r2 l2| |].
      * eexists. eapply xp_starS; eauto.
      * destruct Pb as [f Pb]. exfalso. exact (xstar_no_fail f a r Pb).
      * exists PErr. eapply xp_star_err2; eauto.
    + eexists. apply xp_star0; eauto.
    + exists PErr. apply xp_star_err; auto.
  - destruct (IHa Hst Hl) as [[c r l| |] Pa]; eexists;
      try (apply xp_opt1; [exact Pa|discriminate]). apply xp_opt0. exact Pa.
  - destruct (IHa Hst Hl) as [[c r l| |] Pa]; eexists;
      try (apply xp_cut; [exact Pa|discriminate]). apply xp_cut_fail. exact Pa.
  - apply Nat.ltb_lt in Hl.
    destruct (IHk (xrank m) Hl (xrule m) (xrules_stars m) (xrules_left m)) as [[c r l| |] Pm].
    + eexists. apply xp_nt. exact Pm.
    + exists PFail. apply xp_nt_bad; auto.
    + exists PErr. apply xp_nt_bad; auto.
  - exists (match s with [] => POk [] [] [] | _ => PFail end). exists 1. destruct s; reflexivity.
Qed.
Theorem xterminates n s : exists r, xparses (NT n) s r.
Proof. apply (xterminates_gen (List.length s) s (le_n _) 6); [reflexivity|apply xleft_top]. Qed.
