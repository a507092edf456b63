(** Determinism, termination and composition rules for the parser. *)
From Verif Require Import Base Text Grammar_Model.
Local Open Scope nat_scope.
Local Open Scope list_scope.

Lemma run_mono n m e s r : n <= m -> run n e s = Some r -> run m e s = Some r.
Proof.
  revert m e s r. induction n as [|n IH]; intros m e s r Hm H; [discriminate|].
  destruct m as [|m]; [lia|]. apply le_S_n in Hm.
  destruct e as [l|neg rs|a b|a b|a|a|a|x|]; try exact H; cbn [run] in H |- *.
  - destruct (run n a s) as [[c1 r1 l1| |]|] eqn:E; try discriminate; rewrite (IH m _ _ _ Hm E); auto.
    destruct (run n b r1) as [o|] eqn:E2; [|discriminate]. rewrite (IH m _ _ _ Hm E2). exact H.
  - destruct (run n a s) as [[c1 r1 l1| |]|] eqn:E; try discriminate; rewrite (IH m _ _ _ Hm E); auto.
  - destruct (run n a s) as [[c1 r1 l1| |]|] eqn:E; try discriminate; rewrite (IH m _ _ _ Hm E); auto.
    destruct (run n (Star a) r1) as [o|] eqn:E2; [|discriminate]. rewrite (IH m _ _ _ Hm E2). exact H.
  - destruct (run n a s) as [[c1 r1 l1| |]|] eqn:E; try discriminate; rewrite (IH m _ _ _ Hm E); auto.
  - destruct (run n a s) as [[c1 r1 l1| |]|] eqn:E; try discriminate; rewrite (IH m _ _ _ Hm E); auto.
  - destruct (run n (rule x) s) as [[c1 r1 l1| |]|] eqn:E; try discriminate; rewrite (IH m _ _ _ Hm E); auto.
Qed.

Lemma parses_det e s r r' : parses e s r -> parses e s r' -> r = r'.
Proof.
  intros [n H] [m H']. apply (run_mono n (n + m)) in H; [|lia]. apply (run_mono m (n + m)) in H'; [|lia].
  congruence.
Qed.

(** *** composition rules *)
Lemma p_lit l s r : strip l s = Some r -> parses (Lit l) s (POk l r []).
Proof. intros H. exists 1. cbn. rewrite H. reflexivity. Qed.
Lemma p_lit_fail l s : strip l s = None -> parses (Lit l) s PFail.
Proof. intros H. exists 1. cbn. rewrite H. reflexivity. Qed.
Lemma p_cls neg rs c r : xorb neg (inr c rs) = true -> parses (Cls neg rs) (c :: r) (POk [c] r []).
Proof. intros H. exists 1. cbn [run]. rewrite H. reflexivity. Qed.
Lemma p_cls_fail neg rs c r : xorb neg (inr c rs) = false -> parses (Cls neg rs) (c :: r) PFail.
Proof. intros H. exists 1. cbn [run]. rewrite H. reflexivity. Qed.
Lemma p_cls_nil neg rs : parses (Cls neg rs) [] PFail.
Proof. exists 1. reflexivity. Qed.
Lemma p_seq a b s c1 r1 l1 c2 r2 l2 : parses a s (POk c1 r1 l1) -> parses b r1 (POk c2 r2 l2) ->
  parses (Seq a b) s (POk (c1 ++ c2) r2 (l1 ++ l2)).
Proof.
  intros [n H] [m H']. exists (S (n + m)). cbn [run].
  rewrite (run_mono n (n + m) _ _ _ ltac:(lia) H), (run_mono m (n + m) _ _ _ ltac:(lia) H'). reflexivity.
Qed.
Lemma p_seq' a b s c1 r1 l1 c2 r2 l2 c l : parses a s (POk c1 r1 l1) -> parses b r1 (POk c2 r2 l2) ->
  c = c1 ++ c2 -> l = l1 ++ l2 -> parses (Seq a b) s (POk c r2 l).
Proof. intros H1 H2 -> ->. eapply p_seq; eauto. Qed.
Lemma p_seq_bad a b s r : parses a s r -> (r = PFail \/ r = PErr) -> parses (Seq a b) s r.
Proof. intros [n H] Hr. exists (S n). cbn [run]. rewrite H. destruct Hr; subst; reflexivity. Qed.
Lemma p_seq_bad2 a b s c1 r1 l1 r : parses a s (POk c1 r1 l1) -> parses b r1 r ->
  (r = PFail \/ r = PErr) -> parses (Seq a b) s r.
Proof.
  intros [n H] [m H'] Hr. exists (S (n + m)). cbn [run].
  rewrite (run_mono n (n + m) _ _ _ ltac:(lia) H), (run_mono m (n + m) _ _ _ ltac:(lia) H').
  destruct Hr; subst; reflexivity.
Qed.
Lemma p_alt1 a b s r : parses a s r -> r <> PFail -> parses (Alt a b) s r.
Proof. intros [n H] Hr. exists (S n). cbn [run]. rewrite H. destruct r; congruence. Qed.
Lemma p_alt2 a b s r : parses a s PFail -> parses b s r -> parses (Alt a b) s r.
Proof.
  intros [n H] [m H']. exists (S (n + m)). cbn [run].
  rewrite (run_mono n (n + m) _ _ _ ltac:(lia) H). apply (run_mono m); [lia|exact H'].
Qed.
Lemma p_star0 a s : parses a s PFail -> parses (Star a) s (POk [] s []).
Proof. intros [n H]. exists (S n). cbn [run]. rewrite H. reflexivity. Qed.
Lemma p_starS a s c1 r1 l1 c2 r2 l2 : parses a s (POk c1 r1 l1) ->
  parses (Star a) r1 (POk c2 r2 l2) -> parses (Star a) s (POk (c1 ++ c2) r2 (l1 ++ l2)).
Proof.
  intros [n H] [m H']. exists (S (n + m)). cbn [run].
  rewrite (run_mono n (n + m) _ _ _ ltac:(lia) H), (run_mono m (n + m) _ _ _ ltac:(lia) H'). reflexivity.
Qed.
Lemma p_starS' a s c1 r1 l1 c2 r2 l2 c l : parses a s (POk c1 r1 l1) ->
  parses (Star a) r1 (POk c2 r2 l2) -> c = c1 ++ c2 -> l = l1 ++ l2 -> parses (Star a) s (POk c r2 l).
Proof. intros H1 H2 -> ->. eapply p_starS; eauto. Qed.
Lemma p_star_err a s : parses a s PErr -> parses (Star a) s PErr.
Proof. intros [n H]. exists (S n). cbn [run]. rewrite H. reflexivity. Qed.
Lemma p_star_err2 a s c1 r1 l1 : parses a s (POk c1 r1 l1) ->
  parses (Star a) r1 PErr -> parses (Star a) s PErr.
Proof.
  intros [n H] [m H']. exists (S (n + m)). cbn [run].
  rewrite (run_mono n (n + m) _ _ _ ltac:(lia) H), (run_mono m (n + m) _ _ _ ltac:(lia) H'). reflexivity.
Qed.
Lemma p_opt0 a s : parses a s PFail -> parses (Opt a) s (POk [] s []).
Proof. intros [n H]. exists (S n). cbn [run]. rewrite H. reflexivity. Qed.
Lemma p_opt1 a s r : parses a s r -> r <> PFail -> parses (Opt a) s r.
Proof. intros [n H] Hr. exists (S n). cbn [run]. rewrite H. destruct r; congruence. Qed.
Lemma p_cut a s r : parses a s r -> r <> PFail -> parses (Cut a) s r.
Proof. intros [n H] Hr. exists (S n). cbn [run]. rewrite H. destruct r; congruence. Qed.
Lemma p_cut_fail a s : parses a s PFail -> parses (Cut a) s PErr.
Proof. intros [n H]. exists (S n). cbn [run]. rewrite H. reflexivity. Qed.
Lemma p_nt n s c r l : parses (rule n) s (POk c r l) ->
  parses (NT n) s (POk c r (if reported n then [T n c l] else l)).
Proof. intros [k H]. exists (S k). cbn [run]. rewrite H. reflexivity. Qed.
Lemma p_nt_bad n s r : parses (rule n) s r -> (r = PFail \/ r = PErr) -> parses (NT n) s r.
Proof. intros [k H] Hr. exists (S k). cbn [run]. rewrite H. destruct Hr; subst; reflexivity. Qed.
Lemma p_eof : parses Eof [] (POk [] [] []).
Proof. exists 1. reflexivity. Qed.
Lemma p_eof_fail c s : parses Eof (c :: s) PFail.
Proof. exists 1. reflexivity. Qed.

(** *** the match is a prefix of the text *)
Lemma strip_app l s r : strip l s = Some r -> s = l ++ r.
Proof.
  revert s. induction l as [|a l IH]; intros [|b s]; cbn; intros H; try discriminate; try congruence.
  destruct (N.eqb_spec a b); [|discriminate]. subst. f_equal. auto.
Qed.
Lemma strip_ok l r : strip l (l ++ r) = Some r.
Proof. induction l as [|a l IH]; cbn; [reflexivity|]. rewrite N.eqb_refl. exact IH. Qed.

Lemma run_prefix n e s c r l : run n e s = Some (POk c r l) -> s = c ++ r.
Proof.
  revert e s c r l. induction n as [|n IH]; intros e s c r l H; [discriminate|].
  destruct e as [x|neg rs|a b|a b|a|a|a|m|]; cbn [run] in H.
  - destruct (strip x s) eqn:E; [|discriminate]. injection H as <- <- <-. apply strip_app. exact E.
  - destruct s as [|y s]; [discriminate|]. destruct (xorb neg (inr y rs)); [|discriminate].
    injection H as <- <- <-. reflexivity.
  - destruct (run n a s) as [[c1 r1 l1| |]|] eqn:E; try discriminate.
    destruct (run n b r1) as [[c2 r2 l2| |]|] eqn:E2; try discriminate.
    injection H as <- <- <-. apply IH in E, E2. subst. apply app_assoc.
  - destruct (run n a s) as [[c1 r1 l1| |]|] eqn:E; try discriminate; eauto.
    injection H as <- <- <-. eauto.
  - destruct (run n a s) as [[c1 r1 l1| |]|] eqn:E; try discriminate.
    + destruct (run n (Star a) r1) as [[c2 r2 l2| |]|] eqn:E2; try discriminate.
      injection H as <- <- <-. apply IH in E, E2. subst. apply app_assoc.
    + injection H as <- <- <-. reflexivity.
  - destruct (run n a s) as [[c1 r1 l1| |]|] eqn:E; try discriminate;
      injection H as <- <- <-; [eauto|reflexivity].
  - destruct (run n a s) as [[c1 r1 l1| |]|] eqn:E; try discriminate; injection H as <- <- <-. eauto.
  - destruct (run n (rule m) s) as [[c1 r1 l1| |]|] eqn:E; try discriminate; injection H as <- <- <-. eauto.
  - destruct s; [|discriminate]. injection H as <- <- <-. reflexivity.
Qed.
Lemma parses_prefix e s c r l : parses e s (POk c r l) -> s = c ++ r.
Proof. intros [n H]. eapply run_prefix; eauto. Qed.

(** *** termination *)
(** productions that may match the empty text *)
Definition nulT (n : nt) : bool :=
  match n with
  | G_header | G_vrmlScene | G_ExtProtoURL | G_ts | G_EOF | G_vrmlFile => true
  | _ => false
  end.
Fixpoint nul (e : expr) : bool :=
  match e with
  | Lit l => match l with [] => true | _ => false end
  | Cls _ _ => false
  | Seq a b => nul a && nul b
  | Alt a b => nul a || nul b
  | Star _ | Opt _ | Eof => true
  | Cut a => nul a
  | NT n => nulT n
  end.
(** order in which productions call one another before consuming anything *)
Definition rank (n : nt) : nat :=
  match n with
  | G_ts | G_name | G_header | G_EOF | G_CHARNODBLQUOTE | G_SIMPLEBACKSLASH | G_ESCAPEDCHAR
  | G_fieldExposure | G_eventDirection | G_SFNumber | G_SFBool => 0
  | G_dataType | G_USE | G_IS | G_nodegi | G_SFString | G_SFNull | G_vector | G_ROUTE | G_Proto | G_ExternProto
  | G_Attr | G_Script => 1
  | G_Node | G_fieldDecl | G_eventDecl | G_extFieldDecl | G_ExtProtoURL | G_ScriptEventDecl | G_ScriptFieldDecl => 2
  | G_Field => 3
  | G_rootItem => 3
  | G_vrmlScene => 4
  | G_vrmlFile => 5
  end.
Fixpoint stars_ok (e : expr) : bool :=
  match e with
  | Lit _ | Cls _ _ | NT _ | Eof => true
  | Seq a b | Alt a b => stars_ok a && stars_ok b
  | Star a => negb (nul a) && stars_ok a
  | Opt a | Cut a => stars_ok a
  end.
Fixpoint left_ok (k : nat) (e : expr) : bool :=
  match e with
  | Lit _ | Cls _ _ | Eof => true
  | Seq a b => left_ok k a && (negb (nul a) || left_ok k b)
  | Alt a b => left_ok k a && left_ok k b
  | Star a | Opt a | Cut a => left_ok k a
  | NT n => rank n <? k
  end.
Lemma rules_nul n : nul (rule n) = true -> nulT n = true.
Proof. destruct n; cbn; auto. Qed.
Lemma rules_stars n : stars_ok (rule n) = true.
Proof. destruct n; reflexivity. Qed.
Lemma rules_left n : left_ok (rank n) (rule n) = true.
Proof. destruct n; reflexivity. Qed.
Lemma left_top e : left_ok 6 e = true.
Proof.
  induction e as [l|neg rs|a IHa b IHb|a IHa b IHb|a IHa|a IHa|a IHa|n|]; cbn [left_ok]; auto;
    try (rewrite ?IHa, ?IHb, ?orb_true_r; reflexivity).
  destruct n; reflexivity.
Qed.

Lemma run_nul n e s r l : run n e s = Some (POk [] r l) -> nul e = true.
Proof.
  revert e s r l. induction n as [|n IH]; intros e s r l H; [discriminate|].
  destruct e as [x|neg rs|a b|a b|a|a|a|m|]; cbn [run nul] in *; auto.
  - destruct (strip x s); [|discriminate]. injection H as H _ _. subst. reflexivity.
  - destruct s as [|y s]; [discriminate|]. destruct (xorb neg (inr y rs)); discriminate.
  - destruct (run n a s) as [[c1 r1 l1| |]|] eqn:E; try discriminate.
    destruct (run n b r1) as [[c2 r2 l2| |]|] eqn:E2; try discriminate.
    injection H as H <- <-. apply app_eq_nil in H as [-> ->].
    rewrite (IH _ _ _ _ E), (IH _ _ _ _ E2). reflexivity.
  - destruct (run n a s) as [[c1 r1 l1| |]|] eqn:E; try discriminate.
    + injection H as -> <- <-. rewrite (IH _ _ _ _ E). reflexivity.
    + rewrite (IH _ _ _ _ H). apply orb_true_r.
  - destruct (run n a s) as [[c1 r1 l1| |]|] eqn:E; try discriminate.
    injection H as -> <- <-. eauto.
  - destruct (run n (rule m) s) as [[c1 r1 l1| |]|] eqn:E; try discriminate.
    injection H as -> <- <-. apply rules_nul. eauto.
Qed.

Lemma star_no_fail n a s : run n (Star a) s <> Some PFail.
Proof.
  revert s. induction n as [|n IH]; intros s; [discriminate|]. cbn [run].
  destruct (run n a s) as [[c1 r1 l1| |]|]; try discriminate.
  destruct (run n (Star a) r1) as [[c2 r2 l2| |]|] eqn:E; try discriminate. exfalso. exact (IH _ E).
Qed.
Lemma terminates_gen n : forall s, List.length s <= n -> forall k e,
  stars_ok e = true -> left_ok k e = true -> exists r, parses e s r.
Proof.
  induction n as [n IHn] using (well_founded_induction Wf_nat.lt_wf).
  intros s Hs k. induction k as [k IHk] using (well_founded_induction Wf_nat.lt_wf).
  assert (Hshort : forall c r l a, parses a s (POk c r l) -> c <> [] ->
            forall e, stars_ok e = true -> exists r', parses e r r').
  { intros c r l a Ha Hc e He. apply parses_prefix in Ha. subst s. destruct c; [congruence|].
    cbn in Hs. rewrite app_length in Hs.
    apply (IHn (List.length r)) with (k := 6); [lia|lia|exact He|apply left_top]. }
  induction e as [l|neg rs|a IHa b IHb|a IHa b IHb|a IHa|a IHa|a IHa|m|]; cbn [stars_ok left_ok];
    intros Hst Hl.
  - exists (match strip l s with Some r => POk l r [] | None => PFail end). exists 1. reflexivity.
  - exists (match s with c :: r => if xorb neg (inr c rs) then POk [c] r [] else PFail | [] => PFail end).
    exists 1. reflexivity.
  - apply andb_true_iff in Hst as [Ha Hb]. apply andb_true_iff in Hl as [La Lb].
    destruct (IHa Ha La) as [[c r l| |] Pa].
    + assert (exists r', parses b r r') as [r' Pb].
      { destruct c as [|x c].
        - pose proof Pa as [f Pf]. apply run_nul in Pf. rewrite Pf in Lb. cbn in Lb.
          apply parses_prefix in Pa. cbn in Pa. subst r. auto.
        - eapply Hshort; eauto. discriminate. }
      destruct r' as [c2 r2 l2| |].
      * eexists. eapply p_seq; eauto.
      * exists PFail. eapply p_seq_bad2; eauto.
      * exists PErr. eapply p_seq_bad2; eauto.
    + exists PFail. apply p_seq_bad; auto.
    + exists PErr. apply p_seq_bad; auto.
  - apply andb_true_iff in Hst as [Ha Hb]. apply andb_true_iff in Hl as [La Lb].
    destruct (IHa Ha La) as [[c r l| |] Pa].
    + eexists. apply p_alt1; [exact Pa|discriminate].
    + destruct (IHb Hb Lb) as [r Pb]. eexists. apply p_alt2; eauto.
    + eexists. apply p_alt1; [exact Pa|discriminate].
  - apply andb_true_iff in Hst as [Hn Ha]. pose proof Hn as Hn'. apply negb_true_iff in Hn.
    destruct (IHa Ha Hl) as [[c r l| |] Pa].
    + assert (Hc : c <> []).
      { intros ->. pose proof Pa as [f Pf]. apply run_nul in Pf. congruence. }
      destruct (Hshort _ _ _ _ Pa Hc (Star a)) as [r' Pb]; [cbn; rewrite Hn', Ha; reflexivity|].
      destruct r' as [c2 r2 l2| |].
      * eexists. eapply p_starS; eauto.
      * destruct Pb as [f Pb]. exfalso. exact (star_no_fail f a r Pb).
      * exists PErr. eapply p_star_err2; eauto.
    + eexists. apply p_star0; eauto.
    + exists PErr. apply p_star_err; auto.
  - destruct (IHa Hst Hl) as [[c r l| |] Pa]; eexists;
      try (apply p_opt1; [exact Pa|discriminate]). apply p_opt0. exact Pa.
  - destruct (IHa Hst Hl) as [[c r l| |] Pa]; eexists;
      try (apply p_cut; [exact Pa|discriminate]). apply p_cut_fail. exact Pa.
  - apply Nat.ltb_lt in Hl.
    destruct (IHk (rank m) Hl (rule m) (rules_stars m) (rules_left m)) as [[c r l| |] Pm].
    + eexists. apply p_nt. exact Pm.
    + exists PFail. apply p_nt_bad; auto.
    + exists PErr. apply p_nt_bad; auto.
  - exists (match s with [] => POk [] [] [] | _ => PFail end). exists 1. destruct s; reflexivity.
Qed.
Theorem terminates n s : exists r, parses (NT n) s r.
Proof. apply (terminates_gen (List.length s) s (le_n _) 6); [reflexivity|apply left_top]. Qed.
