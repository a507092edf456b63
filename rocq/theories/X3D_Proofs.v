(** The X3D grammar reads the body of a file as the VRML97 grammar does. *)
From Verif Require Import Base Text Grammar_Model Grammar_Proofs Lex_Spec Lex_Proofs X3D_Spec X3D_Model X3D_Parser.
Local Open Scope nat_scope.
Local Open Scope list_scope.

(** *** productions the two grammars share entirely *)
Definition lexN (n : nt) : bool :=
  match n with
  | G_ts | G_name | G_USE | G_IS | G_nodegi | G_SFNumber | G_SFBool | G_SFString | G_CHARNODBLQUOTE
  | G_SIMPLEBACKSLASH | G_ESCAPEDCHAR | G_SFNull | G_dataType | G_ROUTE | G_EOF | G_ExtProtoURL => true
  | _ => false
  end.
Fixpoint lexE (e : expr) : bool :=
  match e with
  | Lit _ | Cls _ _ | Eof => true
  | Seq a b | Alt a b => lexE a && lexE b
  | Star a | Opt a | Cut a => lexE a
  | NT n => lexN n
  end.
Lemma lex_rule n : lexN n = true -> xrule n = rule n /\ lexE (rule n) = true.
Proof. destruct n; cbn; intros H; try discriminate; split; reflexivity. Qed.
Lemma lex_same n e s : lexE e = true -> xrun n e s = run n e s.
Proof.
  revert e s. induction n as [|n IH]; intros e s H; [reflexivity|].
  destruct e as [x|neg rs|a b|a b|a|a|a|m|]; cbn [xrun run lexE] in *; try reflexivity.
  - apply andb_true_iff in H as [Ha Hb]. rewrite (IH _ _ Ha). destruct (run n a s) as [[]|]; try reflexivity.
    rewrite (IH _ _ Hb). reflexivity.
  - apply andb_true_iff in H as [Ha Hb]. rewrite (IH _ _ Ha). destruct (run n a s) as [[]|]; try reflexivity.
    rewrite (IH _ _ Hb). reflexivity.
  - rewrite (IH _ _ H). destruct (run n a s) as [[]|]; try reflexivity.
    rewrite (IH (Star a) _ H). reflexivity.
  - rewrite (IH _ _ H). reflexivity.
  - rewrite (IH _ _ H). reflexivity.
  - destruct (lex_rule m H) as [E L]. rewrite E, (IH _ _ L). reflexivity.
Qed.
Lemma lex_x e s r : lexE e = true -> parses e s r -> xparses e s r.
Proof. intros L [n H]. exists n. rewrite lex_same; auto. Qed.
Lemma lex_v e s r : lexE e = true -> xparses e s r -> parses e s r.
Proof. intros L [n H]. exists n. rewrite <- lex_same; auto. Qed.

(** results without a vector *)
Definition vecs (l : list tree) : bool := existsb has_vector l.
Definition hasvec (r : pres) : bool := match r with POk _ _ l => vecs l | _ => false end.
Lemma vecs_app a b : vecs (a ++ b) = (vecs a || vecs b)%bool.
Proof. apply existsb_app. Qed.
Lemma vecs_node n c l : n <> G_vector -> vecs (if reported n then [T n c l] else l) = vecs l.
Proof.
  intros Hn. destruct (reported n); [|reflexivity]. unfold vecs. cbn [existsb has_vector].
  destruct n; try congruence; cbn; rewrite ?orb_false_r; reflexivity.
Qed.
Lemma lex_novec n e s r : lexE e = true -> run n e s = Some r -> hasvec r = false.
Proof.
  revert e s r. induction n as [|n IH]; intros e s r L H; [discriminate|].
  destruct e as [x|neg rs|a b|a b|a|a|a|m|]; cbn [run lexE] in *.
  - injection H as <-. destruct (strip x s); reflexivity.
  - injection H as <-. destruct s; [reflexivity|]. destruct (xorb neg (inr n0 rs)); reflexivity.
  - apply andb_true_iff in L as [La Lb]. destruct (run n a s) as [[c1 r1 l1| |]|] eqn:E; try (injection H as <-; reflexivity); [|discriminate].
    destruct (run n b r1) as [[c2 r2 l2| |]|] eqn:E2; try (injection H as <-; reflexivity); [|discriminate].
    injection H as <-. cbn [hasvec]. rewrite vecs_app. apply IH in E; [|exact La]. apply IH in E2; [|exact Lb].
    cbn in E, E2. rewrite E, E2. reflexivity.
  - apply andb_true_iff in L as [La Lb]. destruct (run n a s) as [[c1 r1 l1| |]|] eqn:E; try (injection H as <-; reflexivity); try discriminate.
    + injection H as <-. apply (IH _ _ _ La E).
    + apply (IH _ _ _ Lb H).
  - destruct (run n a s) as [[c1 r1 l1| |]|] eqn:E; try (injection H as <-; reflexivity); try discriminate.
    destruct (run n (Star a) r1) as [[c2 r2 l2| |]|] eqn:E2; try (injection H as <-; reflexivity); try discriminate.
    injection H as <-. cbn [hasvec]. rewrite vecs_app. apply IH in E; [|exact L]. apply IH in E2; [|exact L].
    cbn in E, E2. rewrite E, E2. reflexivity.
  - destruct (run n a s) as [[c1 r1 l1| |]|] eqn:E; try (injection H as <-; reflexivity); try discriminate.
    injection H as <-. apply (IH _ _ _ L E).
  - destruct (run n a s) as [[c1 r1 l1| |]|] eqn:E; try (injection H as <-; reflexivity); try discriminate.
    injection H as <-. apply (IH _ _ _ L E).
  - destruct (run n (rule m) s) as [[c1 r1 l1| |]|] eqn:E; try (injection H as <-; reflexivity); try discriminate.
    injection H as <-. destruct (lex_rule m L) as [_ L']. cbn [hasvec]. rewrite vecs_node; [apply (IH _ _ _ L' E)|].
    intros ->. discriminate.
  - injection H as <-. destruct s; reflexivity.
Qed.

(** *** expressions that never fail without an error *)
Fixpoint nofail (e : expr) : bool :=
  match e with
  | Star _ | Opt _ | Cut _ => true
  | Seq a b => nofail a && nofail b
  | NT G_ts => true
  | _ => false
  end.
Lemma nofail_run n e s : nofail e = true -> run n e s <> Some PFail.
Proof.
  revert e s. induction n as [|n IH]; intros e s H; [discriminate|].
  destruct e as [x|neg rs|a b|a b|a|a|a|m|]; try discriminate.
  - cbn [nofail] in H. apply andb_true_iff in H as [Ha Hb]. cbn [run].
    destruct (run n a s) as [[c1 r1 l1| |]|] eqn:E; try discriminate; [|intros _; exact (IH _ _ Ha E)].
    destruct (run n b r1) as [[c2 r2 l2| |]|] eqn:E2; try discriminate. intros _; exact (IH _ _ Hb E2).
  - apply star_no_fail.
  - cbn [run]. destruct (run n a s) as [[c1 r1 l1| |]|]; discriminate.
  - cbn [run]. destruct (run n a s) as [[c1 r1 l1| |]|]; discriminate.
  - destruct m; try discriminate. cbn [run]. destruct n as [|n]; [discriminate|].
    cbn [rule]. destruct (run (S n) (Star _) s) as [[c1 r1 l1| |]|] eqn:E; try discriminate.
    intros _. exact (star_no_fail _ _ _ E).
Qed.
(** nothing that could hold a vector is followed by something that may fail *)
Definition bodyN (n : nt) : bool := match n with G_header | G_vrmlFile | G_vector => false | _ => true end.
Fixpoint body (e : expr) : bool :=
  match e with
  | Lit _ | Cls _ _ | Eof => true
  | Seq a b => (lexE a || nofail b) && body a && body b
  | Alt a b => body a && body b
  | Star a | Opt a | Cut a => body a
  | NT n => bodyN n
  end.
Lemma body_rule n : bodyN n = true -> n <> G_Field -> n <> G_fieldExposure -> n <> G_eventDirection ->
  xrule n = rule n /\ body (rule n) = true.
Proof. destruct n; cbn; intros; try discriminate; try congruence; split; reflexivity. Qed.

(** *** agreement *)
Definition agree (x v : pres) : Prop :=
  (x = v /\ hasvec v = false) \/ (x = PErr /\ (v = PErr \/ hasvec v = true)).
Definition agrees (e : expr) (s : text) (r : pres) : Prop := exists x, xparses e s x /\ agree x r.

Lemma no_words_app a b : no_words (a ++ b) -> no_words b.
Proof. intros H w p q Hw E. apply (H w (a ++ p) q Hw). rewrite E, !app_assoc. reflexivity. Qed.
Lemma no_word_head w s : no_words s -> In w x3d_words -> strip w s = None.
Proof.
  intros H Hw. destruct (strip w s) as [r|] eqn:E; [|reflexivity].
  apply strip_app in E. exfalso. exact (H w [] r Hw E).
Qed.

Definition listed : expr := al (NT G_SFNumber) [NT G_SFBool; NT G_SFString;
                              sq (tk "USE") [TS; NT G_USE; TS]; NT G_Script; NT G_Node].
Definition bare : expr := al (NT G_SFNumber) [NT G_SFBool; NT G_SFNull; NT G_SFString;
                              sq (tk "USE") [TS; NT G_USE; TS]; NT G_Script; NT G_Node].
Definition tail_e : expr := Seq (Cut (tk "]")) TS.
Lemma field_x : xrule G_Field =
  Alt (Seq (tk "[") (Seq TS (Seq (Star (Seq listed TS)) tail_e))) (Plus (Seq bare TS)).
Proof. reflexivity. Qed.
Lemma field_v : rule G_Field =
  Alt (Seq (tk "[") (Seq TS (Seq (Star (Seq (Alt (NT G_vector) listed) TS)) tail_e))) (Plus (Seq bare TS)).
Proof. reflexivity. Qed.
Lemma listed_bracket s : xparses listed (91%N :: s) PFail.
Proof. exists 30. reflexivity. Qed.
Lemma vector_bracket n s r : run n (NT G_vector) s = Some r -> r <> PFail -> exists s', s = 91%N :: s'.
Proof.
  intros H Hr. destruct (strip (lit "[") s) as [k|] eqn:E; [apply strip_app in E; exists k; exact E|].
  exfalso. apply Hr. apply (parses_det (NT G_vector) s); [exists n; exact H|].
  apply p_nt_bad; [|auto]. cbn [rule sq]. apply p_seq_bad; [|auto]. apply p_lit_fail. exact E.
Qed.
(** the vector production neither stops with an error nor is there anything else at a bracket *)
Fixpoint calm (e : expr) : bool :=
  match e with
  | Lit _ | Cls _ _ | Eof => true
  | Seq a b | Alt a b => calm a && calm b
  | Star a | Opt a => calm a
  | Cut _ => false
  | NT n => match n with G_vector | G_ts | G_SFNumber => true | _ => false end
  end.
Lemma calm_run n e s : calm e = true -> run n e s <> Some PErr.
Proof.
  revert e s. induction n as [|n IH]; intros e s He; [discriminate|].
  destruct e as [x|neg rs|a b|a b|a|a|a|m|]; cbn [run calm] in *; try discriminate.
  - destruct (strip x s); discriminate.
  - destruct s as [|y s]; [discriminate|]. destruct (xorb neg (inr y rs)); discriminate.
  - apply andb_true_iff in He as [Ha Hb].
    destruct (run n a s) as [[c1 r1 l1| |]|] eqn:E; try discriminate; [|exfalso; exact (IH _ _ Ha E)].
    destruct (run n b r1) as [[c2 r2 l2| |]|] eqn:E2; try discriminate. exfalso; exact (IH _ _ Hb E2).
  - apply andb_true_iff in He as [Ha Hb].
    destruct (run n a s) as [[c1 r1 l1| |]|] eqn:E; try discriminate; auto. exfalso; exact (IH _ _ Ha E).
  - destruct (run n a s) as [[c1 r1 l1| |]|] eqn:E; try discriminate; [|exfalso; exact (IH _ _ He E)].
    destruct (run n (Star a) r1) as [[c2 r2 l2| |]|] eqn:E2; try discriminate.
    exfalso. exact (IH (Star a) _ He E2).
  - destruct (run n a s) as [[c1 r1 l1| |]|] eqn:E; try discriminate. exfalso; exact (IH _ _ He E).
  - assert (Hm : calm (rule m) = true) by (destruct m; try discriminate; reflexivity).
    destruct (run n (rule m) s) as [[c1 r1 l1| |]|] eqn:E; try discriminate. exfalso; exact (IH _ _ Hm E).
  - destruct s; discriminate.
Qed.
Lemma vector_no_err n s : run n (NT G_vector) s <> Some PErr.
Proof. apply calm_run. reflexivity. Qed.

Lemma agrees_lex e s n r : lexE e = true -> run n e s = Some r -> agrees e s r.
Proof.
  intros L H. exists r. split; [apply lex_x; [exact L|exists n; exact H]|]. left. split; [reflexivity|].
  eapply lex_novec; eauto.
Qed.
Lemma run_seq k a b s : run (Datatypes.S k) (Seq a b) s =
  match run k a s with
  | Some (POk c1 r1 l1) => match run k b r1 with Some (POk c2 r2 l2) => Some (POk (c1 ++ c2) r2 (l1 ++ l2)) | o => o end
  | o => o
  end.
Proof. reflexivity. Qed.
Section Agree.
Variable n : nat.
Hypothesis IH : forall e s r, run n e s = Some r -> body e = true -> no_words s -> agrees e s r.
Lemma agree_star a s r m : m <= n -> run m (Star a) s = Some r -> body a = true -> no_words s -> agrees (Star a) s r.
Proof. intros Hm H B W. apply IH; [eapply run_mono; eauto|exact B|exact W]. Qed.
(** the items of a list of a field: if a vector is read, the X3D grammar stops at its bracket *)
Lemma agree_list m : m <= n -> forall s r, run m (Star (Seq (Alt (NT G_vector) listed) TS)) s = Some r -> no_words s ->
  agrees (Star (Seq listed TS)) s r \/
  ((r = PErr \/ hasvec r = true) /\ exists c k l, xparses (Star (Seq listed TS)) s (POk c (91%N :: k) l)).
Proof.
  induction m as [|m IHm]; intros Hm s r H W; [discriminate|].
  cbn [run] in H. destruct (run m (Seq (Alt (NT G_vector) listed) TS) s) as [r1|] eqn:E; [|discriminate].
  assert (Hl : (exists s', s = 91%N :: s' /\ (r1 = PErr \/ exists c k l, r1 = POk c k l /\ vecs l = true)) \/ agrees (Seq listed TS) s r1).
  { destruct m as [|m']; [discriminate|]. cbn [run] in E.
    destruct (run m' (Alt (NT G_vector) listed) s) as [r2|] eqn:E2; [|discriminate].
    destruct m' as [|m2]; [discriminate|]. cbn [run] in E2.
    destruct (run m2 (NT G_vector) s) as [[cv kv lv| |]|] eqn:Ev; try discriminate.
    - left. destruct (vector_bracket _ _ _ Ev) as [s' ->]; [discriminate|]. exists s'. split; [reflexivity|].
      injection E2 as <-.
      assert (Hv : vecs lv = true).
      { destruct m2 as [|m3]; [discriminate|]. cbn [run] in Ev.
        destruct (run m3 (rule G_vector) (91%N :: s')) as [[c3 k3 l3| |]|]; try discriminate.
        injection Ev as <- <- <-. reflexivity. }
      destruct (run (S m2) TS kv) as [[c4 k4 l4| |]|] eqn:E4; try discriminate; injection E as <-.
      + right. exists (cv ++ c4), k4, (lv ++ l4). split; [reflexivity|]. rewrite vecs_app, Hv. reflexivity.
      + exfalso. apply (nofail_run _ TS _ eq_refl E4).
      + left. reflexivity.
    - right. apply IH; [|reflexivity|exact W].
      assert (Hn : Datatypes.S (Datatypes.S m2) <= n) by lia. apply (run_mono (Datatypes.S (Datatypes.S m2)) n _ _ _ Hn). rewrite run_seq.
      rewrite (run_mono m2 (Datatypes.S m2) _ _ _ (Nat.le_succ_diag_r _) E2). exact E.
    - exfalso. exact (vector_no_err _ _ Ev). }
  destruct Hl as [(s' & -> & Hr1)|(x1 & Px & Ag)].
  - right. split.
    + destruct Hr1 as [->|(c & k & l & -> & Hv)]; [left; congruence|].
      destruct (run m (Star _) k) as [[c2 k2 l2| |]|] eqn:E2; try discriminate.
      * right. injection H as <-. cbn [hasvec]. rewrite vecs_app, Hv. reflexivity.
      * exfalso. exact (star_no_fail _ _ _ E2).
      * left. congruence.
    + exists [], s', []. apply xp_star0. apply xp_seq_bad; [|auto]. apply listed_bracket.
  - destruct Ag as [[-> Hv]|[-> Hr1]].
    + destruct r1 as [c1 k1 l1| |].
      * destruct (run m (Star (Seq (Alt (NT G_vector) listed) TS)) k1) as [r2|] eqn:E2; [|discriminate].
        pose proof (xparses_prefix _ _ _ _ _ Px) as Es.
        assert (W' : no_words k1) by (rewrite Es in W; apply no_words_app in W; exact W).
        destruct (IHm ltac:(lia) _ _ E2 W') as [(x2 & Px2 & Ag2)|[Hr2 (c & k & l & Px2)]].
        -- left. destruct r2 as [c2 k2 l2| |].
           ++ injection H as <-. destruct Ag2 as [[-> Hv2]|[-> Hr2]].
              ** exists (POk (c1 ++ c2) k2 (l1 ++ l2)). split; [eapply xp_starS; eauto|].
                 left. split; [reflexivity|]. cbn [hasvec] in *. rewrite vecs_app, Hv, Hv2. reflexivity.
              ** exists PErr. split; [eapply xp_star_err2; eauto|]. right. split; [reflexivity|]. right.
                 destruct Hr2 as [Hr2|Hr2]; [discriminate|]. cbn [hasvec] in *. rewrite vecs_app, Hr2. apply orb_true_r.
           ++ exfalso. exact (star_no_fail _ _ _ E2).
           ++ injection H as <-. exists PErr. split; [|right; auto].
              destruct Ag2 as [[-> _]|[-> _]]; eapply xp_star_err2; eauto.
        -- right. split.
           ++ destruct r2 as [c2 k2 l2| |].
              ** injection H as <-. right. destruct Hr2 as [Hr2|Hr2]; [discriminate|]. cbn [hasvec] in *. rewrite vecs_app, Hr2. apply orb_true_r.
              ** exfalso. exact (star_no_fail _ _ _ E2).
              ** left. congruence.
           ++ exists (c1 ++ c), k, (l1 ++ l). eapply xp_starS; eauto.
      * left. injection H as <-. exists (POk [] s []). split; [apply xp_star0; exact Px|]. left. auto.
      * left. injection H as <-. exists PErr. split; [apply xp_star_err; exact Px|]. right. auto.
    + left. exists PErr. split; [apply xp_star_err; exact Px|]. right. split; [reflexivity|].
      destruct Hr1 as [->|Hv]; [left; congruence|]. destruct r1 as [c1 k1 l1| |]; try discriminate.
      destruct (run m (Star _) k1) as [[c2 k2 l2| |]|] eqn:E2; try discriminate.
      * right. injection H as <-. cbn [hasvec] in *. rewrite vecs_app, Hv. reflexivity.
      * exfalso. exact (star_no_fail _ _ _ E2).
      * left. congruence.
Qed.
Lemma agree_field m s r : m <= n -> run m (rule G_Field) s = Some r -> no_words s -> agrees (xrule G_Field) s r.
Proof.
  rewrite field_v, field_x. intros Hm H W.
  destruct m as [|n1]; [discriminate|]. cbn [run] in H.
  destruct (run n1 (Seq (tk "[") _) s) as [r1|] eqn:E; [|discriminate].
  destruct n1 as [|n2]; [discriminate|]. rewrite run_seq in E.
  destruct (run n2 (tk "[") s) as [q|] eqn:Eb; [|discriminate].
  destruct n2 as [|n3]; [discriminate|].
  assert (Eb' : q = match strip (lit "[") s with Some k => POk (lit "[") k [] | None => PFail end) by (cbn [run tk] in Eb; congruence).
  destruct (strip (lit "[") s) as [k|] eqn:Es; subst q.
  2:{ injection E as <-.
      destruct (IH (Plus (Seq bare TS)) s r) as (x & Px & Ag).
      - apply (run_mono (Datatypes.S (Datatypes.S n3))); [lia|exact H].
      - reflexivity.
      - exact W.
      - exists x. split; [|exact Ag]. apply xp_alt2; [|exact Px]. apply xp_seq_bad; [|auto]. apply xp_lit_fail. exact Es. }
  assert (Wk : no_words k) by (apply strip_app in Es; rewrite Es in W; apply no_words_app in W; exact W).
  rewrite run_seq in E.
  destruct (run n3 TS k) as [[ct kt lt| |]|] eqn:Et; try discriminate.
  2:{ exfalso. exact (nofail_run _ TS _ eq_refl Et). }
  2:{ exfalso. exact (calm_run _ TS _ eq_refl Et). }
  assert (Wt : no_words kt) by (apply run_prefix in Et; rewrite Et in Wk; apply no_words_app in Wk; exact Wk).
  assert (Xt : xparses TS k (POk ct kt lt)) by (apply lex_x; [reflexivity|exists n3; exact Et]).
  assert (Vt : vecs lt = false) by exact (lex_novec _ TS _ _ eq_refl Et).
  destruct (run n3 (Seq (Star (Seq (Alt (NT G_vector) listed) TS)) tail_e) kt) as [r2|] eqn:E2; [|discriminate].
  assert (A : agrees (Seq (Star (Seq listed TS)) tail_e) kt r2 /\ r2 <> PFail).
  { destruct n3 as [|n4]; [discriminate|]. rewrite run_seq in E2.
    destruct (run n4 (Star (Seq (Alt (NT G_vector) listed) TS)) kt) as [r3|] eqn:E3; [|discriminate].
    destruct (agree_list n4 ltac:(lia) _ _ E3 Wt) as [(x & Px & Ag)|[Hr (c & k2 & l & Px)]].
    - destruct Ag as [[-> Hv]|[-> Hr]].
      + destruct r3 as [c3 k3 l3| |].
        * assert (W3 : no_words k3) by (apply run_prefix in E3; rewrite E3 in Wt; apply no_words_app in Wt; exact Wt).
          destruct (run n4 tail_e k3) as [r4|] eqn:E4; [|discriminate].
          destruct (agrees_lex tail_e _ _ _ eq_refl E4) as (x4 & Px4 & Ag4).
          assert (Nf : r4 <> PFail) by (intros ->; exact (nofail_run _ tail_e _ eq_refl E4)).
          destruct Ag4 as [[-> Hv4]|[-> Hr4]].
          -- destruct r4 as [c4 k4 l4| |]; injection E2 as <-.
             ++ split; [|discriminate]. exists (POk (c3 ++ c4) k4 (l3 ++ l4)). split; [eapply xp_seq; eauto|].
                left. split; [reflexivity|]. cbn [hasvec] in *. rewrite vecs_app, Hv, Hv4. reflexivity.
             ++ congruence.
             ++ split; [|discriminate]. exists PErr. split; [eapply xp_seq_bad2; eauto|]. left. auto.
          -- split; [|intros ->; destruct r4; congruence]. exists PErr. split; [eapply xp_seq_bad2; eauto|]. right. split; [reflexivity|].
             destruct Hr4 as [->|Hr4]; [injection E2 as <-; auto|]. destruct r4; try discriminate. injection E2 as <-. right.
             cbn [hasvec] in *. rewrite vecs_app, Hr4. apply orb_true_r.
        * exfalso. exact (star_no_fail _ _ _ E3).
        * injection E2 as <-. split; [|discriminate]. exists PErr. split; [apply xp_seq_bad; auto|]. left. auto.
      + assert (Hx : r2 = PErr \/ hasvec r2 = true).
        { destruct Hr as [->|Hv]; [left; congruence|]. destruct r3 as [c3 k3 l3| |]; try discriminate.
          destruct (run n4 tail_e k3) as [[c4 k4 l4| |]|] eqn:E4; try discriminate; injection E2 as <-.
          - right. cbn [hasvec] in *. rewrite vecs_app, Hv. reflexivity.
          - exfalso. exact (nofail_run _ tail_e _ eq_refl E4).
          - auto. }
        split; [|destruct Hx as [->|Hx]; [discriminate|intros ->; discriminate]].
        exists PErr. split; [apply xp_seq_bad; auto|]. right. auto.
    - assert (Hx : r2 = PErr \/ hasvec r2 = true).
      { destruct Hr as [->|Hv]; [left; congruence|]. destruct r3 as [c3 k3 l3| |]; try discriminate.
        destruct (run n4 tail_e k3) as [[c4 k4 l4| |]|] eqn:E4; try discriminate; injection E2 as <-.
        - right. cbn [hasvec] in *. rewrite vecs_app, Hv. reflexivity.
        - exfalso. exact (nofail_run _ tail_e _ eq_refl E4).
        - auto. }
      split; [|destruct Hx as [->|Hx]; [discriminate|intros ->; discriminate]].
      exists PErr. split; [|right; auto]. eapply xp_seq_bad2; [exact Px| |auto].
      apply xp_seq_bad; [|auto]. apply xp_cut_fail. apply xp_lit_fail. reflexivity. }
  destruct A as [(x & Px & Ag) Nf].
  assert (Hr : r = r1) by (destruct r2; injection E as <-; [injection H as <-|congruence|injection H as <-]; reflexivity).
  subst r1. assert (Xb : xparses (tk "[") s (POk (lit "[") k [])) by (apply xp_lit; exact Es).
  destruct Ag as [[-> Hv]|[-> Hr2]].
  - destruct r2 as [c2 k2 l2| |]; [|congruence|].
    + injection E as <-. eexists. split; [apply xp_alt1; [eapply xp_seq; [exact Xb|eapply xp_seq; [exact Xt|exact Px]]|discriminate]|].
      left. split; [reflexivity|]. cbn [hasvec] in *. rewrite !vecs_app, Vt, Hv. reflexivity.
    + injection E as <-. exists PErr. split; [apply xp_alt1; [|discriminate]|left; auto].
      eapply xp_seq_bad2; [exact Xb| |auto]. eapply xp_seq_bad2; [exact Xt|exact Px|auto].
  - exists PErr. split; [apply xp_alt1; [|discriminate]|].
    + eapply xp_seq_bad2; [exact Xb| |auto]. eapply xp_seq_bad2; [exact Xt|exact Px|auto].
    + right. split; [reflexivity|]. destruct Hr2 as [->|Hv]; [injection E as <-; auto|]. destruct r2; try discriminate.
      injection E as <-. right. cbn [hasvec] in *. rewrite !vecs_app, Hv, orb_true_r. reflexivity.
Qed.
End Agree.

Lemma agrees_word (w : text) e s r : no_words s -> In w x3d_words -> agrees e s r -> agrees (Alt (Lit w) e) s r.
Proof.
  intros W Hw (x & Px & A). exists x. split; [|exact A]. apply xp_alt2; [|exact Px].
  apply xp_lit_fail. apply no_word_head; auto.
Qed.
Theorem body_agrees n e s r : run n e s = Some r -> body e = true -> no_words s -> agrees e s r.
Proof.
  revert e s r. induction n as [|n IH]; intros e s r H B W; [discriminate|].
  destruct e as [x|neg rs|a b|a b|a|a|a|m|]; cbn [run] in H.
  - apply (agrees_lex _ _ 1); [reflexivity|exact H].
  - apply (agrees_lex _ _ 1); [reflexivity|exact H].
  - cbn [body] in B. apply andb_true_iff in B as [B Bb]. apply andb_true_iff in B as [Bn Ba].
    destruct (run n a s) as [r1|] eqn:E; [|discriminate].
    destruct (IH _ _ _ E Ba W) as (x1 & Px & Ag).
    assert (Hlex : lexE a = true -> hasvec r1 = false) by (intros L; eapply lex_novec; eauto).
    destruct Ag as [[-> Hv]|[-> Hr]].
    + destruct r1 as [c1 k1 l1| |].
      * assert (W' : no_words k1) by (apply xparses_prefix in Px; rewrite Px in W; apply no_words_app in W; exact W).
        destruct (run n b k1) as [r2|] eqn:E2; [|discriminate].
        destruct (IH _ _ _ E2 Bb W') as (x2 & Px2 & Ag2).
        destruct Ag2 as [[-> Hv2]|[-> Hr2]].
        -- destruct r2 as [c2 k2 l2| |]; injection H as <-.
           ++ exists (POk (c1 ++ c2) k2 (l1 ++ l2)). split; [eapply xp_seq; eauto|]. left. split; [reflexivity|].
              cbn [hasvec] in *. rewrite vecs_app, Hv, Hv2. reflexivity.
           ++ exists PFail. split; [eapply xp_seq_bad2; eauto|]. left. auto.
           ++ exists PErr. split; [eapply xp_seq_bad2; eauto|]. left. auto.
        -- exists PErr. split; [eapply xp_seq_bad2; eauto|]. right. split; [reflexivity|].
           destruct Hr2 as [->|Hr2]; [injection H as <-; auto|]. destruct r2 as [c2 k2 l2| |]; try discriminate.
           injection H as <-. right. cbn [hasvec] in *. rewrite vecs_app, Hr2. apply orb_true_r.
      * injection H as <-. exists PFail. split; [apply xp_seq_bad; auto|]. left. auto.
      * injection H as <-. exists PErr. split; [apply xp_seq_bad; auto|]. left. auto.
    + exists PErr. split; [apply xp_seq_bad; auto|]. right. split; [reflexivity|].
      destruct Hr as [->|Hv]; [injection H as <-; auto|]. destruct r1 as [c1 k1 l1| |]; try discriminate.
      apply orb_true_iff in Bn as [L|N].
      * rewrite (Hlex L) in Hv. discriminate.
      * destruct (run n b k1) as [[c2 k2 l2| |]|] eqn:E2; try discriminate; injection H as <-.
        -- right. cbn [hasvec] in *. rewrite vecs_app, Hv. reflexivity.
        -- exfalso. exact (nofail_run _ _ _ N E2).
        -- auto.
  - cbn [body] in B. apply andb_true_iff in B as [Ba Bb].
    destruct (run n a s) as [r1|] eqn:E; [|discriminate].
    destruct (IH _ _ _ E Ba W) as (x1 & Px & Ag). destruct Ag as [[-> Hv]|[-> Hr]].
    + destruct r1 as [c1 k1 l1| |].
      * injection H as <-. exists (POk c1 k1 l1). split; [apply xp_alt1; [exact Px|discriminate]|]. left. auto.
      * destruct (IH _ _ _ H Bb W) as (x2 & Px2 & Ag2). exists x2. split; [apply xp_alt2; auto|exact Ag2].
      * injection H as <-. exists PErr. split; [apply xp_alt1; [exact Px|discriminate]|]. left. auto.
    + exists PErr. split; [apply xp_alt1; [exact Px|discriminate]|]. right. split; [reflexivity|].
      destruct Hr as [->|Hv]; [injection H as <-; auto|]. destruct r1 as [c1 k1 l1| |]; try discriminate.
      injection H as <-. auto.
  - cbn [body] in B.
    destruct (run n a s) as [r1|] eqn:E; [|discriminate].
    destruct (IH _ _ _ E B W) as (x1 & Px & Ag). destruct Ag as [[-> Hv]|[-> Hr]].
    + destruct r1 as [c1 k1 l1| |].
      * assert (W' : no_words k1) by (apply xparses_prefix in Px; rewrite Px in W; apply no_words_app in W; exact W).
        destruct (run n (Star a) k1) as [r2|] eqn:E2; [|discriminate].
        destruct (IH _ _ _ E2 B W') as (x2 & Px2 & Ag2). destruct Ag2 as [[-> Hv2]|[-> Hr2]].
        -- destruct r2 as [c2 k2 l2| |]; injection H as <-.
           ++ exists (POk (c1 ++ c2) k2 (l1 ++ l2)). split; [eapply xp_starS; eauto|]. left. split; [reflexivity|].
              cbn [hasvec] in *. rewrite vecs_app, Hv, Hv2. reflexivity.
           ++ exfalso. exact (star_no_fail _ _ _ E2).
           ++ exists PErr. split; [eapply xp_star_err2; eauto|]. left. auto.
        -- exists PErr. split; [eapply xp_star_err2; eauto|]. right. split; [reflexivity|].
           destruct Hr2 as [->|Hr2]; [injection H as <-; auto|]. destruct r2 as [c2 k2 l2| |]; try discriminate.
           injection H as <-. right. cbn [hasvec] in *. rewrite vecs_app, Hr2. apply orb_true_r.
      * injection H as <-. exists (POk [] s []). split; [apply xp_star0; exact Px|]. left. auto.
      * injection H as <-. exists PErr. split; [apply xp_star_err; exact Px|]. left. auto.
    + exists PErr. split; [apply xp_star_err; exact Px|]. right. split; [reflexivity|].
      destruct Hr as [->|Hv]; [injection H as <-; auto|]. destruct r1 as [c1 k1 l1| |]; try discriminate.
      destruct (run n (Star a) k1) as [[c2 k2 l2| |]|] eqn:E2; try discriminate; injection H as <-.
      * right. cbn [hasvec] in *. rewrite vecs_app, Hv. reflexivity.
      * exfalso. exact (star_no_fail _ _ _ E2).
      * auto.
  - cbn [body] in B. destruct (run n a s) as [r1|] eqn:E; [|discriminate].
    destruct (IH _ _ _ E B W) as (x1 & Px & Ag). destruct Ag as [[-> Hv]|[-> Hr]].
    + destruct r1 as [c1 k1 l1| |]; injection H as <-.
      * eexists. split; [apply xp_opt1; [exact Px|discriminate]|]. left. auto.
      * eexists. split; [apply xp_opt0; exact Px|]. left. auto.
      * eexists. split; [apply xp_opt1; [exact Px|discriminate]|]. left. auto.
    + exists PErr. split; [apply xp_opt1; [exact Px|discriminate]|]. right. split; [reflexivity|].
      destruct Hr as [->|Hv]; [injection H as <-; auto|]. destruct r1; try discriminate. injection H as <-. auto.
  - cbn [body] in B. destruct (run n a s) as [r1|] eqn:E; [|discriminate].
    destruct (IH _ _ _ E B W) as (x1 & Px & Ag). destruct Ag as [[-> Hv]|[-> Hr]].
    + destruct r1 as [c1 k1 l1| |]; injection H as <-.
      * eexists. split; [apply xp_cut; [exact Px|discriminate]|]. left. auto.
      * eexists. split; [apply xp_cut_fail; exact Px|]. left. auto.
      * eexists. split; [apply xp_cut; [exact Px|discriminate]|]. left. auto.
    + exists PErr. split; [apply xp_cut; [exact Px|discriminate]|]. right. split; [reflexivity|].
      destruct Hr as [->|Hv]; [injection H as <-; auto|]. destruct r1; try discriminate. injection H as <-. auto.
  - cbn [body] in B. destruct (run n (rule m) s) as [r1|] eqn:E; [|discriminate].
    assert (A : agrees (xrule m) s r1).
    { destruct (match m with G_Field | G_fieldExposure | G_eventDirection => true | _ => false end) eqn:Em.
      - destruct m; try discriminate.
        + cbn [xrule al]. apply agrees_word; [exact W|cbn; auto|]. apply agrees_word; [exact W|cbn; auto|].
          apply (agrees_lex _ _ n); [reflexivity|exact E].
        + cbn [xrule al]. apply agrees_word; [exact W|cbn; auto|]. apply agrees_word; [exact W|cbn; auto 6|].
          apply (agrees_lex _ _ n); [reflexivity|exact E].
        + exact (agree_field n IH n s r1 (le_n _) E W).
      - destruct (body_rule m B) as [-> B']; try (intros ->; discriminate). apply (IH _ _ _ E B' W). }
    destruct A as (x1 & Px & Ag). assert (Hm : m <> G_vector) by (intros ->; discriminate).
    destruct Ag as [[-> Hv]|[-> Hr]].
    + destruct r1 as [c1 k1 l1| |]; injection H as <-.
      * eexists. split; [apply xp_nt; exact Px|]. left. split; [reflexivity|]. cbn [hasvec] in *. rewrite vecs_node; auto.
      * exists PFail. split; [apply xp_nt_bad; auto|]. left. auto.
      * exists PErr. split; [apply xp_nt_bad; auto|]. left. auto.
    + exists PErr. split; [apply xp_nt_bad; auto|]. right. split; [reflexivity|].
      destruct Hr as [->|Hv]; [injection H as <-; auto|]. destruct r1; try discriminate. injection H as <-. right.
      cbn [hasvec] in *. rewrite vecs_node; auto.
  - apply (agrees_lex _ _ 1); [reflexivity|exact H].
Qed.
