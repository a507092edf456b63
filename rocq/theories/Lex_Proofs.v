(** The token productions read exactly the tokens. *)
From Verif Require Import Base Text Grammar_Model Grammar_Proofs Lex_Spec.
Local Open Scope nat_scope.
Local Open Scope list_scope.

(** *** inversion *)
Lemma parses_star_ind a (P : text -> list tree -> Prop) :
  P [] [] ->
  (forall s c1 r1 l1 c2 l2, parses a s (POk c1 r1 l1) -> P c2 l2 -> P (c1 ++ c2) (l1 ++ l2)) ->
  forall s c r l, parses (Star a) s (POk c r l) -> P c l /\ parses a r PFail.
Proof.
  intros H0 HS s c r l [n H]. revert s c r l H.
  induction n as [|n IH]; intros s c r l H; [discriminate|]. cbn [run] in H.
  destruct (run n a s) as [[c1 r1 l1| |]|] eqn:E; try discriminate.
  - destruct (run n (Star a) r1) as [[c2 r2 l2| |]|] eqn:E2; try discriminate.
    injection H as <- <- <-. apply IH in E2 as [Hp Hf]. split; [|exact Hf].
    eapply HS; [exists n; exact E|exact Hp].
  - injection H as <- <- <-. split; [exact H0|]. exists n. exact E.
Qed.
Lemma parses_seq_inv a b s c r l : parses (Seq a b) s (POk c r l) ->
  exists c1 r1 l1 c2 l2, parses a s (POk c1 r1 l1) /\ parses b r1 (POk c2 r l2) /\
    c = c1 ++ c2 /\ l = l1 ++ l2.
Proof.
  intros [n H]. destruct n; [discriminate|]. cbn [run] in H.
  destruct (run n a s) as [[c1 r1 l1| |]|] eqn:E; try discriminate.
  destruct (run n b r1) as [[c2 r2 l2| |]|] eqn:E2; try discriminate.
  injection H as <- <- <-. repeat eexists; eauto.
Qed.
Lemma parses_alt_inv a b s r : parses (Alt a b) s r ->
  (parses a s r /\ r <> PFail) \/ (parses a s PFail /\ parses b s r).
Proof.
  intros [n H]. destruct n; [discriminate|]. cbn [run] in H.
  destruct (run n a s) as [[c1 r1 l1| |]|] eqn:E; try discriminate.
  - injection H as <-. left. split; [exists n; exact E|discriminate].
  - right. split; exists n; assumption.
  - injection H as <-. left. split; [exists n; exact E|discriminate].
Qed.
Lemma parses_cls_inv neg rs s c r l : parses (Cls neg rs) s (POk c r l) ->
  exists x, s = x :: r /\ c = [x] /\ l = [] /\ xorb neg (inr x rs) = true.
Proof.
  intros [n H]. destruct n; [discriminate|]. cbn [run] in H. destruct s as [|x s]; [discriminate|].
  destruct (xorb neg (inr x rs)) eqn:E; [|discriminate]. injection H as <- <- <-. eauto.
Qed.
Lemma parses_lit_inv x s c r l : parses (Lit x) s (POk c r l) -> c = x /\ l = [] /\ s = x ++ r.
Proof.
  intros [n H]. destruct n; [discriminate|]. cbn [run] in H. destruct (strip x s) eqn:E; [|discriminate].
  injection H as <- <- <-. auto using strip_app.
Qed.
Fixpoint no_cut (e : expr) : bool :=
  match e with
  | Lit _ | Cls _ _ | Eof => true
  | Seq a b | Alt a b => no_cut a && no_cut b
  | Star a | Opt a => no_cut a
  | Cut _ | NT _ => false
  end.
Lemma no_err n e s : no_cut e = true -> run n e s <> Some PErr.
Proof.
  revert e s. induction n as [|n IH]; intros e s He; [discriminate|].
  destruct e as [x|neg rs|a b|a b|a|a|a|m|]; cbn [run no_cut] in *; try discriminate.
  - destruct (strip x s); discriminate.
  - destruct s as [|y s]; [discriminate|]. destruct (xorb neg (inr y rs)); discriminate.
  - apply andb_true_iff in He as [Ha Hb].
    destruct (run n a s) as [[c1 r1 l1| |]|] eqn:E; try discriminate; [|exfalso; exact (IH _ _ Ha E)].
    destruct (run n b r1) as [[c2 r2 l2| |]|] eqn:E2; try discriminate. exfalso; exact (IH _ _ Hb E2).
  - apply andb_true_iff in He as [Ha Hb].
    destruct (run n a s) as [[c1 r1 l1| |]|] eqn:E; try discriminate; auto. exfalso; exact (IH _ _ Ha E).
  - destruct (run n a s) as [[c1 r1 l1| |]|] eqn:E; try discriminate; [|exfalso; exact (IH _ _ He E)].
    destruct (run n (Star a) r1) as [[c2 r2 l2| |]|] eqn:E2; try discriminate.
    exfalso. exact (IH (Star a) _ He E2).
  - destruct (run n a s) as [[c1 r1 l1| |]|] eqn:E; try discriminate. exfalso; exact (IH _ _ He E).
  - destruct s; discriminate.
Qed.

(** *** repeated character classes *)
Definition heads (f : N -> bool) (k : text) : bool := match k with [] => false | c :: _ => f c end.
Lemma p_star_cls neg rs xs k : forallb (fun c => xorb neg (inr c rs)) xs = true ->
  heads (fun c => xorb neg (inr c rs)) k = false ->
  parses (Star (Cls neg rs)) (xs ++ k) (POk xs k []).
Proof.
  intros Hx Hk. induction xs as [|c xs IH]; cbn [forallb app] in *.
  - apply p_star0. destruct k as [|c k]; [apply p_cls_nil|apply p_cls_fail; exact Hk].
  - apply andb_true_iff in Hx as [Hc Hx].
    change (c :: xs) with ([c] ++ xs). change (@nil tree) with (@nil tree ++ []).
    eapply p_starS; [apply p_cls; exact Hc|auto].
Qed.
Lemma p_plus_cls neg rs xs k : forallb (fun c => xorb neg (inr c rs)) xs = true -> nonempty xs = true ->
  heads (fun c => xorb neg (inr c rs)) k = false ->
  parses (Plus (Cls neg rs)) (xs ++ k) (POk xs k []).
Proof.
  intros Hx Hn Hk. destruct xs as [|c xs]; [discriminate|]. cbn [forallb app] in *.
  apply andb_true_iff in Hx as [Hc Hx].
  change (c :: xs) with ([c] ++ xs). change (@nil tree) with (@nil tree ++ []).
  eapply p_seq; [apply p_cls; exact Hc|apply p_star_cls; auto].
Qed.
Lemma p_plus_cls_fail neg rs k : heads (fun c => xorb neg (inr c rs)) k = false ->
  parses (Plus (Cls neg rs)) k PFail.
Proof.
  intros Hk. apply p_seq_bad; auto. destruct k; [apply p_cls_nil|apply p_cls_fail; exact Hk].
Qed.
Lemma forallb_ext {A} (f g : A -> bool) l : (forall x, f x = g x) -> forallb f l = forallb g l.
Proof. intros H. induction l; cbn; congruence. Qed.

(** the classes of the grammar are those of the specification *)
Lemma inr_one c a : inr c [(a, a)] = (c =? a)%N.
Proof.
  cbn. rewrite orb_false_r. destruct (N.eqb_spec c a) as [->|H].
  - rewrite N.leb_refl. reflexivity.
  - destruct (N.leb_spec a c), (N.leb_spec c a); cbn; auto. lia.
Qed.
Lemma inr_cons c a b rs : inr c ((a, b) :: rs) = ((N.leb a c && N.leb c b) || inr c rs)%bool.
Proof. reflexivity. Qed.
Lemma one c a : (N.leb a c && N.leb c a)%bool = (c =? a)%N.
Proof.
  destruct (N.eqb_spec c a) as [->|H]; [rewrite N.leb_refl; reflexivity|].
  destruct (N.leb_spec a c), (N.leb_spec c a); cbn; auto. lia.
Qed.
Ltac btauto' := repeat match goal with |- context[?x] =>
  match type of x with bool => match x with true => fail 1 | false => fail 1 | negb _ => fail 1
    | orb _ _ => fail 1 | andb _ _ => fail 1 | xorb _ _ => fail 1 | _ => destruct x end end end; reflexivity.
Lemma notname_spec c : xorb true (inr c notname) = name_char c.
Proof.
  unfold notname, name_char. rewrite !inr_cons, !one. change (inr c []) with false.
  assert (N.leb 0 c = true) as -> by (apply N.leb_le; lia). cbn [andb]. btauto'.
Qed.
Lemma notname1_spec c : xorb true (inr c notname1) = (negb (digit c) && name_char c)%bool.
Proof. unfold notname1. rewrite inr_cons, <- notname_spec. unfold digit. btauto'. Qed.

(** *** names *)
Lemma p_name n k : is_name n = true -> ends_name k = true ->
  parses (NT G_name) (n ++ k) (POk n k [T G_name n []]).
Proof.
  intros Hn Hk. apply (p_nt G_name). cbn [rule]. destruct n as [|c n]; [discriminate|]. cbn [is_name] in Hn.
  apply andb_true_iff in Hn as [Hc Hn].
  change (POk (c :: n) k []) with (POk ([c] ++ n) k ([] ++ [])). cbn [app].
  eapply (p_seq _ _ _ [c] (n ++ k) [] n k []); [apply p_cls; rewrite notname1_spec; exact Hc|]. apply p_star_cls.
  - rewrite (forallb_ext _ _ _ notname_spec). exact Hn.
  - destruct k as [|x k]; cbn [heads ends_name] in *; [reflexivity|]. rewrite notname_spec.
    apply negb_true_iff. exact Hk.
Qed.
Lemma p_name_fail k : heads (fun c => negb (digit c) && name_char c)%bool k = false ->
  parses (NT G_name) k PFail.
Proof.
  intros Hk. apply p_nt_bad; auto. cbn [rule]. apply p_seq_bad; auto.
  destruct k as [|c k]; [apply p_cls_nil|]. apply p_cls_fail. rewrite notname1_spec. exact Hk.
Qed.

(** *** separators *)
Lemma blank_spec c : xorb false (inr c [(32,32); (9,13); (44,44)]%N) = blank c.
Proof. rewrite !inr_cons, !one. change (inr c []) with false. unfold blank. btauto'. Qed.
Lemma notnl_spec c : xorb true (inr c [(10,10)]%N) = negb (c =? 10)%N.
Proof. rewrite inr_one. reflexivity. Qed.
Lemma sep_app a b : sep_text a -> sep_text b -> sep_text (a ++ b).
Proof.
  induction 1 as [|c w Hc Hw IH|body w Hb Hw IH]; intros Hbt; cbn [app]; auto.
  - constructor; auto.
  - rewrite <- app_assoc. cbn [app]. apply sep_comment; auto.
Qed.
Lemma blanks_sep w : forallb blank w = true -> sep_text w.
Proof.
  induction w as [|c w IH]; intros H; [constructor|]. cbn in H. apply andb_true_iff in H as [Hc H].
  constructor; auto.
Qed.
Lemma star_cls_inv neg rs s c r l : parses (Star (Cls neg rs)) s (POk c r l) ->
  forallb (fun c => xorb neg (inr c rs)) c = true /\ l = [] /\ heads (fun c => xorb neg (inr c rs)) r = false.
Proof.
  intros H.
  apply (parses_star_ind _ (fun c l => forallb (fun c => xorb neg (inr c rs)) c = true /\ l = [])) in H.
  - destruct H as [[H1 H2] H3]. repeat split; auto. destruct r as [|x r]; [reflexivity|]. cbn [heads].
    destruct (xorb neg (inr x rs)) eqn:E; [|reflexivity]. exfalso.
    pose proof (parses_det _ _ _ _ H3 (p_cls neg rs x r E)) as D. discriminate.
  - split; reflexivity.
  - intros s' c1 r1 l1 c2 l2 H1 [H2 ->]. apply parses_cls_inv in H1 as (x & -> & -> & -> & E).
    cbn [app forallb]. rewrite E, H2. split; reflexivity.
Qed.
Definition comment_e := sq (tk "#") [Star (Cls true [(10,10)]%N); chr 10%N].
Definition blanks_e := Plus (Cls false [(32,32); (9,13); (44,44)]%N).
Lemma not_nl body : forallb (fun c => xorb true (inr c [(10,10)]%N)) body = true <-> ~ In 10%N body.
Proof.
  rewrite (forallb_ext _ _ _ notnl_spec). rewrite forallb_forall. split.
  - intros H Hin. apply H in Hin. discriminate.
  - intros H x Hx. destruct (N.eqb_spec x 10); [subst; contradiction|reflexivity].
Qed.
Lemma p_comment body k : ~ In 10%N body ->
  parses comment_e (35%N :: body ++ 10%N :: k) (POk (35%N :: body ++ [10%N]) k []).
Proof.
  intros Hb. unfold comment_e. cbn [sq].
  change (POk (35%N :: body ++ [10%N]) k []) with (POk ([35%N] ++ (body ++ [10%N])) k ([] ++ ([] ++ []))).
  eapply p_seq; [apply p_lit; reflexivity|]. eapply p_seq.
  - apply p_star_cls; [apply not_nl; exact Hb|reflexivity].
  - apply p_lit. reflexivity.
Qed.
Lemma comment_inv s c r l : parses comment_e s (POk c r l) ->
  l = [] /\ exists body, ~ In 10%N body /\ c = 35%N :: body ++ [10%N].
Proof.
  intros H. unfold comment_e in H. cbn [sq] in H.
  apply parses_seq_inv in H as (c1 & r1 & l1 & c2 & l2 & H1 & H2 & -> & ->).
  apply parses_lit_inv in H1 as (-> & -> & ->).
  apply parses_seq_inv in H2 as (c3 & r3 & l3 & c4 & l4 & H3 & H4 & -> & ->).
  apply parses_lit_inv in H4 as (-> & -> & ->).
  apply star_cls_inv in H3 as (H3 & -> & _). apply not_nl in H3.
  split; [reflexivity|]. exists c3. auto.
Qed.
Lemma plus_ind a (P : text -> list tree -> Prop) : P [] [] ->
  (forall s c1 r1 l1 c2 l2, parses a s (POk c1 r1 l1) -> P c2 l2 -> P (c1 ++ c2) (l1 ++ l2)) ->
  forall s c r l, parses (Plus a) s (POk c r l) -> P c l.
Proof.
  intros H0 HS s c r l H. apply parses_seq_inv in H as (c1 & r1 & l1 & c2 & l2 & H1 & H2 & -> & ->).
  apply (parses_star_ind a P H0 HS) in H2 as [H2 _]. eapply HS; eauto.
Qed.
(** the separator production: whatever it is given, it matches a separator
    text and stops where no more separator follows *)
Lemma ts_any s : exists w k, s = w ++ k /\ sep_text w /\ no_sep k /\ parses TS s (POk w k []).
Proof.
  destruct (terminates G_ts s) as [r Hr].
  assert (Hst : exists r', parses (rule G_ts) s r' /\
     r = match r' with POk c r l => POk c r l | o => o end).
  { destruct Hr as [[|n] Hr]; [discriminate|]. cbn [run] in Hr.
    destruct (run n (rule G_ts) s) as [[c1 r1 l1| |]|] eqn:E; try discriminate; injection Hr as <-;
      eexists; (split; [exists n; exact E|reflexivity]). }
  destruct Hst as (r' & Hr' & ->). destruct r' as [w k l| |].
  2:{ exfalso. destruct Hr' as [n Hr']. exact (star_no_fail _ _ _ Hr'). }
  2:{ exfalso. destruct Hr' as [n Hr']. revert Hr'. apply no_err. reflexivity. }
  exists w, k. pose proof (parses_prefix _ _ _ _ _ Hr') as Hs.
  cbn [rule] in Hr'. change (Star _) with (Star (Alt blanks_e (Plus comment_e))) in Hr'.
  apply (parses_star_ind _ (fun c l => sep_text c /\ l = [])) in Hr'.
  - destruct Hr' as [[Hw ->] Hk]. repeat split; auto.
    intros w' r' -> Hw'. inversion Hw' as [|c v Hc Hv|body v Hb Hv]; auto; subst; exfalso.
    + assert (P : parses (Alt blanks_e (Plus comment_e)) ((c :: v) ++ r')
        (POk (c :: fst (let fix sp (x:text) := match x with [] => ([],[]) | y :: z => if blank y then let '(p,q) := sp z in (y::p,q) else ([],x) end in sp (v ++ r')))
             (snd (let fix sp (x:text) := match x with [] => ([],[]) | y :: z => if blank y then let '(p,q) := sp z in (y::p,q) else ([],x) end in sp (v ++ r'))) [])).
      { apply p_alt1; [|discriminate]. cbn [app].
        set (sp := fix sp (x:text) : text * text := match x with [] => ([],[]) | y :: z => if blank y then let '(p,q) := sp z in (y::p,q) else ([],x) end).
        assert (Hsp : forall x, x = fst (sp x) ++ snd (sp x) /\ forallb blank (fst (sp x)) = true /\
                       heads blank (snd (sp x)) = false).
        { induction x as [|y x IH]; cbn; [auto|]. destruct (blank y) eqn:Ey.
          - destruct (sp x) as [p q]; cbn in *. destruct IH as (-> & A & B). rewrite Ey. auto.
          - cbn. rewrite Ey. auto. }
        destruct (Hsp (v ++ r')) as (E & A & B). rewrite E at 1.
        apply (p_plus_cls false _ (c :: fst (sp (v ++ r'))) (snd (sp (v ++ r')))).
        - rewrite (forallb_ext _ _ _ blank_spec). cbn. rewrite Hc, A. reflexivity.
        - reflexivity.
        - destruct (snd (sp (v ++ r'))); cbn [heads] in *; [reflexivity|]. rewrite blank_spec. exact B. }
      pose proof (parses_det _ _ _ _ Hk P) as D. discriminate.
    + assert (P : exists c r l, parses (Plus comment_e) ((35%N :: body ++ 10%N :: v) ++ r') (POk c r l)).
      { cbn [app]. rewrite <- app_assoc. cbn [app].
        destruct (terminates_gen _ _ (le_n _) 6 (Star comment_e) eq_refl (left_top _) : exists r, parses (Star comment_e) (v ++ r') r) as [[c2 r2 l2| |] Hs].
        - do 3 eexists. eapply p_seq; [apply p_comment; exact Hb|exact Hs].
        - exfalso. destruct Hs as [n Hs]. exact (star_no_fail _ _ _ Hs).
        - exfalso. destruct Hs as [n Hs]. revert Hs. apply no_err. reflexivity. }
      destruct P as (c & r0 & l0 & P).
      destruct (parses_alt_inv _ _ _ _ Hk) as [[_ Q]|[_ Q]]; [congruence|].
      pose proof (parses_det _ _ _ _ Q P) as D. discriminate.
  - split; [constructor|reflexivity].
  - intros s' c1 r1 l1 c2 l2 H1 [H2 ->].
    enough (sep_text c1 /\ l1 = []) as [A ->] by (split; [apply sep_app; auto|reflexivity]).
    apply parses_alt_inv in H1 as [[H1 _]|[_ H1]].
    + apply (plus_ind _ (fun c l => sep_text c /\ l = [])) in H1; auto; [split; [constructor|reflexivity]|].
      intros s2 c3 r3 l3 c4 l4 H3 [H4 ->]. apply parses_cls_inv in H3 as (x & -> & -> & -> & E).
      rewrite blank_spec in E. split; [constructor; auto|reflexivity].
    + apply (plus_ind _ (fun c l => sep_text c /\ l = [])) in H1; auto; [split; [constructor|reflexivity]|].
      intros s2 c3 r3 l3 c4 l4 H3 [H4 ->]. apply comment_inv in H3 as (-> & body & Hb & ->).
      split; [|reflexivity]. cbn [app]. rewrite <- app_assoc. cbn [app]. apply sep_comment; auto.
Qed.
Lemma nl_split (b1 b2 r1 r2 : text) : ~ In 10%N b1 -> ~ In 10%N b2 ->
  b1 ++ 10%N :: r1 = b2 ++ 10%N :: r2 -> b1 = b2 /\ r1 = r2.
Proof.
  revert b2. induction b1 as [|x b1 IH]; intros [|y b2] H1 H2 E; cbn in *.
  - injection E as ->. auto.
  - injection E as <- _. exfalso. apply H2. auto.
  - injection E as -> _. exfalso. apply H1. auto.
  - injection E as -> E. apply IH in E as [-> ->]; auto.
Qed.
Lemma sep_unique w k w' k' : sep_text w -> sep_text w' -> no_sep k -> no_sep k' ->
  w ++ k = w' ++ k' -> w = w' /\ k = k'.
Proof.
  intros Hw. revert w'. induction Hw as [|c w Hc Hw IH|body w Hb Hw IH]; intros w' Hw' Hk Hk' E.
  - cbn in E. subst k. rewrite (Hk w' k' eq_refl Hw'). auto.
  - destruct Hw' as [|c' v Hc' Hv|body v Hb Hv]; cbn in E.
    + exfalso. symmetry in E. assert ([c] = []) by (apply (Hk' [c] (w ++ k)); [exact E|repeat constructor; auto]).
      discriminate.
    + injection E as -> E. apply IH in E as [-> ->]; auto.
    + injection E as -> _. discriminate.
  - destruct Hw' as [|c' v Hc' Hv|body' v Hb' Hv]; cbn in E.
    + exfalso. symmetry in E.
      assert (35%N :: body ++ 10%N :: w = []) by (eapply (Hk' _ k); [cbn; exact E|apply sep_comment; auto]).
      discriminate.
    + injection E as <- _. discriminate.
    + injection E as E. rewrite <- !app_assoc in E. cbn [app] in E.
      apply nl_split in E as [-> E]; auto. apply IH in E as [-> ->]; auto.
Qed.
Lemma p_ts w k : sep_text w -> no_sep k -> parses TS (w ++ k) (POk w k []).
Proof.
  intros Hw Hk. destruct (ts_any (w ++ k)) as (w' & k' & E & Hw' & Hk' & P).
  destruct (sep_unique w k w' k') as [-> ->]; auto.
Qed.
Definition starts_sep (k : text) : bool := heads (fun c => blank c || (c =? 35)%N)%bool k.
Lemma no_sep_head k : starts_sep k = false -> no_sep k.
Proof.
  intros H w r -> Hw. destruct Hw; auto; cbn in H.
  - rewrite H0 in H. discriminate.
  - discriminate.
Qed.
Lemma p_ts_nil k : no_sep k -> parses TS k (POk [] k []).
Proof. apply (p_ts [] k). constructor. Qed.

(** *** numbers *)
Lemma sign_spec c : xorb false (inr c [(45,45); (43,43)]%N) = sign c.
Proof. rewrite !inr_cons, !one. change (inr c []) with false. unfold sign. btauto'. Qed.
Lemma hex_spec c : xorb false (inr c [(48,57); (65,70); (97,102)]%N) = hexdigit c.
Proof. rewrite !inr_cons. change (inr c []) with false. unfold hexdigit, digit. btauto'. Qed.
Lemma dod_spec c : xorb false (inr c [(48,57); (46,46)]%N) = digit_or_dot c.
Proof. rewrite !inr_cons, !one. change (inr c []) with false. unfold digit_or_dot, digit. btauto'. Qed.
Lemma expo_spec c : xorb false (inr c [(45,45); (43,43); (48,57); (46,46)]%N) = (sign c || digit_or_dot c)%bool.
Proof. rewrite !inr_cons, !one. change (inr c []) with false. unfold sign, digit_or_dot, digit. btauto'. Qed.
Lemma xX_spec c : xorb false (inr c [(120,120); (88,88)]%N) = ((c =? 120) || (c =? 88))%N.
Proof. rewrite !inr_cons, !one. change (inr c []) with false. btauto'. Qed.
Lemma eE_spec c : xorb false (inr c [(101,101); (69,69)]%N) = ((c =? 101) || (c =? 69))%N.
Proof. rewrite !inr_cons, !one. change (inr c []) with false. btauto'. Qed.

Lemma heads_ext f g k : (forall c, f c = g c) -> heads f k = heads g k.
Proof. intros H. destruct k; cbn; auto. Qed.
(** characters that continue a number are name characters or the full stop *)
Lemma stop_not f k : stop k = true -> (forall c, f c = true -> name_char c = true \/ c = 46%N) ->
  heads f k = false.
Proof.
  intros Hs Hf. destruct k as [|c k]; cbn in *; [reflexivity|]. destruct (f c) eqn:E; [|reflexivity].
  apply andb_true_iff in Hs as [H1 H2]. apply negb_true_iff in H1, H2. apply Hf in E as [E|E].
  - congruence.
  - subst. discriminate.
Qed.
Lemma digit_range c : digit c = true -> (48 <= c <= 57)%N.
Proof. unfold digit. rewrite andb_true_iff, !N.leb_le. lia. Qed.
Ltac nch := unfold name_char; apply negb_true_iff;
  repeat (apply orb_false_iff; split); try (apply N.leb_gt; lia); apply N.eqb_neq; lia.
Lemma hex_name c : hexdigit c = true -> name_char c = true \/ c = 46%N.
Proof.
  unfold hexdigit. rewrite !orb_true_iff, !andb_true_iff, !N.leb_le. intros H. left.
  destruct H as [[H|H]|H]; [apply digit_range in H| |]; nch.
Qed.
Lemma dod_name c : digit_or_dot c = true -> name_char c = true \/ c = 46%N.
Proof.
  unfold digit_or_dot. rewrite orb_true_iff, N.eqb_eq. intros [H|H]; [left; apply digit_range in H; nch|auto].
Qed.
Lemma sign_name c : sign c = true -> name_char c = true.
Proof. unfold sign. rewrite orb_true_iff, !N.eqb_eq. intros [->| ->]; reflexivity. Qed.
Lemma expo_name c : (sign c || digit_or_dot c)%bool = true -> name_char c = true \/ c = 46%N.
Proof. rewrite orb_true_iff. intros [H|H]; [left; apply sign_name; exact H|apply dod_name; exact H]. Qed.
Lemma eE_name c : ((c =? 101) || (c =? 69))%N = true -> name_char c = true \/ c = 46%N.
Proof. rewrite orb_true_iff, !N.eqb_eq. intros [->| ->]; left; reflexivity. Qed.

Definition hex_e := sq (tk "0") [Cls false [(120,120); (88,88)]%N; Plus (Cls false [(48,57); (65,70); (97,102)]%N)].
Definition dec_e := Seq (Plus (Cls false [(48,57); (46,46)]%N))
                    (Opt (Seq (Cls false [(101,101); (69,69)]%N)
                              (Plus (Cls false [(45,45); (43,43); (48,57); (46,46)]%N)))).
Lemma SFNumber_rule : rule G_SFNumber = Seq (Star (Cls false [(45,45); (43,43)]%N)) (Alt hex_e dec_e).
Proof. reflexivity. Qed.

Lemma hex_fail k : (forall a b r, k = a :: b :: r -> a = 48%N -> ((b =? 120) || (b =? 88))%N = false) ->
  parses hex_e k PFail.
Proof.
  intros H. unfold hex_e. cbn [sq]. destruct k as [|a k].
  - apply p_seq_bad; auto. apply p_lit_fail. reflexivity.
  - destruct (N.eqb_spec 48 a) as [<-|Ha].
    + eapply p_seq_bad2; [apply p_lit; reflexivity| |auto]. apply p_seq_bad; auto.
      destruct k as [|b k]; [apply p_cls_nil|]. apply p_cls_fail. rewrite xX_spec. eapply H; reflexivity.
    + apply p_seq_bad; auto. apply p_lit_fail. cbn [strip lit]. cbv - [N.eqb].
      destruct (N.eqb_spec 48 a); [contradiction|reflexivity].
Qed.
Lemma p_signs sg k c r : forallb sign sg = true -> k = c :: r -> sign c = false ->
  parses (Star (Cls false [(45,45); (43,43)]%N)) (sg ++ k) (POk sg k []).
Proof.
  intros Hs -> Hc. apply p_star_cls.
  - rewrite (forallb_ext _ _ _ sign_spec). exact Hs.
  - cbn [heads]. rewrite sign_spec. exact Hc.
Qed.
Lemma dod_not_sign c : digit_or_dot c = true -> sign c = false.
Proof.
  unfold digit_or_dot, digit, sign. rewrite orb_true_iff, andb_true_iff, !N.leb_le, N.eqb_eq. intros H.
  apply orb_false_iff. split; apply N.eqb_neq; lia.
Qed.
Lemma p_number n k : is_number n -> stop k = true ->
  parses (NT G_SFNumber) (n ++ k) (POk n k [T G_SFNumber n []]).
Proof.
  intros Hn Hk. apply (p_nt G_SFNumber). rewrite SFNumber_rule.
  destruct Hn as [sg x h Hsg Hx Hh Hne|sg d Hsg Hd Hne|sg d e x Hsg Hd Hne He Hx Hnx].
  - rewrite <- app_assoc. cbn [app]. eapply p_seq' with (l1 := []) (l2 := []).
    + eapply p_signs; [exact Hsg|reflexivity|reflexivity].
    + apply p_alt1; [|discriminate]. unfold hex_e. cbn [sq].
      eapply p_seq' with (l1 := []) (l2 := []); [apply p_lit; reflexivity| |reflexivity|reflexivity].
      eapply p_seq' with (l1 := []) (l2 := []); [| |reflexivity|reflexivity].
      * apply p_cls. rewrite xX_spec. destruct Hx as [->| ->]; reflexivity.
      * apply p_plus_cls; [rewrite (forallb_ext _ _ _ hex_spec); exact Hh|exact Hne|].
        rewrite (heads_ext _ _ _ hex_spec). apply stop_not; [exact Hk|apply hex_name].
    + reflexivity.
    + reflexivity.
  - rewrite <- app_assoc. destruct d as [|c d]; [discriminate|].
    cbn [forallb] in Hd. pose proof Hd as Hd'. apply andb_true_iff in Hd' as [Hc Hd'].
    eapply p_seq' with (l1 := []) (l2 := []).
    + eapply p_signs; [exact Hsg|reflexivity|apply dod_not_sign; exact Hc].
    + apply p_alt2.
      * apply hex_fail. intros a b r E Ea. destruct d as [|c2 d]; cbn [app] in E.
        -- injection E as -> ->. cbn in Hk. apply andb_true_iff in Hk as [Hk _]. apply negb_true_iff in Hk.
           apply orb_false_iff. split; apply N.eqb_neq; intros ->; discriminate.
        -- injection E as -> -> _. cbn in Hd'. apply andb_true_iff in Hd' as [Hb _].
           apply orb_false_iff. split; apply N.eqb_neq; intros ->; discriminate.
      * unfold dec_e. eapply p_seq' with (l1 := []) (l2 := []).
        -- apply p_plus_cls; [rewrite (forallb_ext _ _ _ dod_spec); exact Hd|reflexivity|].
           rewrite (heads_ext _ _ _ dod_spec). apply stop_not; [exact Hk|apply dod_name].
        -- apply p_opt0. apply p_seq_bad; auto.
           pose proof (stop_not (fun c => ((c =? 101) || (c =? 69))%N) k Hk eE_name) as He.
           destruct k as [|y k]; [apply p_cls_nil|]. apply p_cls_fail. rewrite eE_spec. exact He.
        -- symmetry. apply app_nil_r.
        -- reflexivity.
    + reflexivity.
    + reflexivity.
  - rewrite <- !app_assoc. cbn [app].
    destruct d as [|c d]; [discriminate|].
    cbn [forallb] in Hd. pose proof Hd as Hd'. apply andb_true_iff in Hd' as [Hc Hd'].
    eapply p_seq' with (l1 := []) (l2 := []).
    + eapply p_signs; [exact Hsg|reflexivity|apply dod_not_sign; exact Hc].
    + apply p_alt2.
      * apply hex_fail. intros a b r E Ea. destruct d as [|c2 d]; cbn [app] in E.
        -- injection E as -> -> _. destruct He as [-> | ->]; reflexivity.
        -- injection E as -> -> _. cbn in Hd'. apply andb_true_iff in Hd' as [Hb _].
           apply orb_false_iff. split; apply N.eqb_neq; intros ->; discriminate.
      * unfold dec_e. eapply p_seq' with (l1 := []) (l2 := []).
        -- apply p_plus_cls; [rewrite (forallb_ext _ _ _ dod_spec); exact Hd|reflexivity|].
           rewrite (heads_ext _ _ _ dod_spec). cbn. destruct He as [-> | ->]; reflexivity.
        -- apply p_opt1; [|discriminate]. eapply p_seq' with (l1 := []) (l2 := []).
           ++ apply p_cls. rewrite eE_spec. destruct He as [-> | ->]; reflexivity.
           ++ apply p_plus_cls; [rewrite (forallb_ext _ _ _ expo_spec); exact Hx|exact Hnx|].
              rewrite (heads_ext _ _ _ expo_spec). apply stop_not; [exact Hk|apply expo_name].
           ++ reflexivity.
           ++ reflexivity.
        -- reflexivity.
        -- reflexivity.
    + reflexivity.
    + reflexivity.
Qed.
(** a number starts with signs followed by a digit or full stop *)
Lemma unsigned_split k : exists sg, k = sg ++ unsigned k /\ forallb sign sg = true.
Proof.
  induction k as [|c k (sg & IH & Hs)]; [exists []; auto|]. cbn [unsigned].
  destruct (sign c) eqn:E.
  - exists (c :: sg). split; [cbn; congruence|]. cbn. rewrite E. exact Hs.
  - exists []. auto.
Qed.
Lemma unsigned_head k : heads sign (unsigned k) = false.
Proof. induction k as [|c k IH]; cbn; auto. destruct (sign c) eqn:E; auto. Qed.
Lemma p_number_fail k : heads digit_or_dot (unsigned k) = false -> parses (NT G_SFNumber) k PFail.
Proof.
  intros H. apply p_nt_bad; auto. rewrite SFNumber_rule.
  destruct (unsigned_split k) as (sg & E & Hs). pose proof (unsigned_head k) as Hh.
  rewrite E at 1. eapply p_seq_bad2; [|apply p_alt2|auto].
  - apply p_star_cls; [rewrite (forallb_ext _ _ _ sign_spec); exact Hs|].
    rewrite (heads_ext _ _ _ sign_spec). exact Hh.
  - apply hex_fail. intros a b r Ek Ea. rewrite Ek in H. subst a. discriminate.
  - unfold dec_e. apply p_seq_bad; auto. apply p_plus_cls_fail. rewrite (heads_ext _ _ _ dod_spec). exact H.
Qed.
Lemma no_sign_number k : heads (fun c => sign c || digit_or_dot c)%bool k = false -> parses (NT G_SFNumber) k PFail.
Proof.
  intros H. apply p_number_fail. destruct k as [|c k]; [reflexivity|]. cbn in *.
  apply orb_false_iff in H as [H1 H2]. rewrite H1. exact H2.
Qed.

(** *** strings *)
Definition plain_char (c : N) : bool := negb (c =? backslash)%N && negb (c =? quote)%N.
Lemma plain_spec c : xorb true (inr c [(backslash, backslash); (quote, quote)]) = plain_char c.
Proof. rewrite !inr_cons, !one. change (inr c []) with false. unfold plain_char. btauto'. Qed.
Definition flush (run : text) : list tree :=
  match run with [] => [] | _ => [T G_CHARNODBLQUOTE run []] end.
(** the entries reported for the body of a string *)
Fixpoint pieces (run b : text) : list tree :=
  match b with
  | [] => flush run
  | c :: r =>
      if plain_char c then pieces (run ++ [c]) r
      else flush run ++
           match r with
           | c2 :: r2 => if plain_char c2 then T G_SIMPLEBACKSLASH [c] [] :: pieces [] r
                         else T G_ESCAPEDCHAR [c; c2] [] :: pieces [] r2
           | [] => [T G_SIMPLEBACKSLASH [c] []]
           end
  end.
Definition str_star := Star (al (NT G_CHARNODBLQUOTE) [NT G_ESCAPEDCHAR; NT G_SIMPLEBACKSLASH]).

Lemma plain_iff c : plain_char c = true <-> c <> 92%N /\ c <> 34%N.
Proof.
  unfold plain_char, backslash, quote. rewrite andb_true_iff, !negb_true_iff, !N.eqb_neq. tauto.
Qed.
Lemma p_chunk run k : nonempty run = true -> forallb plain_char run = true -> heads plain_char k = false ->
  parses (al (NT G_CHARNODBLQUOTE) [NT G_ESCAPEDCHAR; NT G_SIMPLEBACKSLASH]) (run ++ k)
         (POk run k [T G_CHARNODBLQUOTE run []]).
Proof.
  intros Hn Hr Hk. cbn [al]. apply p_alt1; [|discriminate]. apply (p_nt G_CHARNODBLQUOTE).
  apply p_plus_cls; auto.
  - rewrite (forallb_ext _ _ _ plain_spec). exact Hr.
  - rewrite (heads_ext _ _ _ plain_spec). exact Hk.
Qed.
Lemma p_noplain k : heads plain_char k = false -> parses (NT G_CHARNODBLQUOTE) k PFail.
Proof.
  intros H. apply p_nt_bad; auto. apply p_plus_cls_fail. rewrite (heads_ext _ _ _ plain_spec). exact H.
Qed.
Lemma p_esc c k : c = 34%N \/ c = 92%N ->
  parses (al (NT G_CHARNODBLQUOTE) [NT G_ESCAPEDCHAR; NT G_SIMPLEBACKSLASH]) (92%N :: c :: k)
         (POk [92%N; c] k [T G_ESCAPEDCHAR [92%N; c] []]).
Proof.
  intros Hc. cbn [al]. apply p_alt2; [apply p_noplain; reflexivity|]. apply p_alt1; [|discriminate].
  apply (p_nt G_ESCAPEDCHAR). cbn [rule]. destruct Hc as [->| ->].
  - apply p_alt1; [|discriminate]. apply p_lit. reflexivity.
  - apply p_alt2; [apply p_lit_fail; reflexivity|]. apply p_lit. reflexivity.
Qed.
Lemma p_lone c k : c <> 92%N -> c <> 34%N ->
  parses (al (NT G_CHARNODBLQUOTE) [NT G_ESCAPEDCHAR; NT G_SIMPLEBACKSLASH]) (92%N :: c :: k)
         (POk [92%N] (c :: k) [T G_SIMPLEBACKSLASH [92%N] []]).
Proof.
  intros H1 H2. cbn [al]. apply p_alt2; [apply p_noplain; reflexivity|]. apply p_alt2.
  - apply p_nt_bad; auto. cbn [rule].
    apply p_alt2; apply p_lit_fail; cbn [strip]; unfold backslash, quote; rewrite N.eqb_refl.
    + destruct (N.eqb_spec 34 c); [congruence|reflexivity].
    + destruct (N.eqb_spec 92 c); [congruence|reflexivity].
  - apply (p_nt G_SIMPLEBACKSLASH). apply p_lit. reflexivity.
Qed.
Lemma p_str_end k : parses str_star (34%N :: k) (POk [] (34%N :: k) []).
Proof.
  apply p_star0. cbn [al]. apply p_alt2; [apply p_noplain; reflexivity|].
  apply p_alt2; apply p_nt_bad; auto; cbn [rule].
  - apply p_alt2; apply p_lit_fail; reflexivity.
  - apply p_lit_fail; reflexivity.
Qed.
Lemma p_str_star b s : string_body b s -> forall rn k, forallb plain_char rn = true ->
  parses str_star (rn ++ b ++ 34%N :: k) (POk (rn ++ b) (34%N :: k) (pieces rn b)).
Proof.
  intros Hb. unfold str_star.
  assert (Hflush : forall rn k' c r l, forallb plain_char rn = true -> heads plain_char k' = false ->
            parses str_star k' (POk c r l) ->
            parses str_star (rn ++ k') (POk (rn ++ c) r (flush rn ++ l))).
  { intros rn k' c r l Hrn Hk' P. destruct rn as [|x rn]; [exact P|].
    unfold flush. eapply p_starS; [apply p_chunk; auto|exact P]. }
  induction Hb as [|c b s H1 H2 Hb IH|b s Hb IH|b s Hb IH|b s Hne Hb IH]; intros rn k Hrn.
  - cbn [pieces app]. rewrite app_nil_r. rewrite <- (app_nil_r rn) at 2. rewrite <- (app_nil_r (flush rn)).
    apply Hflush; auto. apply p_str_end.
  - cbn [pieces]. assert (Hc : plain_char c = true) by (apply plain_iff; auto). rewrite Hc.
    replace (rn ++ (c :: b) ++ 34%N :: k) with ((rn ++ [c]) ++ b ++ 34%N :: k) by (rewrite <- app_assoc; reflexivity).
    replace (rn ++ c :: b) with ((rn ++ [c]) ++ b) by (rewrite <- app_assoc; reflexivity).
    apply IH. rewrite forallb_app, Hrn. cbn. rewrite Hc. reflexivity.
  - cbn [pieces]. change (plain_char 92) with false. change (plain_char 34) with false. cbv iota.
    apply Hflush; auto.
    change (POk (92%N :: 34%N :: b) (34%N :: k) (T G_ESCAPEDCHAR [92%N; 34%N] [] :: pieces [] b)) with
      (POk ([92%N; 34%N] ++ b) (34%N :: k) ([T G_ESCAPEDCHAR [92%N; 34%N] []] ++ pieces [] b)).
    eapply p_starS; [apply p_esc; auto|]. exact (IH [] k eq_refl).
  - cbn [pieces]. change (plain_char 92) with false. cbv iota.
    apply Hflush; auto.
    change (POk (92%N :: 92%N :: b) (34%N :: k) (T G_ESCAPEDCHAR [92%N; 92%N] [] :: pieces [] b)) with
      (POk ([92%N; 92%N] ++ b) (34%N :: k) ([T G_ESCAPEDCHAR [92%N; 92%N] []] ++ pieces [] b)).
    eapply p_starS; [apply p_esc; auto|]. exact (IH [] k eq_refl).
  - destruct Hne as (c & r & -> & H1 & H2). cbn [pieces]. change (plain_char 92) with false. cbv iota.
    assert (Hc : plain_char c = true) by (apply plain_iff; auto). rewrite Hc.
    apply Hflush; auto.
    change (POk (92%N :: c :: r) (34%N :: k) (T G_SIMPLEBACKSLASH [92%N] [] :: pieces ([] ++ [c]) r)) with
      (POk ([92%N] ++ (c :: r)) (34%N :: k) ([T G_SIMPLEBACKSLASH [92%N] []] ++ pieces ([] ++ [c]) r)).
    eapply p_starS; [apply p_lone; auto|].
    specialize (IH [] k eq_refl). cbn [pieces] in IH. rewrite Hc in IH. exact IH.
Qed.
Lemma p_string b s k : string_body b s ->
  parses (NT G_SFString) (34%N :: b ++ 34%N :: k)
         (POk (34%N :: b ++ [34%N]) k [T G_SFString (34%N :: b ++ [34%N]) (pieces [] b)]).
Proof.
  intros Hb. apply (p_nt G_SFString). cbn [rule sq].
  replace (POk (34%N :: b ++ [34%N]) k (pieces [] b)) with
    (POk ([34%N] ++ (b ++ [34%N])) k ([] ++ (pieces [] b ++ []))) by (rewrite app_nil_r; reflexivity).
  eapply p_seq; [apply p_lit; reflexivity|]. eapply p_seq; [exact (p_str_star b s Hb [] k eq_refl)|].
  apply p_cut; [|discriminate]. apply p_lit. reflexivity.
Qed.
Lemma p_string_fail k : heads (fun c => c =? 34)%N k = false -> parses (NT G_SFString) k PFail.
Proof.
  intros H. apply p_nt_bad; auto. cbn [rule sq]. apply p_seq_bad; auto. apply p_lit_fail.
  destruct k as [|c k]; [reflexivity|]. cbn [heads] in H. cbn [strip]. unfold quote. rewrite N.eqb_sym, H. reflexivity.
Qed.
