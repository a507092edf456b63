(** The header of an X3D file, and files as a whole, in both grammars. *)
From Verif Require Import Base Text Grammar_Model Grammar_Proofs Lex_Spec Lex_Proofs Doc_Spec Doc_Proofs
  X3D_Spec X3D_Model X3D_Parser X3D_Proofs.
Local Open Scope nat_scope.
Local Open Scope list_scope.

(** *** the header *)
Lemma x_line_end e k : line_end e k -> xparses newline_e (e ++ k) (POk e k []).
Proof.
  intros [k'|k'|k' H]; unfold newline_e; cbn [al].
  - apply xp_alt2; [apply xp_lit_fail; reflexivity|]. apply xp_alt2; [apply xp_lit_fail; reflexivity|].
    apply xp_lit. reflexivity.
  - apply xp_alt1; [|discriminate]. apply xp_lit. reflexivity.
  - apply xp_alt2.
    + apply xp_lit_fail. destruct k' as [|c k']; [reflexivity|].
      cbn [app strip]. rewrite N.eqb_refl. unfold LF.
      destruct (N.eqb_spec 10 c) as [<-|_]; [|reflexivity]. exfalso. apply H. exists k'. reflexivity.
    + apply xp_alt1; [|discriminate]. apply xp_lit. reflexivity.
Qed.
Lemma line_end_head e k : line_end e k -> exists c r, e = c :: r /\ (c = 10%N \/ c = 13%N).
Proof. intros [|?|? ?]; eauto. Qed.
Definition notend (c : N) : bool := negb ((c =? 10) || (c =? 13))%N.
Lemma notend_spec c : xorb true (inr c [(LF, LF); (CR, CR)]) = notend c.
Proof. rewrite !inr_cons, !one. change (inr c []) with false. unfold notend, LF, CR. destruct (c =? 10)%N, (c =? 13)%N; reflexivity. Qed.
Lemma x_comment v e k : v <> [] -> (forall c, In c v -> c <> 10%N /\ c <> 13%N) -> line_end e k ->
  xparses comment_line (v ++ e ++ k) (POk v (e ++ k) []).
Proof.
  intros Hv Hc He. apply lex_x; [reflexivity|]. unfold comment_line. apply p_plus_cls.
  - rewrite (forallb_ext _ notend) by apply notend_spec. apply forallb_forall. intros c Hin. apply Hc in Hin as [A B].
    unfold notend. apply negb_true_iff. apply orb_false_iff. split; apply N.eqb_neq; assumption.
  - destruct v; [congruence|reflexivity].
  - destruct (line_end_head _ _ He) as (c & r & -> & [-> | ->]); reflexivity.
Qed.
Lemma x_name n k : is_name n = true -> ends_name k = true -> xparses (NT G_name) (n ++ k) (POk n k [T G_name n []]).
Proof. intros H K. apply lex_x; [reflexivity|]. apply p_name; auto. Qed.
Lemma x_blank k : no_sep k -> xparses TS (32%N :: k) (POk [32%N] k []).
Proof.
  intros K. apply lex_x; [reflexivity|]. apply (p_ts [32%N] k); [|exact K]. constructor; [reflexivity|constructor].
Qed.
Lemma x_ts_any s : exists w k, s = w ++ k /\ sep_text w /\ no_sep k /\ xparses TS s (POk w k []).
Proof. destruct (ts_any s) as (w & k & E & W & K & P). exists w, k. repeat split; auto. apply lex_x; [reflexivity|exact P]. Qed.
Lemma x_tk w k : xparses (tk w) (lit w ++ k) (POk (lit w) k []).
Proof. apply xp_lit. apply strip_ok. Qed.
Lemma not_begins w k : ~ begins w k -> strip w k = None.
Proof.
  intros H. destruct (strip w k) as [r|] eqn:E; [|reflexivity]. apply strip_app in E. exfalso. apply H. exists r. exact E.
Qed.
Lemma name_no_sep n k : is_name n = true -> no_sep (n ++ k).
Proof.
  intros H. apply no_sep_head. destruct n as [|c n]; [discriminate|]. cbn in *.
  apply andb_true_iff in H as [H _]. apply andb_true_iff in H as [_ H]. unfold name_char in H.
  unfold blank. destruct (c =? 32)%N eqn:E1; [apply N.eqb_eq in E1; subst; discriminate|].
  destruct (c =? 44)%N eqn:E2; [apply N.eqb_eq in E2; subst; discriminate|].
  destruct (c =? 35)%N eqn:E3; [apply N.eqb_eq in E3; subst; discriminate|].
  destruct ((9 <=? c) && (c <=? 13))%N eqn:E4; [|reflexivity].
  apply andb_true_iff in E4 as [_ E4]. apply N.leb_le in E4.
  assert (c <=? 16 = true)%N by (apply N.leb_le; lia). rewrite H0 in H. discriminate.
Qed.
(** the two lines of the header *)
Lemma x_lines h k : x3d_header h k -> exists l,
  xparses (Seq header_statement profile_statement) (h ++ k) (POk h k l).
Proof.
  intros [v profile e1 e2 k' Hv Hp He1 He2]. eexists.
  replace ((lit "#X3D V" ++ v ++ e1 ++ lit "PROFILE " ++ profile ++ e2) ++ k')
    with (lit "#" ++ (lit "X3D V" ++ v) ++ e1 ++ lit "PROFILE" ++ 32%N :: profile ++ e2 ++ k')
    by (rewrite <- !app_assoc; reflexivity).
  eapply xp_seq'.
  - apply xp_alt2.
    + replace (lit "#" ++ (lit "X3D V" ++ v) ++ e1 ++ lit "PROFILE" ++ 32%N :: profile ++ e2 ++ k')
        with (lit "#X3D" ++ 32%N :: 86%N :: v ++ e1 ++ lit "PROFILE" ++ 32%N :: profile ++ e2 ++ k')
        by (rewrite <- !app_assoc; reflexivity).
      cbn [sq]. eapply xp_seq_bad2; [apply x_tk| |auto].
      eapply xp_seq_bad2; [apply x_blank; apply no_sep_head; reflexivity| |auto].
      apply xp_seq_bad; [|auto]. apply lex_x; [reflexivity|]. apply no_sign_number. reflexivity.
    + cbn [sq]. eapply xp_seq; [apply x_tk|]. eapply xp_seq.
      * apply xp_opt1; [|discriminate]. apply x_comment; [discriminate| |exact He1].
        intros c Hin. apply in_app_iff in Hin as [Hin|Hin]; [|apply Hv; exact Hin].
        change (lit "X3D V") with [88%N; 51%N; 68%N; 32%N; 86%N] in Hin. cbn in Hin.
        repeat destruct Hin as [<-|Hin]; try (split; discriminate). destruct Hin.
      * apply x_line_end. exact He1.
  - unfold profile_statement. cbn [sq]. eapply xp_seq; [apply x_tk|]. eapply xp_seq.
    + apply x_blank. apply name_no_sep. exact Hp.
    + eapply xp_seq; [apply x_name; [exact Hp|]|apply x_line_end; exact He2].
      destruct (line_end_head _ _ He2) as (c & r & -> & [-> | ->]); reflexivity.
  - rewrite <- !app_assoc. reflexivity.
  - reflexivity.
Qed.
Lemma x_no_component k : ~ begins (lit "COMPONENT") k -> xparses (Star component_statement) k (POk [] k []).
Proof. intros H. apply xp_star0. apply xp_seq_bad; [|auto]. apply xp_lit_fail. apply not_begins. exact H. Qed.
Lemma x_no_meta k : ~ begins (lit "META") k -> xparses (Star meta_statement) k (POk [] k []).
Proof. intros H. apply xp_star0. apply xp_seq_bad; [|auto]. apply xp_lit_fail. apply not_begins. exact H. Qed.
Lemma x_string b s k : string_body b s -> exists l, xparses (NT G_SFString) (34%N :: b ++ 34%N :: k) (POk (34%N :: b ++ [34%N]) k l).
Proof. intros H. eexists. apply lex_x; [reflexivity|]. eapply p_string. exact H. Qed.
Lemma x_meta key value s1 s2 k : string_body key s1 -> string_body value s2 ->
  exists l, xparses meta_statement (meta_text key value ++ k) (POk (meta_text key value) k l).
Proof.
  intros H1 H2. unfold meta_text.
  replace ((lit "META " ++ 34%N :: key ++ 34%N :: lit " " ++ 34%N :: value ++ [34%N]) ++ k)
    with (lit "META" ++ 32%N :: 34%N :: key ++ 34%N :: 32%N :: 34%N :: value ++ 34%N :: k)
    by (cbn; rewrite <- !app_assoc; cbn; rewrite <- !app_assoc; reflexivity).
  destruct (x_string key s1 (32%N :: 34%N :: value ++ 34%N :: k) H1) as [l1 P1].
  destruct (x_string value s2 k H2) as [l2 P2]. eexists. unfold meta_statement. cbn [sq].
  eapply xp_seq'; [apply x_tk| | |reflexivity].
  - eapply xp_seq; [apply x_blank; apply no_sep_head; reflexivity|]. eapply xp_seq; [exact P1|].
    eapply xp_seq; [apply x_blank; apply no_sep_head; reflexivity|exact P2].
  - cbn. rewrite <- !app_assoc. reflexivity.
Qed.
(** what follows the header of the file *)
Lemma x_file h k l r : xparses (NT G_header) (h ++ k) (POk h k l) ->
  xparses (Seq (NT G_vrmlScene) (Cut (NT G_EOF))) k r ->
  xparses (xrule G_vrmlFile) (h ++ k) match r with POk c k' l' => POk (h ++ c) k' (l ++ l') | o => o end.
Proof.
  intros Hh Hk. cbn [xrule rule sq]. destruct r as [c k' l'| |].
  - eapply xp_seq; eauto.
  - eapply xp_seq_bad2; eauto.
  - eapply xp_seq_bad2; eauto.
Qed.
Lemma xp_seq_split a b c s c1 r1 l1 c2 r2 l2 : xparses (Seq a b) s (POk c1 r1 l1) -> xparses c r1 (POk c2 r2 l2) ->
  xparses (Seq a (Seq b c)) s (POk (c1 ++ c2) r2 (l1 ++ l2)).
Proof.
  intros [n H] Hc. destruct n as [|n]; [discriminate|]. cbn [xrun] in H.
  destruct (xrun n a s) as [[ca ra la| |]|] eqn:Ea; try discriminate.
  destruct (xrun n b ra) as [[cb rb lb| |]|] eqn:Eb; try discriminate. injection H as <- <- <-.
  rewrite <- !app_assoc. eapply xp_seq; [exists n; exact Ea|]. eapply xp_seq; [exists n; exact Eb|exact Hc].
Qed.
Lemma x_header h k : x3d_header h k -> ~ begins (lit "COMPONENT") k -> ~ begins (lit "META") k ->
  exists l, xparses (NT G_header) (h ++ k) (POk h k [T G_header h l]).
Proof.
  intros Hh Hc Hm. destruct (x_lines h k Hh) as [l P]. exists l. apply xp_nt with (n := G_header). cbn [xrule sq].
  assert (Ps : xparses (Seq (Star component_statement) (Star meta_statement)) k (POk [] k [])).
  { eapply xp_seq'; [apply x_no_component; exact Hc|apply x_no_meta; exact Hm|reflexivity|reflexivity]. }
  pose proof (xp_seq_split _ _ _ _ _ _ _ _ _ _ P Ps) as Q. rewrite !app_nil_r in Q. exact Q.
Qed.
Lemma x_header_meta h key value s1 s2 k : x3d_header h (meta_text key value ++ k) -> string_body key s1 -> string_body value s2 ->
  ~ begins (lit "META") k ->
  exists l, xparses (NT G_header) (h ++ meta_text key value ++ k) (POk (h ++ meta_text key value) k [T G_header (h ++ meta_text key value) l]).
Proof.
  intros Hh H1 H2 Hm. destruct (x_lines h _ Hh) as [l P]. destruct (x_meta key value s1 s2 k H1 H2) as [l2 P2].
  exists (l ++ l2). apply xp_nt with (n := G_header). cbn [xrule sq].
  assert (Ps : xparses (Seq (Star component_statement) (Star meta_statement)) (meta_text key value ++ k) (POk (meta_text key value) k l2)).
  { eapply xp_seq'; [apply x_no_component| |reflexivity|reflexivity].
    - intros [r E]. discriminate E.
    - eapply xp_starS'; [exact P2|apply x_no_meta; exact Hm|rewrite app_nil_r; reflexivity|rewrite app_nil_r; reflexivity]. }
  exact (xp_seq_split _ _ _ _ _ _ _ _ _ _ P Ps).
Qed.

(** *** a newline before the scene *)
Definition scene_e : expr := Seq (NT G_vrmlScene) (Cut (NT G_EOF)).
Lemma ts_newline b c r l : parses TS b (POk c r l) -> parses TS (10%N :: b) (POk (10%N :: c) r l).
Proof.
  intros H. destruct (ts_any b) as (w & k & -> & W & K & P).
  pose proof (parses_det _ _ _ _ H P) as E. injection E as -> -> ->.
  apply (p_ts (10%N :: w) k); [constructor; [reflexivity|exact W]|exact K].
Qed.
Definition shift_item (r : pres) : pres :=
  match r with
  | POk c k [T n _ ch] => POk (10%N :: c) k [T n (10%N :: c) ch]
  | o => o
  end.
Lemma root_shape b c k l : parses (NT G_rootItem) b (POk c k l) -> exists ch, l = [T G_rootItem c ch].
Proof.
  intros [n H]. destruct n as [|n]; [discriminate|]. cbn [run] in H.
  destruct (run n (rule G_rootItem) b) as [[c1 k1 l1| |]|]; try discriminate. injection H as <- <- <-. exists l1. reflexivity.
Qed.
Lemma root_newline b r : parses (NT G_rootItem) b r -> parses (NT G_rootItem) (10%N :: b) (shift_item r).
Proof.
  intros [n H]. destruct n as [|n]; [discriminate|]. cbn [run] in H.
  destruct (run n (rule G_rootItem) b) as [q|] eqn:E; [|discriminate].
  assert (Q : parses (rule G_rootItem) (10%N :: b) match q with POk c k l => POk (10%N :: c) k l | o => o end).
  { cbn [rule sq] in E |- *. destruct n as [|n]; [discriminate|]. cbn [run] in E.
    destruct (run n TS b) as [[ct kt lt| |]|] eqn:Et; try discriminate.
    - assert (Pt : parses TS b (POk ct kt lt)) by (exists n; exact Et). apply ts_newline in Pt.
      destruct (run n (Seq (al (NT G_Proto) _) TS) kt) as [[c2 k2 l2| |]|] eqn:E2; try discriminate; injection E as <-.
      + eapply p_seq'; [exact Pt|exists n; exact E2|reflexivity|reflexivity].
      + eapply p_seq_bad2; [exact Pt|exists n; exact E2|auto].
      + eapply p_seq_bad2; [exact Pt|exists n; exact E2|auto].
    - exfalso. exact (nofail_run _ TS _ eq_refl Et).
    - exfalso. exact (calm_run _ TS _ eq_refl Et). }
  destruct q as [c k l| |]; injection H as <-.
  - exact (p_nt G_rootItem _ _ _ _ Q).
  - apply p_nt_bad; auto.
  - apply p_nt_bad; auto.
Qed.
(** the entries of a scene, whose first item starts with a newline *)
Definition shift_scene (l : list tree) : list tree :=
  match l with
  | [T n c (T m c' ch :: r); e] => [T n (10%N :: c) (T m (10%N :: c') ch :: r); e]
  | _ => l
  end.
Lemma eof_inv s c k l : parses (Cut (NT G_EOF)) s (POk c k l) -> s = [] /\ c = [] /\ k = [] /\ l = [T G_EOF [] []].
Proof.
  intros H. destruct s as [|x s].
  - assert (E : parses (Cut (NT G_EOF)) [] (POk [] [] [T G_EOF [] []])) by (exists 5; reflexivity).
    pose proof (parses_det _ _ _ _ H E) as Q. injection Q as -> -> ->. auto.
  - assert (E : parses (Cut (NT G_EOF)) (x :: s) PErr) by (exists 5; reflexivity).
    pose proof (parses_det _ _ _ _ H E) as Q. discriminate.
Qed.
Lemma scene_newline b r : b <> [] -> parses scene_e b r ->
  (r = PErr /\ parses scene_e (10%N :: b) PErr) \/
  (exists c l, r = POk c [] l /\ vecs (shift_scene l) = vecs l /\ parses scene_e (10%N :: b) (POk (10%N :: c) [] (shift_scene l))).
Proof.
  intros Hb H. destruct (terminates G_rootItem b) as [q Pq]. pose proof (root_newline b q Pq) as Pq'.
  unfold scene_e in *. destruct q as [c1 k1 l1| |].
  - destruct (root_shape _ _ _ _ Pq) as [ch ->]. cbn [shift_item] in Pq'.
    destruct (terminates_gen (List.length k1) k1 (le_n _) 6 (Star (NT G_rootItem)) eq_refl eq_refl) as [q2 P2].
    destruct q2 as [c2 k2 l2| |].
    + assert (V1 : parses (NT G_vrmlScene) b (POk (c1 ++ c2) k2 [T G_vrmlScene (c1 ++ c2) (T G_rootItem c1 ch :: l2)])).
      { apply p_nt with (n := G_vrmlScene). cbn [rule]. eapply p_starS'; eauto. }
      assert (V2 : parses (NT G_vrmlScene) (10%N :: b) (POk (10%N :: c1 ++ c2) k2 [T G_vrmlScene (10%N :: c1 ++ c2) (T G_rootItem (10%N :: c1) ch :: l2)])).
      { apply p_nt with (n := G_vrmlScene). cbn [rule]. eapply p_starS'; eauto. }
      destruct (terminates_gen (List.length k2) k2 (le_n _) 6 (Cut (NT G_EOF)) eq_refl eq_refl) as [q3 P3].
      destruct q3 as [c3 k3 l3| |].
      * destruct (eof_inv _ _ _ _ P3) as (-> & -> & -> & ->). right.
        eexists _, _. split; [apply (parses_det _ _ _ _ H); eapply p_seq; eauto|]. split.
        -- reflexivity.
        -- eapply p_seq'; eauto. 
      * exfalso. destruct P3 as [m P3]. exact (nofail_run _ (Cut (NT G_EOF)) _ eq_refl P3).
      * left. split; [apply (parses_det _ _ _ _ H)|]; eapply p_seq_bad2; eauto.
    + exfalso. destruct P2 as [m P2]. exact (star_no_fail _ _ _ P2).
    + left. split; [apply (parses_det _ _ _ _ H)|]; (apply p_seq_bad; [|auto]); (apply p_nt_bad; [|auto]); cbn [rule]; eapply p_star_err2; eauto.
  - left. destruct b as [|x b]; [congruence|].
    split; [apply (parses_det _ _ _ _ H)|]; (eapply p_seq_bad2; [apply p_nt; cbn [rule]; apply p_star0; eassumption| |auto]);
      apply p_cut_fail; (apply p_nt_bad; [|auto]); cbn [rule]; apply p_eof_fail.
  - left. split; [apply (parses_det _ _ _ _ H)|]; (apply p_seq_bad; [|auto]); (apply p_nt_bad; [|auto]); cbn [rule]; apply p_star_err; assumption.
Qed.
(** a VRML97 file: a first line and what follows *)
Lemma v_file line k r : ~ In 10%N line -> parses scene_e (10%N :: k) r ->
  parses (rule G_vrmlFile) (line ++ 10%N :: k)
    match r with POk c k' l => POk (line ++ c) k' (T G_header line [] :: l) | o => o end.
Proof.
  intros Hl H.
  assert (Ph : parses (NT G_header) (line ++ 10%N :: k) (POk line (10%N :: k) [T G_header line []])).
  { apply p_nt with (n := G_header). cbn [rule]. apply p_star_cls; [apply not_nl; exact Hl|reflexivity]. }
  cbn [rule sq]. destruct r as [c k' l| |].
  - eapply p_seq'; [exact Ph|exact H|reflexivity|reflexivity].
  - eapply p_seq_bad2; [exact Ph|exact H|auto].
  - eapply p_seq_bad2; [exact Ph|exact H|auto].
Qed.
Lemma scene_total k : exists r, parses scene_e k r.
Proof. apply (terminates_gen (List.length k) k (le_n _) 6 scene_e eq_refl eq_refl). Qed.
Lemma scene_ok c k l s : parses scene_e s (POk c k l) -> k = [].
Proof.
  intros H. destruct (parses_seq_inv _ _ _ _ _ _ H) as (c1 & k1 & l1 & c2 & l2 & P1 & P2 & _).
  apply eof_inv in P2. tauto.
Qed.
Lemma scene_agrees k r : no_words k -> parses scene_e k r -> agrees scene_e k r.
Proof. intros W [n H]. eapply body_agrees; eauto. Qed.

(** *** documents have no vectors *)
Lemma pieces_novec b : vecs (pieces [] b) = false.
Proof.
  enough (H : forall n b rn, List.length b <= n -> vecs (pieces rn b) = false) by (apply (H (List.length b)); lia).
  assert (F : forall rn, vecs (flush rn) = false) by (intros []; reflexivity).
  induction n as [|n IH]; intros b0 rn Hb.
  - destruct b0; [apply F|cbn in Hb; lia].
  - destruct b0 as [|c b0]; [apply F|]. cbn in Hb. cbn [pieces]. destruct (plain_char c); [apply IH; lia|].
    rewrite vecs_app, F. destruct b0 as [|c2 b0]; [reflexivity|]. cbn in Hb.
    destruct (plain_char c2).
    + change (vecs (pieces [] (c2 :: b0)) = false). apply IH. cbn. lia.
    + change (vecs (pieces [] b0) = false). apply IH. lia.
Qed.
Lemma type_novec ty : has_vector (et_type ty) = false.
Proof. reflexivity. Qed.
Lemma doc_novec :
  (forall i, has_vector (et_item (sk_item i)) = false) /\
  (forall n, has_vector (et_item (sk_node n)) = false) /\
  (forall l, existsb has_vector (map (fun p => T G_Attr [] [tname (fst p); et_val (snd p)]) (sk_attrs l)) = false) /\
  (forall f, existsb has_vector (map et_item (sk_field f)) = false) /\
  (forall l, existsb has_vector (map et_item (sk_items l)) = false) /\
  (forall l, existsb has_vector (map et_sel (sk_selems l)) = false).
Proof.
  apply doc_mutind.
  - reflexivity.
  - reflexivity.
  - reflexivity.
  - intros b. apply pieces_novec.
  - reflexivity.
  - intros n IH. exact IH.
  - intros d gi w1 w2 l IH. cbn [sk_node et_item has_vector]. destruct d as [[[? ?] ?]|]; cbn; exact IH.
  - intros d w1 w2 l IH. cbn [sk_node et_item has_vector]. destruct d as [[[? ?] ?]|]; cbn; exact IH.
  - reflexivity.
  - intros nm w f IHf l IHl. cbn. cbn in IHf. rewrite IHf. exact IHl.
  - intros nm w w1 pn w2 l IHl. cbn. exact IHl.
  - intros w l IH w'. exact IH.
  - intros l IH. exact IH.
  - reflexivity.
  - intros i IHi w l IHl. cbn [sk_items map existsb]. rewrite IHi. exact IHl.
  - reflexivity.
  - intros ex w ty w1 nm w2 f IHf l IHl. cbn. rewrite IHf. exact IHl.
  - intros ex w ty w1 nm w2 w3 pn w4 l IHl. cbn. exact IHl.
  - intros ex w ty w1 nm w2 l IHl. cbn. exact IHl.
  - intros ex w ty w1 nm w2 w3 pn w4 l IHl. cbn. exact IHl.
  - intros nm w f IHf l IHl. cbn. rewrite IHf. exact IHl.
  - intros nm w w1 pn w2 l IHl. cbn. exact IHl.
Qed.
Lemma root_novec :
  (forall r, has_vector (et_sroot (sk_root r)) = false) /\
  (forall l, existsb has_vector (map et_root (sk_roots l)) = false).
Proof.
  destruct doc_novec as (Hi & Hn & Ha & Hf & Hl & He).
  apply root_mutind.
  - intros n. apply Hn.
  - reflexivity.
  - reflexivity.
  - intros w1 gi w2 w3 ds w4 w5 l IH. cbn. rewrite existsb_app.
    replace (existsb has_vector (map et_decl (map sk_decl ds))) with false.
    + cbn. change (map (fun r => T G_rootItem [] [et_sroot r]) (sk_roots l)) with (map et_root (sk_roots l)). rewrite IH. reflexivity.
    + symmetry. induction ds as [|[ex w ty w0 nm w6 f|out w ty w0 nm w6] ds IHd]; cbn; [reflexivity| |exact IHd].
      rewrite Hf. exact IHd.
  - intros w1 gi w2 w3 ds w4 u. cbn. rewrite existsb_app.
    replace (existsb has_vector (map et_xdecl (map sk_xdecl ds))) with false.
    + cbn. rewrite orb_false_r. induction (sk_url u) as [|b us IHu]; [reflexivity|]. cbn [map existsb et_str has_vector].
      pose proof (pieces_novec b) as P. unfold vecs in P. rewrite P. exact IHu.
    + symmetry. induction ds as [|[ex w ty w0 nm w6|out w ty w0 nm w6] ds IHd]; cbn; [reflexivity|exact IHd|exact IHd].
  - reflexivity.
  - intros r IHr w l IHl. cbn [sk_roots map existsb et_root has_vector]. cbn. rewrite IHr. exact IHl.
Qed.
Fixpoint erase_vec (t : tree) : has_vector (erase t) = has_vector t.
Proof.
  destruct t as [n s l]. cbn [erase has_vector]. f_equal.
  induction l as [|x l IHl]; cbn [map existsb]; [reflexivity|]. rewrite erase_vec, IHl. reflexivity.
Qed.
Lemma doc_trees_novec d c trees : ok_doc d -> parses (rule G_vrmlFile) (show_doc d) (POk c [] trees) -> vecs trees = false.
Proof.
  intros Ok P. destruct (doc_reads d Ok) as (c' & trees' & P' & E).
  pose proof (parses_det _ _ _ _ P P') as Q. injection Q as -> ->.
  assert (H : vecs (map erase trees') = vecs trees').
  { clear. induction trees' as [|x l IH]; [reflexivity|]. unfold vecs in *. cbn [map existsb]. rewrite erase_vec, IH. reflexivity. }
  rewrite <- H, E. destruct d as [h w l]. cbn. destruct root_novec as [_ R]. rewrite R. reflexivity.
Qed.
