(** Texts with a string list as the lineariser writes it are syntax errors. *)
From Verif Require Import Base Text Grammar_Model Grammar_Proofs Lex_Spec Lex_Proofs Doc_Spec Doc_Proofs VrmlStr_Model VrmlStr_Spec
  VrmlStr_Proofs Layout_Proofs.
Local Open Scope nat_scope.
Local Open Scope list_scope.

Definition errs (e : expr) (s : text) : Prop := parses e s PErr.
Lemma e_seq a b s : errs a s -> errs (Seq a b) s.
Proof. intros H. apply p_seq_bad; [exact H|auto]. Qed.
Lemma e_seq2 a b s r X : reads a s r X -> errs b r -> errs (Seq a b) s.
Proof. intros (c & l & H & _) Hb. eapply p_seq_bad2; eauto. Qed.
Lemma e_alt1 a b s : errs a s -> errs (Alt a b) s.
Proof. intros H. apply p_alt1; [exact H|discriminate]. Qed.
Lemma e_alt2 a b s : fails a s -> errs b s -> errs (Alt a b) s.
Proof. intros. apply p_alt2; auto. Qed.
Lemma e_star a s : errs a s -> errs (Star a) s.
Proof. apply p_star_err. Qed.
Lemma e_star2 a s r X : reads a s r X -> errs (Star a) r -> errs (Star a) s.
Proof. intros (c & l & H & _) Hb. eapply p_star_err2; eauto. Qed.
Lemma e_nt n s : errs (rule n) s -> errs (NT n) s.
Proof. intros H. apply p_nt_bad; [exact H|auto]. Qed.
Lemma e_cut a s : fails a s -> errs (Cut a) s.
Proof. apply p_cut_fail. Qed.

(** *** what opens a node *)
Definition opening (d gi : text) : text := def_part d ++ gi ++ lit " {".
Definition ok_open (d gi : text) : Prop := (d = [] \/ is_name d = true) /\ safe_name gi = true.
Lemma safe_script gi : safe_name gi = true -> starts_with (lit "Script") gi = false.
Proof.
  intros Hg. unfold safe_name in Hg. apply andb_true_iff in Hg as [Hg _]. apply andb_true_iff in Hg as [_ Hg].
  rewrite forallb_forall in Hg. specialize (Hg (lit "Script") ltac:(cbn; auto 20)).
  destruct (starts_with (lit "Script") gi); [discriminate|reflexivity].
Qed.
Lemma open_cases d gi k : ok_open d gi ->
  opening d gi ++ k = gi ++ [32%N] ++ lit "{" ++ k \/
  (is_name d = true /\ opening d gi ++ k = lit "DEF" ++ [32%N] ++ d ++ [32%N] ++ gi ++ [32%N] ++ lit "{" ++ k).
Proof.
  intros [[->|Hd] Hg]; unfold opening.
  - left. cbn [def_part app]. rewrite <- !app_assoc. reflexivity.
  - right. split; [exact Hd|]. destruct d as [|c d]; [discriminate|]. cbn [def_part]. rewrite <- !app_assoc. reflexivity.
Qed.
Lemma sp : sep_text [32%N].
Proof. apply sep_blank; [reflexivity|constructor]. Qed.
Lemma open_kw d gi k p : ok_open d gi -> In p keywords -> p <> lit "DEF" -> strip p (opening d gi ++ k) = None.
Proof.
  intros H Hp Hd. pose proof (proj2 H) as Hg. destruct (open_cases d gi k H) as [->|[_ ->]].
  - apply (safe_no_kw gi); [exact Hg|reflexivity|exact Hp].
  - unfold keywords in Hp. cbn [map In] in Hp. repeat (destruct Hp as [<-|Hp]; [first [reflexivity|congruence]|]). contradiction.
Qed.
Lemma open_head f d gi k : ok_open d gi -> (forall c, f c = true -> name_char c = false) -> heads f (opening d gi ++ k) = false.
Proof.
  intros H Hf. pose proof (proj2 H) as Hg. destruct (open_cases d gi k H) as [->|[_ ->]].
  - apply name_not; [apply is_name_head, safe_is_name; exact Hg|exact Hf].
  - cbn [lit]. cbn. destruct (f 68%N) eqn:E; [|reflexivity]. apply Hf in E. discriminate.
Qed.
Lemma open_no_sep d gi k : ok_open d gi -> no_sep (opening d gi ++ k).
Proof.
  intros H. destruct (open_cases d gi k H) as [->|[_ ->]].
  - apply name_no_sep, safe_is_name. exact (proj2 H).
  - apply no_sep_head. reflexivity.
Qed.
Lemma f_num_open d gi k : ok_open d gi -> fails (NT G_SFNumber) (opening d gi ++ k).
Proof.
  intros H. destruct (open_cases d gi k H) as [->|[_ ->]].
  - apply p_number_fail. apply safe_no_num; [exact (proj2 H)|reflexivity].
  - apply no_num_letter. reflexivity.
Qed.
Lemma f_bool_open d gi k : ok_open d gi -> fails (NT G_SFBool) (opening d gi ++ k).
Proof. intros H. apply f_nt. apply f_alt; apply f_lit; apply open_kw; auto; try discriminate; cbn; auto 20. Qed.
Lemma f_script_open d gi k : ok_open d gi -> fails (NT G_Script) (opening d gi ++ k).
Proof.
  intros H. pose proof (proj2 H) as Hg. destruct (open_cases d gi k H) as [->|[Hd ->]].
  - apply f_script; apply (safe_no_kw gi); try exact Hg; try reflexivity; cbn; auto 20.
  - apply f_nt. cbn [rule sq cuts map]. pose proof sp.
    eapply f_seq2; [apply r_def; eauto; [discriminate|apply name_no_sep, safe_is_name; exact Hg]|].
    apply f_seq. apply f_lit. apply kw_strip; [reflexivity|apply safe_script; exact Hg|reflexivity].
Qed.
(** reading the opening *)
Lemma r_open d gi w k : ok_open d gi -> sep_text w -> no_sep k ->
  errs (sq body_e [TS; Cut (tk "}"); Cut TS]) k -> errs (NT G_Node) (opening d gi ++ w ++ k).
Proof.
  intros H Hw Hk E. pose proof (proj2 H) as Hg. pose proof sp. apply e_nt. rewrite Node_rule.
  assert (Q : errs (sq (NT G_nodegi) [TS; tk "{"; TS; body_e; TS; Cut (tk "}"); Cut TS]) (gi ++ [32%N] ++ lit "{" ++ w ++ k)).
  { cbn [sq]. eapply e_seq2; [eapply r_wrap; [reflexivity|reflexivity|reflexivity|reflexivity|apply safe_is_name; exact Hg|reflexivity]|].
    eapply e_seq2; [apply (r_ts [32%N]); [reflexivity|exact sp|apply no_sep_head; reflexivity]|].
    eapply e_seq2; [apply r_lit; reflexivity|]. eapply e_seq2; [apply (r_ts w); [reflexivity|exact Hw|exact Hk]|]. exact E. }
  destruct (open_cases d gi (w ++ k) H) as [->|[Hd ->]].
  - eapply e_seq2; [apply r_nodef; apply (safe_no_kw gi); [exact Hg|reflexivity|cbn; auto 20]|exact Q].
  - eapply e_seq2; [apply r_def; auto; [discriminate|apply name_no_sep, safe_is_name; exact Hg]|exact Q].
Qed.

(** *** bad node texts *)
Definition bad_item (t : text) : Prop := exists d gi r, t = opening d gi ++ r /\ ok_open d gi /\
  forall k, errs (NT G_Node) (t ++ k).
Lemma bad_br t k : bad_item t -> errs alt_br (t ++ k).
Proof.
  intros (d & gi & r & -> & H & B). specialize (B k). rewrite <- app_assoc in B |- *. unfold alt_br. cbn [al].
  apply e_alt2; [apply f_vector; apply open_head; [exact H|]; intros c Hc; apply N.eqb_eq in Hc; subst; reflexivity|].
  apply e_alt2; [apply f_num_open; exact H|]. apply e_alt2; [apply f_bool_open; exact H|].
  apply e_alt2; [apply p_string_fail; apply open_head; [exact H|]; intros c Hc; apply N.eqb_eq in Hc; subst; reflexivity|].
  apply e_alt2; [apply f_use; apply open_kw; [exact H|cbn; auto 20|discriminate]|].
  apply e_alt2; [apply f_script_open; exact H|exact B].
Qed.
Lemma bad_pl t k : bad_item t -> errs alt_pl (t ++ k).
Proof.
  intros (d & gi & r & -> & H & B). specialize (B k). rewrite <- app_assoc in B |- *. unfold alt_pl. cbn [al].
  apply e_alt2; [apply f_num_open; exact H|]. apply e_alt2; [apply f_bool_open; exact H|].
  apply e_alt2; [apply f_null; apply open_kw; [exact H|cbn; auto 20|discriminate]|].
  apply e_alt2; [apply p_string_fail; apply open_head; [exact H|]; intros c Hc; apply N.eqb_eq in Hc; subst; reflexivity|].
  apply e_alt2; [apply f_use; apply open_kw; [exact H|cbn; auto 20|discriminate]|].
  apply e_alt2; [apply f_script_open; exact H|exact B].
Qed.
Lemma bad_root t k : bad_item t -> errs root_e (t ++ k).
Proof.
  intros (d & gi & r & -> & H & B). specialize (B k). rewrite <- app_assoc in B |- *. unfold root_e. cbn [al].
  do 3 (apply e_alt2; [apply f_nt; apply f_seq; apply f_lit; apply open_kw; [exact H|cbn; auto 20|discriminate]|]).
  apply e_alt2; [apply f_use; apply open_kw; [exact H|cbn; auto 20|discriminate]|].
  apply e_alt2; [apply f_script_open; exact H|exact B].
Qed.
Lemma bad_no_sep t k : bad_item t -> no_sep (t ++ k).
Proof. intros (d & gi & r & -> & H & _). rewrite <- app_assoc. apply open_no_sep. exact H. Qed.

(** *** field values *)
(** how the text of a written value starts *)
Definition good_start (t : text) : Prop := exists pre c r, t = pre ++ c :: r /\ sep_text pre /\
  (blank c || (c =? 35)%N)%bool = false /\ c <> 123%N.
Lemma good_no_sep c r : (blank c || (c =? 35)%N)%bool = false -> no_sep (c :: r).
Proof. intros H. apply no_sep_head. exact H. Qed.
Lemma fld_good t l : fld_text t l -> good_start t.
Proof.
  intros (pre & t' & -> & Hp & H). destruct (H [] [] (sep_nil)) as (fv & E & Ok & _).
  pose proof (field_no_sep fv [] Ok) as N. pose proof (field_no_brace fv [] Ok) as B. rewrite app_nil_r in N, B. rewrite E in N, B.
  destruct t' as [|c r].
  - exfalso. specialize (N [10%N] [] eq_refl (sep_nl_ [] sep_nil)). discriminate.
  - exists pre, c, r. split; [reflexivity|]. split; [exact Hp|]. split.
    + destruct (blank c) eqn:Bc.
      * exfalso. specialize (N [c] (r ++ [10%N]) eq_refl (sep_blank c [] Bc sep_nil)). discriminate.
      * cbn. destruct (N.eqb_spec c 35); [|reflexivity]. exfalso. subst c.
        assert (exists a b, r ++ [10%N] = a ++ 10%N :: b /\ ~ In 10%N a) as (a & b & E2 & Na).
        { clear. induction r as [|x r (a & b & E & Na)]; [exists [], []; auto|]. destruct (N.eq_dec x 10) as [->|D].
          - exists [], (r ++ [10%N]). auto.
          - exists (x :: a), b. cbn. rewrite E. split; [reflexivity|]. intros [Q|Q]; auto. }
        assert (Q : (35%N :: r) ++ [10%N] = (35%N :: a ++ [10%N]) ++ b).
        { cbn [app]. rewrite E2, <- app_assoc. reflexivity. }
        specialize (N _ _ Q (sep_comment a [] Na sep_nil)). discriminate.
    + unfold no_head in B. cbn in B. apply N.eqb_neq in B. exact B.
Qed.
(** what may follow an attribute: the next one, or the end of the node *)
Definition next_attr (k : text) : Prop := exists nm t k', k = nm ++ 9%N :: t ++ k' /\ safe_name nm = true /\ good_start t.
Definition follow (k : text) : Prop := exists w k', k = 10%N :: w ++ k' /\ sep_text w /\ (heads (fun c => c =? 125)%N k' = true \/ next_attr k').
Lemma head_125 k : heads (fun c => c =? 125)%N k = true -> closer k.
Proof. destruct k as [|c k]; [discriminate|]. cbn. intros H. apply N.eqb_eq in H. subst. exists 125%N, k. auto. Qed.
Lemma next_facts k : next_attr k -> no_sep k /\ fails alt_br k /\ no_head 93 k /\ fails alt_pl k.
Proof.
  intros (nm & t & k' & -> & Hn & pre & c & r & -> & Hp & Hc & Hb).
  pose proof (safe_is_name _ Hn) as Hn'.
  assert (Ep : nm ++ 9%N :: (pre ++ c :: r) ++ k' = nm ++ (9%N :: pre) ++ c :: r ++ k').
  { cbn [app]. rewrite <- app_assoc. reflexivity. }
  rewrite Ep. assert (Hw : sep_text (9%N :: pre)) by (apply sep_blank; [reflexivity|exact Hp]).
  assert (Hnb : no_head 123 (c :: r ++ k')) by (unfold no_head; cbn; apply N.eqb_neq; exact Hb).
  pose proof (good_no_sep c (r ++ k') Hc) as Hk.
  assert (Hkw : no_kw (nm ++ (9%N :: pre) ++ c :: r ++ k')) by (apply safe_no_kw; [exact Hn|reflexivity]).
  split; [apply name_no_sep; exact Hn'|]. split; [|split; [apply name_head; [exact Hn'|reflexivity]|apply attr_fail_pl; auto]].
  unfold alt_br. cbn [al]. repeat apply f_alt.
  - apply f_vector. apply name_head; [exact Hn'|reflexivity].
  - apply p_number_fail. apply safe_no_num; [exact Hn|reflexivity].
  - apply f_bool. exact Hkw.
  - apply p_string_fail. apply name_head; [exact Hn'|reflexivity].
  - apply f_use. apply Hkw. cbn; auto 20.
  - apply f_script; apply Hkw; cbn; auto 20.
  - apply f_node_attr; auto. apply Hkw. cbn; auto 20.
Qed.
Lemma follow_facts k : follow k -> exists w k', k = w ++ k' /\ sep_text w /\ no_sep k' /\ fails alt_br k' /\ no_head 93 k'.
Proof.
  intros (w & k' & -> & Hw & H). exists (10%N :: w), k'. split; [reflexivity|]. split; [apply sep_nl_; exact Hw|].
  destruct H as [H|H].
  - pose proof (head_125 k' H) as C. split; [apply closer_no_sep; exact C|]. split; [apply closer_fail_br; exact C|].
    destruct k' as [|c k']; [discriminate|]. cbn in H. apply N.eqb_eq in H. subst. reflexivity.
  - destruct (next_facts k' H) as (A & B & C & _). auto.
Qed.

Lemma no_head_strip c s : no_head c s -> strip [c] s = None.
Proof. destruct s as [|x s]; [reflexivity|]. unfold no_head. cbn. rewrite N.eqb_sym. intros ->. reflexivity. Qed.
(** *** a string list after an opening bracket *)
Lemma mf_several lv l : ok_lv lv -> 1 < List.length l -> exists w r, mfstring_vrmlstr lv l = lit "[" ++ w ++ 34%N :: r /\ sep_text w.
Proof.
  intros (F & _) H. inversion F as [|? ? F1 F']; inversion F' as [|? ? F2 F'']; inversion F'' as [|? ? F3 F3']; inversion F3' as [|? ? F4 _]; subst.
  destruct l as [|a [|b l]]; [cbn in H; lia|cbn in H; lia|]. unfold mfstring_vrmlstr. cbv zeta.
  assert (Sv : (1 <? List.length (map sfstring_vrmlstr (a :: b :: l))) = true) by (apply Nat.ltb_lt; rewrite map_length; exact H).
  rewrite Sv. destruct (60 <? _).
  - set (sep := subelspacer lv ++ [10%N] ++ curindent lv ++ indent lv).
    assert (Sep : sep_text sep). { unfold sep. repeat apply sep_app; auto. apply sep_nl_. constructor. }
    set (go := fix go (result l : list text) {struct l} : list text := match l with [] => result
       | element :: r => go ((match result with [] => [] | _ => result ++ [sep] end) ++ [element]) r end).
    assert (G : forall l acc x y, acc = x :: y -> exists z, go acc l = x :: y ++ z).
    { clear. induction l as [|e l IH]; intros acc x y ->; cbn; [exists []; rewrite app_nil_r; reflexivity|].
      destruct (IH _ x ((y ++ [sep]) ++ [e]) eq_refl) as [z Ez]. exists ([sep; e] ++ z). cbn in Ez |- *. rewrite Ez, <- !app_assoc. reflexivity. }
    cbn [map]. change (go [lit "["] (sfstring_vrmlstr a :: sfstring_vrmlstr b :: map sfstring_vrmlstr l))
      with (go [lit "["; sep; sfstring_vrmlstr a] (sfstring_vrmlstr b :: map sfstring_vrmlstr l)).
    destruct (G (sfstring_vrmlstr b :: map sfstring_vrmlstr l) _ (lit "[") [sep; sfstring_vrmlstr a] eq_refl) as [z ->].
    cbn [app List.concat]. rewrite escape_spec. exists sep. eexists. split; [|exact Sep].
    rewrite <- !app_comm_cons. reflexivity.
  - cbn [map join]. rewrite escape_spec. exists [32%N]. eexists. split; [reflexivity|exact sp].
Qed.
Definition garbled (pre tx : text) : text := lit "[ " ++ pre ++ tx.
Lemma garbled_errs lv l pre k : ok_lv lv -> l <> [] -> sep_text pre -> follow k ->
  errs (NT G_Field) (garbled pre (mfstring_vrmlstr lv l) ++ k).
Proof.
  intros LV L Hp Hf. apply e_nt. rewrite Field_rule. apply e_alt1. cbn [sq]. unfold garbled. rewrite <- !app_assoc.
  change (lit "[ ") with (lit "[" ++ [32%N]). rewrite <- !app_assoc.
  eapply e_seq2; [apply r_lit; reflexivity|].
  destruct l as [|a [|b l]]; [congruence| |].
  - (* one string: taken as an item; then no closing bracket follows *)
    assert (E : mfstring_vrmlstr lv [a] = sfstring_vrmlstr a).
    { unfold mfstring_vrmlstr. cbn [map List.length fold_right]. cbv zeta. cbn [join]. destruct (60 <? _); [cbn [List.concat app]; apply app_nil_r|]. reflexivity. }
    rewrite E, escape_spec. destruct (follow_facts k Hf) as (w & k' & -> & Hw & N & F & H93).
    eapply e_seq2; [apply (r_ts (32%N :: pre)); [reflexivity|apply sep_blank; [reflexivity|exact Hp]|apply no_sep_head; reflexivity]|].
    set (bd := List.concat (map esc_char a)). 
    destruct (item_parse (IStr bd)) with (w := w) (k := k') as [_ R]; auto.
    { intros n [=]. }
    { exists a. apply escape_body. }
    eapply e_seq2; [eapply r_starS; [apply R; discriminate|apply r_star0; apply f_seq; exact F|reflexivity]|].
    apply e_seq. apply e_cut. apply f_lit. apply no_head_strip. exact H93.
  - destruct (mf_several lv (a :: b :: l) LV) as (w & r & -> & Hw); [cbn; lia|].
    eapply e_seq2; [apply (r_ts (32%N :: pre)); [reflexivity|apply sep_blank; [reflexivity|exact Hp]|apply no_sep_head; reflexivity]|].
    set (s := (lit "[" ++ w ++ 34%N :: r) ++ k).
    assert (F : fails alt_br s).
    { unfold alt_br, s. cbn [al]. rewrite <- !app_assoc. repeat apply f_alt.
      - apply f_nt. cbn [rule sq]. eapply f_seq2; [apply r_lit; reflexivity|].
        eapply f_seq2; [apply (r_ts w); [reflexivity|exact Hw|apply no_sep_head; reflexivity]|].
        eapply f_seq2; [apply r_star0; apply f_seq; apply f_alt; [apply f_vector; reflexivity|apply no_num_letter; reflexivity]|].
        apply f_lit. reflexivity.
      - apply no_num_letter. reflexivity.
      - apply f_nt. apply f_alt; apply f_lit; reflexivity.
      - apply p_string_fail. reflexivity.
      - apply f_use. reflexivity.
      - apply f_script; reflexivity.
      - apply f_node_noname; [reflexivity|]. apply f_name. reflexivity. }
    eapply e_seq2; [apply r_star0; apply f_seq; exact F|]. apply e_seq. apply e_cut. apply f_lit. reflexivity.
Qed.
(** *** bad field values, bad lists of attributes, bad nodes *)
Definition bad_field (t : text) : Prop := good_start t /\ exists pre c r, t = pre ++ c :: r /\ sep_text pre /\ no_sep (c :: r) /\
  (forall k, follow k -> errs (NT G_Field) (c :: r ++ k)) /\ forall k, strip (lit "IS") (c :: r ++ k) = None.
Lemma bad_garbled lv l pre : ok_lv lv -> l <> [] -> sep_text pre -> bad_field (garbled pre (mfstring_vrmlstr lv l)).
Proof.
  intros LV L Hp. split.
  - exists [], 91%N. eexists. split; [reflexivity|]. split; [constructor|]. split; [reflexivity|discriminate].
  - exists [], 91%N. eexists. split; [reflexivity|]. split; [constructor|]. split; [apply no_sep_head; reflexivity|]. split.
    + intros k Hk. exact (garbled_errs lv l pre k LV L Hp Hk).
    + intros k. reflexivity.
Qed.
Lemma bad_item_start t : bad_item t -> exists c r, t = c :: r /\ name_char c = true.
Proof.
  intros (d & gi & r & -> & H & _). pose proof (open_head (fun c => negb (name_char c)) d gi r H) as Q.
  destruct (opening d gi ++ r) as [|c s] eqn:E.
  - exfalso. unfold opening in E. apply app_eq_nil in E as [E _]. apply app_eq_nil in E as [_ E]. apply app_eq_nil in E as [_ E]. discriminate.
  - exists c, s. split; [reflexivity|]. cbn in Q. destruct (name_char c); [reflexivity|]. exfalso.
    assert (negb false = false); [|discriminate]. apply Q. intros x Hx. apply negb_true_iff. exact Hx.
Qed.
Lemma name_char_start c : name_char c = true -> (blank c || (c =? 35)%N)%bool = false /\ c <> 123%N.
Proof.
  intros H. split.
  - destruct (blank c || (c =? 35)%N)%bool eqn:E; [|reflexivity]. exfalso.
    assert (name_char c = false); [|congruence]. clear H. revert E. unfold blank, name_char.
    rewrite !orb_true_iff, !andb_true_iff, !N.leb_le, !N.eqb_eq.
    intros [[[->|H]| ->]| ->]; try reflexivity.
    assert ((c <=? 16)%N = true) as -> by (apply N.leb_le; lia). reflexivity.
  - intros ->. discriminate.
Qed.
Lemma bad_single t : bad_item t -> bad_field t.
Proof.
  intros B. destruct (bad_item_start t B) as (c & r & E & Hc). destruct (name_char_start c Hc) as [C1 C2]. split.
  - exists [], c, r. rewrite E. split; [reflexivity|]. split; [constructor|]. auto.
  - exists [], c, r. rewrite E. split; [reflexivity|]. split; [constructor|]. split; [apply good_no_sep; exact C1|]. split.
    + intros k _. rewrite app_comm_cons, <- E. apply e_nt. rewrite Field_rule. apply e_alt2.
      * apply f_seq. apply f_lit. apply no_head_strip. rewrite E. unfold no_head. cbn. apply N.eqb_neq. intros ->. discriminate.
      * apply e_seq. apply e_seq. apply bad_pl. exact B.
    + intros k. rewrite app_comm_cons, <- E. destruct B as (d & gi & r' & -> & H & _). rewrite <- app_assoc.
      apply open_kw; [exact H|cbn; auto 20|discriminate].
Qed.
(** a list of nodes with a bad one *)
Lemma bad_list ld ts is t rest : sep_text ld -> Forall2 item_text ts is -> ~ In SNull is -> bad_item t ->
  bad_field (lit "[ " ++ List.concat (map (fun t => (10%N :: ld) ++ t) ts) ++ (10%N :: ld) ++ t ++ rest).
Proof.
  intros Hl F Nn B. split.
  - exists [], 91%N. eexists. split; [reflexivity|]. split; [constructor|]. split; [reflexivity|discriminate].
  - exists [], 91%N. eexists. split; [reflexivity|]. split; [constructor|]. split; [apply no_sep_head; reflexivity|]. split.
    + intros k _. destruct (items_text ld ld ts is Hl Hl F Nn) as (w & its & E & Hw & Ok & Sk).
      assert (E2 : ([32%N] ++ List.concat (map (fun t0 => (10%N :: ld) ++ t0) ts) ++ (10%N :: ld) ++ t ++ rest) ++ k =
        (32%N :: 10%N :: w) ++ show_items its ++ t ++ rest ++ k).
      { rewrite <- !app_assoc. rewrite (app_assoc (List.concat _)), E, <- !app_assoc. reflexivity. }
      match goal with |- errs _ ?x => replace x with (lit "[" ++ (32%N :: 10%N :: w) ++ show_items its ++ t ++ rest ++ k) by (rewrite <- E2; reflexivity) end.
      apply e_nt. rewrite Field_rule. apply e_alt1. cbn [sq]. eapply e_seq2; [apply r_lit; reflexivity|].
      assert (N1 : no_sep (t ++ rest ++ k)) by (apply bad_no_sep; exact B).
      eapply e_seq2; [apply (r_ts (32%N :: 10%N :: w)); [reflexivity| |]|].
      { apply sep_blank; [reflexivity|]. apply sep_nl_. exact Hw. }
      { eapply items_no_sep; [apply (Ok (t ++ rest ++ k))|exact N1]. }
      apply e_seq. clear E E2 Sk. pose proof (bad_br t (rest ++ k) B) as Bk. specialize (Ok (t ++ rest ++ k)). revert Ok Bk N1. generalize (t ++ rest ++ k). clear - its.
      intros kk Ok Bk Nk. induction its as [|i w l IH]; cbn [show_items app].
      * apply e_star. apply e_seq. exact Bk.
      * cbn [ok_items] in Ok. destruct Ok as (Hnb & Hi & Hw & Hl). rewrite <- !app_assoc.
        destruct (proj1 doc_parse i w (show_items l ++ kk) Hi Hw) as [_ R].
        { eapply items_no_sep; eauto. }
        eapply e_star2; [exact (R (Hnb eq_refl))|]. apply IH. exact Hl.
    + intros k. reflexivity.
Qed.
(** attributes up to and including a bad one *)
Definition closing (k : text) : Prop := exists w k', k = 10%N :: w ++ 125%N :: k' /\ sep_text w.
Definition bad_attrs (b : text) : Prop := forall k, closing k -> no_sep (b ++ k) /\ fails alt_pl (b ++ k) /\ errs body_e (b ++ k).
Definition body_item := al (NT G_Proto) [NT G_ExternProto; NT G_ROUTE; NT G_Attr].
Lemma attr_alone nm w k X : no_kw (nm ++ w ++ k) -> errs (NT G_Attr) (nm ++ w ++ k) -> X = nm ++ w ++ k -> errs body_item X.
Proof.
  intros K E ->. destruct (f_kw3 _ K) as (A & B & C). unfold body_item. cbn [al]. do 3 (apply e_alt2; [assumption|]). exact E.
Qed.
Lemma bad_attr_first nm t rest : safe_name nm = true -> bad_field t -> (forall k, closing k -> follow (rest ++ k)) ->
  bad_attrs (nm ++ [9%N] ++ t ++ rest).
Proof.
  intros Hn (Gs & pre & c & r & -> & Hp & Nc & B & Is) Hr k Hk. rewrite <- !app_assoc. specialize (Hr k Hk).
  destruct (next_facts (nm ++ 9%N :: (pre ++ c :: r) ++ rest ++ k)) as (N1 & _ & _ & N2).
  { exists nm, (pre ++ c :: r), (rest ++ k). auto. }
  rewrite <- app_assoc in N1, N2. split; [exact N1|]. split; [exact N2|].
  apply e_star. change (nm ++ [9%N] ++ pre ++ (c :: r) ++ rest ++ k) with (nm ++ (9%N :: pre) ++ c :: r ++ rest ++ k).
  eapply attr_alone; [| |reflexivity]; [apply safe_no_kw; [exact Hn|reflexivity]|].
  apply e_nt. cbn [rule sq]. eapply e_seq2; [apply (r_name nm); [reflexivity|apply safe_is_name; exact Hn|reflexivity]|].
  destruct Gs as (p2 & c2 & r2 & E & Hp2 & Hc2 & _).
  assert (Nk : no_sep (c :: r ++ rest ++ k)).
  { destruct (sep_unique pre (c :: r) p2 (c2 :: r2)) as [_ E3]; auto; [apply good_no_sep; exact Hc2|]. injection E3 as <- <-.
    apply good_no_sep. exact Hc2. }
  eapply e_seq2; [apply (r_ts (9%N :: pre)); [reflexivity|apply sep_blank; [reflexivity|exact Hp]|exact Nk]|].
  apply e_seq. apply e_alt2; [apply f_seq; apply f_lit; apply Is|]. apply B. exact Hr.
Qed.
Lemma bad_attr_later nm t l w b : safe_name nm = true -> fld_text t l -> sep_text w -> bad_attrs b ->
  bad_attrs (nm ++ [9%N] ++ t ++ (10%N :: w) ++ b).
Proof.
  intros Hn Ft Hw B k Hk. rewrite <- !app_assoc. destruct (B k Hk) as (N & F & E).
  destruct (next_facts (nm ++ 9%N :: t ++ (10%N :: w) ++ b ++ k)) as (N1 & _ & _ & N2).
  { exists nm, t, ((10%N :: w) ++ b ++ k). split; [reflexivity|]. split; [exact Hn|]. eapply fld_good; eauto. }
  split; [exact N1|]. split; [exact N2|]. destruct Ft as (pre & t' & -> & Hp & H). destruct (H w (b ++ k) Hw) as (fv & Es & Ok & _).
  rewrite <- app_assoc. rewrite (app_assoc t'), <- Es.
  eapply e_star2; [|exact E]. cbn [al].
  assert (Kw : no_kw (nm ++ [9%N] ++ pre ++ show_field fv ++ b ++ k)) by (apply safe_no_kw; [exact Hn|reflexivity]).
  destruct (f_kw3 _ Kw) as (A1 & A2 & A3). do 3 (apply r_alt2; [assumption|]).
  apply r_nt; [reflexivity|reflexivity|]. cbn [rule sq].
  eapply r_seq; [apply (r_name nm); [reflexivity|apply safe_is_name; exact Hn|reflexivity]| |reflexivity].
  eapply r_seq; [apply (r_ts (9%N :: pre)); [reflexivity|apply sep_blank; [reflexivity|exact Hp]|apply field_no_sep; exact Ok]| |reflexivity].
  eapply r_seq0; [|apply r_ts0; exact N].
  apply r_alt2; [apply f_seq; apply f_lit; apply is_fail_field; exact Ok|].
  apply (proj1 (proj2 (proj2 (proj2 doc_parse)))); auto.
Qed.
Lemma bad_node d gi w b rest : ok_open d gi -> sep_text w -> bad_attrs b -> closing rest ->
  bad_item (opening d gi ++ (10%N :: w) ++ b ++ rest).
Proof.
  intros H Hw B Hr. exists d, gi. eexists. split; [reflexivity|]. split; [exact H|]. intros k.
  assert (Hk : closing (rest ++ k)).
  { destruct Hr as (u & k' & -> & Hu). exists u, (k' ++ k). split; [|exact Hu]. cbn. rewrite <- app_assoc. reflexivity. }
  destruct (B _ Hk) as (N & _ & E).
  replace ((opening d gi ++ (10%N :: w) ++ b ++ rest) ++ k) with (opening d gi ++ (10%N :: w) ++ b ++ rest ++ k)
    by (rewrite <- !app_assoc; reflexivity).
  apply r_open; [exact H|apply sep_nl_; exact Hw|exact N|]. cbn [sq]. apply e_seq. exact E.
Qed.
(** *** the file *)
Lemma bad_file ts is fw t rest : sep_text fw -> Forall2 item_text ts is ->
  Forall (fun i => match i with SNode _ _ _ | SUse _ => True | _ => False end) is -> bad_item t ->
  forall h, ~ In 10%N h -> errs (rule G_vrmlFile) (h ++ [10%N] ++ List.concat (map (fun t => t ++ 10%N :: fw) ts) ++ t ++ rest).
Proof.
  intros Hf F Nn B h Hh. cbn [rule sq].
  eapply e_seq2 with (X := [T G_header [] []]).
  { apply r_nt; [reflexivity|reflexivity|]. exists h, []. split; [|reflexivity]. cbn [rule].
    apply p_star_cls; [apply not_nl; exact Hh|reflexivity]. }
  apply e_seq. apply e_nt. cbn [rule].
  assert (Q : let K := List.concat (map (fun t => t ++ 10%N :: fw) ts) ++ t ++ rest in
    (no_sep K /\ no_head 34 K /\ no_head 93 K) /\ forall w, sep_text w -> errs (Star (NT G_rootItem)) (w ++ K));
    [|apply (proj2 Q [10%N]); apply sep_nl_; constructor].
  cbv zeta. induction F as [|u i ts is Hu F IH].
  - cbn [map List.concat app]. split; [split; [apply bad_no_sep; exact B|]; destruct B as (d & gi & r & -> & Ho & _); rewrite <- app_assoc; split; (apply open_head; [exact Ho|]; intros c Hc; apply N.eqb_eq in Hc; subst; reflexivity)|]. intros w Hw. apply e_star. apply e_nt. cbn [rule sq].
    eapply e_seq2; [apply (r_ts w); [reflexivity|exact Hw|apply bad_no_sep; exact B]|]. apply e_seq. apply bad_root. exact B.
  - inversion Nn as [|? ? Ni Nn']; subst. destruct (IH Nn') as [(N1 & N34 & N93) E1].
    destruct (Hu fw Hf) as (it & cw & E2 & Hcw & Hok & Hsk).
    assert (R : exists r, show_root r = show_item it /\ (forall k, ok_root r (cw ++ k))).
    { destruct it as [n|b| |b|u' nm|n]; cbn [sk_item] in Hsk; subst i; try contradiction.
      - exists (RUse u' nm). split; [reflexivity|exact Hok].
      - exists (RNode n). split; [reflexivity|exact Hok]. }
    destruct R as (r & R1 & R2). cbn [map List.concat].
    set (K := List.concat (map (fun t0 => t0 ++ 10%N :: fw) ts) ++ t ++ rest) in *.
    replace (((u ++ 10%N :: fw) ++ List.concat (map (fun t0 => t0 ++ 10%N :: fw) ts)) ++ t ++ rest) with (show_root r ++ cw ++ K).
    2: { rewrite R1. unfold K. rewrite (app_assoc (show_item it)), <- E2, <- !app_assoc. reflexivity. }
    assert (N2 : no_sep (show_root r ++ cw ++ K)) by (apply root_no_sep; apply R2).
    split; [split; [exact N2|]; split; (apply root_no_head; [apply R2|reflexivity])|]. intros w Hw. eapply e_star2; [|exact (E1 [] sep_nil)].
    apply r_nt; [reflexivity|reflexivity|]. cbn [rule sq].
    eapply r_seq; [apply (r_ts w); [reflexivity|exact Hw|exact N2]| |reflexivity].
    apply (proj1 root_parse_mut); [apply R2|exact Hcw|exact N1|exact N34|exact N93].
Qed.
