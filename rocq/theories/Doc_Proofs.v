(** Every well-formed document parses, to a tree that does not depend on the
    text between its tokens. *)
From Verif Require Import Base Text Grammar_Model Grammar_Proofs Lex_Spec Lex_Proofs Doc_Spec.
Local Open Scope nat_scope.
Local Open Scope list_scope.

(** *** trees without the text of composite productions *)
Definition keeps (n : nt) : bool :=
  match n with
  | G_name | G_USE | G_IS | G_nodegi | G_SFNumber | G_SFBool | G_CHARNODBLQUOTE
  | G_SIMPLEBACKSLASH | G_ESCAPEDCHAR | G_dataType | G_fieldExposure | G_eventDirection | G_SFString => true
  | _ => false
  end.
Fixpoint erase (t : tree) : tree :=
  match t with T n s l => T n (if keeps n then s else []) (map erase l) end.

Definition tname (nm : text) : tree := T G_name nm [].
Definition et_type (ty : text) : tree := T G_dataType ty [tname (skipn 2 ty)].
Fixpoint et_item (i : sitem) : tree :=
  match i with
  | SNum n => T G_SFNumber n []
  | SBool b => T G_SFBool (lit (if b then "TRUE" else "FALSE")) []
  | SNull => T G_SFNull [] []
  | SStr b => T G_SFString (34%N :: b ++ [34%N]) (pieces [] b)
  | SUse nm => T G_USE nm [tname nm]
  | SNode d gi l =>
      T G_Node [] ((match d with None => [] | Some nm => [tname nm] end) ++
                   T G_nodegi gi [tname gi] ::
                   map (fun p => T G_Attr [] [tname (fst p); et_val (snd p)]) l)
  | SScript d l =>
      T G_Script [] ((match d with None => [] | Some nm => [tname nm] end) ++ map et_sel l)
  end
with et_val (v : sval) : tree :=
  match v with
  | SVal l => T G_Field [] (map et_item l)
  | SIs pn => T G_IS pn [tname pn]
  end
with et_sel (e : ssel) : tree :=
  match e with
  | SSField ex ty nm v =>
      T G_ScriptFieldDecl [] [T G_fieldExposure (exposure ex) []; et_type ty; tname nm; et_val v]
  | SSEvent out ty nm pn =>
      T G_ScriptEventDecl [] ([T G_eventDirection (direction out) []; et_type ty; tname nm] ++
                              match pn with None => [] | Some pn => [T G_IS pn [tname pn]] end)
  | SSAttr nm v => T G_Attr [] [tname nm; et_val v]
  end.
Definition et_decl (d : sdecl) : tree :=
  match d with
  | SDField ex ty nm l =>
      T G_fieldDecl [] [T G_fieldExposure (exposure ex) []; et_type ty; tname nm; T G_Field [] (map et_item l)]
  | SDEvent out ty nm => T G_eventDecl [] [T G_eventDirection (direction out) []; et_type ty; tname nm]
  end.
Definition et_xdecl (d : sxdecl) : tree :=
  match d with
  | SXField ex ty nm => T G_extFieldDecl [] [T G_fieldExposure (exposure ex) []; et_type ty; tname nm]
  | SXEvent out ty nm => T G_eventDecl [] [T G_eventDirection (direction out) []; et_type ty; tname nm]
  end.
Definition et_str (b : text) : tree := T G_SFString (34%N :: b ++ [34%N]) (pieces [] b).
Fixpoint et_sroot (r : sroot) : tree :=
  match r with
  | SRItem i => et_item i
  | SRRoute a af b bf => T G_ROUTE [] [tname a; tname af; tname b; tname bf]
  | SRProto gi ds l =>
      T G_Proto [] (T G_nodegi gi [tname gi] :: map et_decl ds ++
                    [T G_vrmlScene [] (map (fun r => T G_rootItem [] [et_sroot r]) l)])
  | SRExtern gi ds url =>
      T G_ExternProto [] (T G_nodegi gi [tname gi] :: map et_xdecl ds ++ [T G_ExtProtoURL [] (map et_str url)])
  end.
Definition et_root (r : sroot) : tree := T G_rootItem [] [et_sroot r].

(** *** parsing up to erasure *)
Definition reads (e : expr) (s r : text) (X : list tree) : Prop :=
  exists c l, parses e s (POk c r l) /\ map erase l = X.
Definition fails (e : expr) (s : text) : Prop := parses e s PFail.

Lemma r_seq a b s r1 r2 X1 X2 X : reads a s r1 X1 -> reads b r1 r2 X2 -> X = X1 ++ X2 ->
  reads (Seq a b) s r2 X.
Proof.
  intros (c1 & l1 & H1 & E1) (c2 & l2 & H2 & E2) ->. exists (c1 ++ c2), (l1 ++ l2).
  split; [eapply p_seq; eauto|]. rewrite map_app. congruence.
Qed.
Lemma r_seq0 a b s r1 r2 X : reads a s r1 X -> reads b r1 r2 [] -> reads (Seq a b) s r2 X.
Proof. intros H1 H2. eapply r_seq; [exact H1|exact H2|]. symmetry. apply app_nil_r. Qed.
Lemma r_star0 a s : fails a s -> reads (Star a) s s [].
Proof. intros H. exists [], []. split; [apply p_star0; exact H|reflexivity]. Qed.
Lemma r_starS a s r1 r2 X1 X2 X : reads a s r1 X1 -> reads (Star a) r1 r2 X2 -> X = X1 ++ X2 ->
  reads (Star a) s r2 X.
Proof.
  intros (c1 & l1 & H1 & E1) (c2 & l2 & H2 & E2) ->. exists (c1 ++ c2), (l1 ++ l2).
  split; [eapply p_starS; eauto|]. rewrite map_app. congruence.
Qed.
Lemma r_alt1 a b s r X : reads a s r X -> reads (Alt a b) s r X.
Proof. intros (c & l & H & E). exists c, l. split; [apply p_alt1; [exact H|discriminate]|exact E]. Qed.
Lemma r_alt2 a b s r X : fails a s -> reads b s r X -> reads (Alt a b) s r X.
Proof. intros Ha (c & l & H & E). exists c, l. split; [apply p_alt2; auto|exact E]. Qed.
Lemma r_opt0 a s : fails a s -> reads (Opt a) s s [].
Proof. intros H. exists [], []. split; [apply p_opt0; exact H|reflexivity]. Qed.
Lemma r_opt1 a s r X : reads a s r X -> reads (Opt a) s r X.
Proof. intros (c & l & H & E). exists c, l. split; [apply p_opt1; [exact H|discriminate]|exact E]. Qed.
Lemma r_cut a s r X : reads a s r X -> reads (Cut a) s r X.
Proof. intros (c & l & H & E). exists c, l. split; [apply p_cut; [exact H|discriminate]|exact E]. Qed.
Lemma r_nt n s r X : keeps n = false -> reported n = true -> reads (rule n) s r X ->
  reads (NT n) s r [T n [] X].
Proof.
  intros Hk Hr (c & l & H & E). apply p_nt in H. rewrite Hr in H. do 2 eexists. split; [exact H|].
  cbn. rewrite Hk, E. reflexivity.
Qed.
Lemma r_lit x s r : s = x ++ r -> reads (Lit x) s r [].
Proof. intros ->. exists x, []. split; [apply p_lit; apply strip_ok|reflexivity]. Qed.
Lemma r_ts w k s : s = w ++ k -> sep_text w -> no_sep k -> reads TS s k [].
Proof. intros -> Hw Hk. exists w, []. split; [apply p_ts; auto|reflexivity]. Qed.
Lemma r_ts0 k : no_sep k -> reads TS k k [].
Proof. intros Hk. apply (r_ts [] k k); auto. constructor. Qed.
Lemma r_name nm k s : s = nm ++ k -> is_name nm = true -> ends_name k = true ->
  reads (NT G_name) s k [tname nm].
Proof. intros -> Hn Hk. do 2 eexists. split; [apply p_name; auto|reflexivity]. Qed.
Lemma r_wrap n nm k s : rule n = NT G_name -> keeps n = true -> reported n = true ->
  s = nm ++ k -> is_name nm = true -> ends_name k = true -> reads (NT n) s k [T n nm [tname nm]].
Proof.
  intros Hr Hk Hrep -> Hn He. exists nm, [T n nm [tname nm]]. split.
  - pose proof (p_nt n (nm ++ k) nm k [T G_name nm []]) as P. rewrite Hr, Hrep in P. apply P.
    apply p_name; auto.
  - cbn. rewrite Hk. reflexivity.
Qed.

(** *** failures *)
Lemma f_seq a b s : fails a s -> fails (Seq a b) s.
Proof. intros H. apply p_seq_bad; [exact H|auto]. Qed.
Lemma f_seq2 a b s r X : reads a s r X -> fails b r -> fails (Seq a b) s.
Proof. intros (c & l & H & _) Hb. eapply p_seq_bad2; eauto. Qed.
Lemma f_alt a b s : fails a s -> fails b s -> fails (Alt a b) s.
Proof. intros. apply p_alt2; auto. Qed.
Lemma f_nt n s : fails (rule n) s -> fails (NT n) s.
Proof. intros H. apply p_nt_bad; [exact H|auto]. Qed.
Lemma f_lit x s : strip x s = None -> fails (Lit x) s.
Proof. apply p_lit_fail. Qed.

(** *** where texts start *)
Lemma kw_strip p nm k : forallb name_char p = true -> starts_with p nm = false -> ends_name k = true ->
  strip p (nm ++ k) = None.
Proof.
  intros Hp Hs Hk. destruct (strip p (nm ++ k)) as [r|] eqn:E; [|reflexivity]. exfalso.
  apply strip_app in E. revert p Hp Hs E. induction nm as [|c nm IH]; intros p Hp Hs E.
  - cbn in E. destruct p as [|x p]; [discriminate|]. subst k. cbn in Hk, Hp.
    apply negb_true_iff in Hk. rewrite Hk in Hp. discriminate.
  - destruct p as [|x p]; [discriminate|]. cbn in E. injection E as <- E.
    cbn in Hp. apply andb_true_iff in Hp as [_ Hp]. apply (IH p); auto.
    destruct (starts_with p nm) eqn:Es; [|reflexivity]. exfalso.
    apply starts_with_spec in Es as [t ->]. enough (starts_with (c :: p) (c :: p ++ t) = true) by congruence.
    apply starts_with_spec. exists t. reflexivity.
Qed.
Definition no_kw (s : text) : Prop := forall p, In p keywords -> strip p s = None.
Definition no_num (s : text) : Prop := heads digit_or_dot (unsigned s) = false.
Definition no_head (x : N) (s : text) : Prop := heads (fun c => c =? x)%N s = false.

Lemma stop_ends k : stop k = true -> ends_name k = true.
Proof. destruct k; cbn; auto. intros H. apply andb_true_iff in H as [H _]. exact H. Qed.
Lemma is_name_head nm k : is_name nm = true -> heads (fun c => negb (digit c) && name_char c)%bool (nm ++ k) = true.
Proof. destruct nm; [discriminate|]. cbn. intros H. apply andb_true_iff in H as [H _]. exact H. Qed.
Lemma name_not f s : heads (fun c => negb (digit c) && name_char c)%bool s = true ->
  (forall c, f c = true -> name_char c = false) -> heads f s = false.
Proof.
  destruct s as [|c s]; cbn; [discriminate|]. intros H Hf. destruct (f c) eqn:E; [|reflexivity].
  apply Hf in E. apply andb_true_iff in H as [_ H]. congruence.
Qed.
Lemma name_head x nm k : is_name nm = true -> name_char x = false -> no_head x (nm ++ k).
Proof.
  intros Hn Hx. apply name_not; [apply is_name_head; exact Hn|]. intros c Hc. apply N.eqb_eq in Hc. congruence.
Qed.
Lemma name_no_sep nm k : is_name nm = true -> no_sep (nm ++ k).
Proof.
  intros Hn. apply no_sep_head. apply name_not; [apply is_name_head; exact Hn|].
  intros c. unfold blank, name_char. rewrite !orb_true_iff, !andb_true_iff, !N.leb_le, !N.eqb_eq.
  intros [[[->|H]| ->]| ->]; try reflexivity.
  assert ((c <=? 16)%N = true) as -> by (apply N.leb_le; lia). reflexivity.
Qed.
Lemma safe_is_name nm : safe_name nm = true -> is_name nm = true.
Proof. unfold safe_name. rewrite !andb_true_iff. tauto. Qed.
Lemma keywords_names : forallb (forallb name_char) keywords = true.
Proof. reflexivity. Qed.
Lemma safe_no_kw nm k : safe_name nm = true -> ends_name k = true -> no_kw (nm ++ k).
Proof.
  unfold safe_name. rewrite !andb_true_iff. intros [[_ Hk] _] He p Hp.
  pose proof keywords_names as Hn. rewrite forallb_forall in Hk, Hn. specialize (Hk p Hp). specialize (Hn p Hp).
  apply kw_strip; auto. apply negb_true_iff. exact Hk.
Qed.
Lemma unsigned_app nm : unsigned nm = [] -> forall k, unsigned (nm ++ k) = unsigned k.
Proof.
  induction nm as [|c nm IH]; cbn; auto. destruct (sign c); [auto|discriminate].
Qed.
Lemma unsigned_app2 nm c r k : unsigned nm = c :: r -> unsigned (nm ++ k) = c :: r ++ k.
Proof.
  induction nm as [|x nm IH]; cbn; [discriminate|]. destruct (sign x); [auto|]. intros [= -> ->]. reflexivity.
Qed.
Lemma unsigned_incl f nm : forallb f nm = true -> forallb f (unsigned nm) = true.
Proof.
  induction nm as [|c nm IH]; cbn; auto. intros H. destruct (sign c); [|exact H].
  apply andb_true_iff in H as [_ H]. auto.
Qed.
Lemma is_name_all nm : is_name nm = true -> forallb name_char nm = true.
Proof.
  destruct nm; [discriminate|]. cbn. rewrite !andb_true_iff. tauto.
Qed.
Lemma safe_no_num nm k : safe_name nm = true -> stop k = true -> no_num (nm ++ k).
Proof.
  unfold safe_name. rewrite !andb_true_iff. intros [[Hn _] Hl] Hk. unfold no_num.
  unfold like_number in Hl. apply negb_true_iff in Hl.
  destruct (unsigned nm) as [|c r] eqn:E.
  - rewrite unsigned_app; auto. destruct k as [|x k]; [reflexivity|]. cbn in *.
    apply andb_true_iff in Hk as [Hx Hd]. apply negb_true_iff in Hx, Hd.
    destruct (sign x) eqn:Es; [apply sign_name in Es; congruence|]. cbn.
    destruct (digit_or_dot x) eqn:Ed; [|reflexivity]. apply dod_name in Ed as [Ed|Ed]; [congruence|].
    subst. discriminate.
  - rewrite (unsigned_app2 _ _ _ _ E). cbn. unfold digit_or_dot. rewrite Hl. cbn.
    apply is_name_all in Hn. apply (unsigned_incl _ _) in Hn. rewrite E in Hn. cbn in Hn.
    destruct (N.eqb_spec c 46); [subst; discriminate|reflexivity].
Qed.

(** *** the alternatives of a field value *)
Definition use_e := sq (tk "USE") [TS; NT G_USE; TS].
Definition alt_br := al (NT G_vector) [NT G_SFNumber; NT G_SFBool; NT G_SFString; use_e; NT G_Script; NT G_Node].
Definition alt_pl := al (NT G_SFNumber) [NT G_SFBool; NT G_SFNull; NT G_SFString; use_e; NT G_Script; NT G_Node].
Definition def_e := Opt (sq (tk "DEF") (TS :: cuts [NT G_name; TS])).
Definition body_e := Star (al (NT G_Proto) [NT G_ExternProto; NT G_ROUTE; NT G_Attr]).
Lemma Field_rule : rule G_Field =
  Alt (sq (tk "[") [TS; Star (Seq alt_br TS); Cut (tk "]"); TS]) (Plus (Seq alt_pl TS)).
Proof. reflexivity. Qed.
Definition node_e := Alt (NT G_Script) (NT G_Node).
Definition sbody_e := Star (al (NT G_ScriptFieldDecl) [NT G_ScriptEventDecl; NT G_Proto; NT G_ExternProto; NT G_ROUTE; NT G_Attr]).
Lemma Script_rule : rule G_Script =
  Seq def_e (sq (tk "Script") (TS :: cuts [tk "{"; TS; sbody_e; TS; tk "}"; TS])).
Proof. reflexivity. Qed.
Lemma Node_rule : rule G_Node =
  Seq def_e (sq (NT G_nodegi) [TS; tk "{"; TS; body_e; TS; Cut (tk "}"); Cut TS]).
Proof. reflexivity. Qed.

Lemma f_vector s : no_head 91 s -> fails (NT G_vector) s.
Proof.
  intros H. apply f_nt. cbn [rule sq]. apply f_seq. apply f_lit. destruct s as [|c s]; [reflexivity|].
  unfold no_head in H. cbn [heads] in H. cbn [tk lit]. cbv -[N.eqb] in H |- *. rewrite N.eqb_sym, H. reflexivity.
Qed.
Lemma f_bool s : no_kw s -> fails (NT G_SFBool) s.
Proof. intros H. apply f_nt. apply f_alt; apply f_lit; apply H; cbn; auto 20. Qed.
Lemma f_null s : strip (lit "NULL") s = None -> fails (NT G_SFNull) s.
Proof. intros H. apply f_nt. apply f_seq. apply f_lit. exact H. Qed.
Lemma f_use s : strip (lit "USE") s = None -> fails use_e s.
Proof. intros H. apply f_seq. apply f_lit. exact H. Qed.
Lemma r_nodef s : strip (lit "DEF") s = None -> reads def_e s s [].
Proof. intros H. apply r_opt0. apply f_seq. apply f_lit. exact H. Qed.
Lemma f_script s : strip (lit "DEF") s = None -> strip (lit "Script") s = None -> fails (NT G_Script) s.
Proof.
  intros H1 H2. apply f_nt. cbn [rule sq]. eapply f_seq2; [apply r_nodef; exact H1|].
  apply f_seq. apply f_lit. exact H2.
Qed.
Lemma f_name s : heads (fun c => negb (digit c) && name_char c)%bool s = false -> fails (NT G_name) s.
Proof. apply p_name_fail. Qed.
Lemma f_gi s : fails (NT G_name) s -> fails (NT G_nodegi) s.
Proof. intros H. apply f_nt. exact H. Qed.
Lemma f_node_noname s : strip (lit "DEF") s = None -> fails (NT G_name) s -> fails (NT G_Node) s.
Proof.
  intros H1 H2. apply f_nt. rewrite Node_rule. eapply f_seq2; [apply r_nodef; exact H1|].
  apply f_seq. apply f_gi. exact H2.
Qed.
(** a name that is not followed by an opening brace is no node *)
Lemma f_node_attr nm w k : is_name nm = true -> strip (lit "DEF") (nm ++ w ++ k) = None ->
  ends_name (w ++ k) = true -> sep_text w -> no_sep k -> no_head 123 k -> fails (NT G_Node) (nm ++ w ++ k).
Proof.
  intros Hn Hd He Hw Hk Hb. apply f_nt. rewrite Node_rule. eapply f_seq2; [apply r_nodef; exact Hd|].
  cbn [sq]. eapply f_seq2; [eapply r_wrap; [reflexivity|reflexivity|reflexivity|reflexivity|exact Hn|exact He]|].
  eapply f_seq2; [apply (r_ts w k _ eq_refl Hw Hk)|]. apply f_seq. apply f_lit.
  destruct k as [|c k]; [reflexivity|].
  unfold no_head in Hb. cbn [heads] in Hb. cbv -[N.eqb] in Hb |- *. rewrite N.eqb_sym, Hb. reflexivity.
Qed.
(** nothing but a field value item starts with these *)
Definition closer (s : text) : Prop := exists c r, s = c :: r /\ (c = 93%N \/ c = 125%N).
Lemma closer_no_kw s : closer s -> no_kw s.
Proof.
  intros (c & r & -> & Hc) p Hp. unfold keywords in Hp. cbn [map In] in Hp.
  repeat (destruct Hp as [<-|Hp]; [destruct Hc as [->| ->]; reflexivity|]). contradiction.
Qed.
Lemma closer_no_sep s : closer s -> no_sep s.
Proof. intros (c & r & -> & [->| ->]); apply no_sep_head; reflexivity. Qed.
Lemma closer_fail_br s : closer s -> fails alt_br s.
Proof.
  intros H. pose proof (closer_no_kw s H) as Hk. destruct H as (c & r & -> & Hc).
  unfold alt_br. cbn [al]. repeat apply f_alt.
  - apply f_vector. unfold no_head. destruct Hc as [->| ->]; reflexivity.
  - apply p_number_fail. destruct Hc as [->| ->]; reflexivity.
  - apply f_bool. exact Hk.
  - apply p_string_fail. destruct Hc as [->| ->]; reflexivity.
  - apply f_use. apply Hk. cbn; auto 20.
  - apply f_script; apply Hk; cbn; auto 20.
  - apply f_node_noname; [apply Hk; cbn; auto 20|]. apply f_name. destruct Hc as [->| ->]; reflexivity.
Qed.
Lemma closer_fail_pl s : closer s -> fails alt_pl s.
Proof.
  intros H. pose proof (closer_no_kw s H) as Hk. destruct H as (c & r & -> & Hc).
  unfold alt_pl. cbn [al]. repeat apply f_alt.
  - apply p_number_fail. destruct Hc as [->| ->]; reflexivity.
  - apply f_bool. exact Hk.
  - apply f_null. apply Hk. cbn; auto 20.
  - apply p_string_fail. destruct Hc as [->| ->]; reflexivity.
  - apply f_use. apply Hk. cbn; auto 20.
  - apply f_script; apply Hk; cbn; auto 20.
  - apply f_node_noname; [apply Hk; cbn; auto 20|]. apply f_name. destruct Hc as [->| ->]; reflexivity.
Qed.
(** the next attribute is not taken for another item of the value before it *)
Lemma attr_fail_pl nm w k : safe_name nm = true -> sep_text w -> stop (w ++ k) = true -> no_sep k ->
  no_head 123 k -> fails alt_pl (nm ++ w ++ k).
Proof.
  intros Hn Hw Hs Hk Hb. pose proof (safe_is_name _ Hn) as Hn'.
  pose proof (safe_no_kw nm (w ++ k) Hn (stop_ends _ Hs)) as Hkw.
  unfold alt_pl. cbn [al]. repeat apply f_alt.
  - apply p_number_fail. apply safe_no_num; auto.
  - apply f_bool. exact Hkw.
  - apply f_null. apply Hkw. cbn; auto 20.
  - apply p_string_fail. apply name_head; [exact Hn'|reflexivity].
  - apply f_use. apply Hkw. cbn; auto 20.
  - apply f_script; apply Hkw; cbn; auto 20.
  - apply f_node_attr; auto; [apply Hkw; cbn; auto 20|apply stop_ends; exact Hs].
Qed.

(** *** items *)
Lemma r_use w nm w' k : sep_text w -> is_name nm = true -> ends_name (w' ++ k) = true ->
  sep_text w' -> no_sep k -> reads use_e (lit "USE" ++ w ++ nm ++ w' ++ k) k [T G_USE nm [tname nm]].
Proof.
  intros Hw Hn He Hw' Hk. unfold use_e. cbn [sq].
  eapply r_seq; [apply r_lit; reflexivity| |reflexivity].
  eapply r_seq; [apply (r_ts w); [reflexivity|exact Hw|apply name_no_sep; exact Hn]| |reflexivity].
  eapply r_seq; [eapply r_wrap; [reflexivity|reflexivity|reflexivity|reflexivity|exact Hn|exact He]| |reflexivity].
  apply (r_ts w'); auto.
Qed.
Lemma no_num_letter c s : (sign c || digit_or_dot c)%bool = false -> fails (NT G_SFNumber) (c :: s).
Proof. intros H. apply no_sign_number. exact H. Qed.

Scheme item_ind' := Induction for item Sort Prop
  with node_ind' := Induction for node Sort Prop
  with attrs_ind' := Induction for attrs Sort Prop
  with fieldv_ind' := Induction for fieldv Sort Prop
  with items_ind' := Induction for items Sort Prop
  with selems_ind' := Induction for selems Sort Prop.
Combined Scheme doc_mutind from item_ind', node_ind', attrs_ind', fieldv_ind', items_ind', selems_ind'.

(** text starts of items, attributes and nodes *)
Lemma node_no_sep n k : ok_node n -> no_sep (show_node n ++ k).
Proof.
  destruct n as [d gi w1 w2 l|d w1 w2 l]; intros [Hd _]; cbn [show_node];
    destruct d as [[[w nm] w']|]; cbn [show_def]; rewrite <- !app_assoc, ?app_nil_l;
    try (apply no_sep_head; reflexivity).
  - apply name_no_sep. apply safe_is_name. exact Hd.
Qed.
Lemma number_head n : is_number n -> exists c r, n = c :: r /\ (sign c || digit_or_dot c)%bool = true.
Proof.
  intros [sg x h Hs Hx Hh Hn|sg d Hs Hd Hn|sg d e x Hs Hd Hn He Hx Hnx]; destruct sg as [|c sg]; cbn in *;
    try (apply andb_true_iff in Hs as [Hs _]; do 2 eexists; split; [reflexivity|]; rewrite Hs; reflexivity).
  - do 2 eexists; split; reflexivity.
  - destruct d as [|c d]; [discriminate|]. cbn in Hd. apply andb_true_iff in Hd as [Hd _].
    do 2 eexists; split; [reflexivity|]. rewrite Hd. apply orb_true_r.
  - destruct d as [|c d]; [discriminate|]. cbn in Hd. apply andb_true_iff in Hd as [Hd _].
    do 2 eexists; split; [reflexivity|]. rewrite Hd. apply orb_true_r.
Qed.
Lemma number_no f n k : is_number n -> (forall c, f c = true -> name_char c = false /\ c <> 46%N) ->
  heads f (n ++ k) = false.
Proof.
  intros H Hf. destruct (number_head n H) as (c & r & -> & Hc). cbn. destruct (f c) eqn:E; [|reflexivity].
  apply Hf in E as [E1 E2]. apply expo_name in Hc as [Hc|Hc]; congruence.
Qed.
Lemma item_no_sep i k : ok_item i k -> no_sep (show_item i ++ k).
Proof.
  destruct i as [n|[]| |b|w nm|n]; cbn [ok_item show_item]; intros H.
  - apply no_sep_head. destruct H as [H _]. apply number_no; [exact H|].
    intros c. unfold blank, name_char. rewrite !orb_true_iff, !andb_true_iff, !N.leb_le, !N.eqb_eq.
    intros [[[->|Hc]| ->]| ->]; try (split; [reflexivity|discriminate]). split; [|lia].
    assert ((c <=? 16)%N = true) as -> by (apply N.leb_le; lia). reflexivity.
  - apply no_sep_head. reflexivity.
  - apply no_sep_head. reflexivity.
  - apply no_sep_head. reflexivity.
  - apply no_sep_head. reflexivity.
  - apply no_sep_head. reflexivity.
  - apply node_no_sep. exact H.
Qed.
Lemma items_no_sep br l k : ok_items br l k -> no_sep k -> no_sep (show_items l ++ k).
Proof.
  destruct l as [|i w l]; cbn; [auto|]. intros (_ & H & _) _. rewrite <- !app_assoc. apply item_no_sep. exact H.
Qed.
Lemma field_no_sep f k : ok_field f k -> no_sep (show_field f ++ k).
Proof.
  destruct f as [w l w'|l]; cbn [ok_field show_field].
  - intros _. apply no_sep_head. reflexivity.
  - intros [Hl H]. destruct l as [|i w l]; [congruence|]. cbn in *. destruct H as (_ & H & _).
    rewrite <- !app_assoc. apply item_no_sep. exact H.
Qed.
Lemma node_no_head x n k : ok_node n -> name_char x = false -> no_head x (show_node n ++ k).
Proof.
  destruct n as [d gi w1 w2 l|d w1 w2 l]; intros [Hd _] Hx; cbn [show_node];
  destruct d as [[[w nm] w']|]; cbn [show_def]; rewrite <- !app_assoc, ?app_nil_l.
  - unfold no_head. change (((68 =? x) = false)%N). apply N.eqb_neq. intros <-. discriminate.
  - apply name_head; [|exact Hx]. apply safe_is_name. exact Hd.
  - unfold no_head. change (((68 =? x) = false)%N). apply N.eqb_neq. intros <-. discriminate.
  - unfold no_head. change (((83 =? x) = false)%N). apply N.eqb_neq. intros <-. discriminate.
Qed.
Lemma item_no_brace i k : ok_item i k -> no_head 123 (show_item i ++ k).
Proof.
  destruct i as [n|[]| |b|w nm|n]; cbn [ok_item show_item]; intros H; try reflexivity.
  - destruct H as [H _]. apply number_no; [exact H|]. intros c Hc. apply N.eqb_eq in Hc. subst.
    split; [reflexivity|discriminate].
  - apply node_no_head; [exact H|reflexivity].
Qed.
Lemma field_no_brace f k : ok_field f k -> no_head 123 (show_field f ++ k).
Proof.
  destruct f as [w l w'|l]; cbn [ok_field show_field].
  - intros _. reflexivity.
  - intros [Hl H]. destruct l as [|i w l]; [congruence|]. cbn in *. destruct H as (_ & H & _).
    rewrite <- !app_assoc. apply item_no_brace. exact H.
Qed.
Lemma sep_ends w k : sep_text w -> w <> [] -> ends_name (w ++ k) = true.
Proof.
  intros [|c v Hc Hv|b v Hb Hv] Hn; [congruence| |reflexivity].
  cbn. unfold blank, name_char in *. rewrite !orb_true_iff, !andb_true_iff, !N.leb_le, !N.eqb_eq in Hc.
  destruct Hc as [[->|Hc]| ->]; try reflexivity.
  assert ((c <=? 16)%N = true) as -> by (apply N.leb_le; lia). reflexivity.
Qed.
Lemma sep_stop w k : sep_text w -> w <> [] -> stop (w ++ k) = true.
Proof.
  intros [|c v Hc Hv|b v Hb Hv] Hn; [congruence| |reflexivity].
  cbn. unfold blank, name_char in *. rewrite !orb_true_iff, !andb_true_iff, !N.leb_le, !N.eqb_eq in Hc.
  destruct Hc as [[->|Hc]| ->]; try reflexivity.
  assert ((c <=? 16)%N = true) as -> by (apply N.leb_le; lia). cbn.
  destruct (N.eqb_spec c 46); [lia|reflexivity].
Qed.
Lemma attrs_no_sep l k : ok_attrs l k -> closer k -> no_sep (show_attrs l ++ k).
Proof.
  destruct l as [|nm w f l|nm w w1 pn w2 l]; cbn [ok_attrs show_attrs].
  - intros _ H. apply closer_no_sep. exact H.
  - intros (H & _) _. rewrite <- !app_assoc. apply name_no_sep. apply safe_is_name. exact H.
  - intros (H & _) _. rewrite <- !app_assoc. apply name_no_sep. apply safe_is_name. exact H.
Qed.
Lemma attrs_fail_pl l k : ok_attrs l k -> closer k -> fails alt_pl (show_attrs l ++ k).
Proof.
  destruct l as [|nm w f l|nm w w1 pn w2 l]; cbn [ok_attrs show_attrs].
  - intros _ H. apply closer_fail_pl. exact H.
  - intros (Hn & Hw & Hs & Hf & Hl) _. rewrite <- !app_assoc. apply attr_fail_pl; auto.
    + apply field_no_sep. exact Hf.
    + apply field_no_brace. exact Hf.
  - intros (Hn & Hw & Hne & _) _. rewrite <- !app_assoc. apply attr_fail_pl; auto; [|apply no_sep_head|]; try reflexivity.
    apply sep_stop; auto.
Qed.
(** "IS" does not start a field value *)
Lemma is_fail_node n k : ok_node n -> stop k = true \/ True -> strip (lit "IS") (show_node n ++ k) = None.
Proof.
  destruct n as [d gi w1 w2 l|d w1 w2 l]; intros [Hd [Hw1 _]] _; cbn [show_node];
  destruct d as [[[w nm] w']|]; cbn [show_def]; rewrite <- !app_assoc, ?app_nil_l; try reflexivity.
  apply (safe_no_kw gi); [exact Hd| |cbn; auto 20].
  destruct Hw1 as [|c v Hc Hv|b v Hb Hv]; cbn; try reflexivity.
  clear -Hc. unfold blank, name_char in *. rewrite !orb_true_iff, !andb_true_iff, !N.leb_le, !N.eqb_eq in Hc.
  destruct Hc as [[->|Hc]| ->]; try reflexivity.
  assert ((c <=? 16)%N = true) as -> by (apply N.leb_le; lia). reflexivity.
Qed.
Lemma is_fail_item i k : ok_item i k -> strip (lit "IS") (show_item i ++ k) = None.
Proof.
  destruct i as [n|[]| |b|w nm|n]; cbn [ok_item show_item]; intros H; try reflexivity.
  - destruct H as [H _]. destruct (number_head n H) as (c & r & -> & Hc). cbn -[N.eqb].
    change (73 =? c)%N with (73 =? c)%N. destruct (N.eqb_spec 73 c); [subst; discriminate|reflexivity].
  - apply is_fail_node; auto.
Qed.
Lemma is_fail_field f k : ok_field f k -> strip (lit "IS") (show_field f ++ k) = None.
Proof.
  destruct f as [w l w'|l]; cbn [ok_field show_field].
  - intros _. reflexivity.
  - intros [Hl H]. destruct l as [|i w l]; [congruence|]. cbn in *. destruct H as (_ & H & _).
    rewrite <- !app_assoc. apply is_fail_item. exact H.
Qed.
(** only the first character of what follows matters *)
Lemma stop_ext a c r : stop (a ++ [c]) = true -> stop (a ++ c :: r) = true.
Proof. destruct a; auto. Qed.
Lemma ends_ext a c r : ends_name (a ++ [c]) = true -> ends_name (a ++ c :: r) = true.
Proof. destruct a; auto. Qed.
Lemma ok_ext_mut :
  (forall i w c r, ok_item i (w ++ [c]) -> ok_item i (w ++ c :: r)) /\
  (forall n : node, True) /\
  (forall l w c r, ok_attrs l (w ++ [c]) -> ok_attrs l (w ++ c :: r)) /\
  (forall f w c r, ok_field f (w ++ [c]) -> ok_field f (w ++ c :: r)) /\
  (forall l br w c r, ok_items br l (w ++ [c]) -> ok_items br l (w ++ c :: r)) /\
  (forall l w c r, ok_selems l (w ++ [c]) -> ok_selems l (w ++ c :: r)).
Proof.
  apply doc_mutind; try (intros; exact I); intros.
  - cbn in *. destruct H. split; [auto|]. apply stop_ext. auto.
  - exact H.
  - cbn in *. intuition auto. apply ends_ext. auto.
  - exact H0.
  - cbn [ok_attrs] in *. destruct H1 as (H1 & H2 & H3 & H4 & H5). repeat split; auto.
    + rewrite !app_assoc in *. apply stop_ext. exact H3.
    + rewrite !app_assoc in *. apply H. exact H4.
  - cbn [ok_attrs] in *. destruct H0 as (H1 & H2 & H3 & H4 & H5 & H6 & H7 & H8). repeat split; auto.
    rewrite !app_assoc in *. apply ends_ext. exact H7.
  - cbn in *. exact H0.
  - cbn in *. destruct H0. split; auto.
  - cbn [ok_items] in *. destruct H1 as (H1 & H2 & H3 & H4). repeat split; auto.
    rewrite !app_assoc in *. apply H. exact H2.
  - cbn [ok_selems] in *. destruct H1 as (H1 & H2 & H3 & H4). split; [exact H1|]. repeat split; auto.
    + rewrite !app_assoc in *. apply ends_ext. exact H2.
    + rewrite !app_assoc in *. apply H. exact H3.
  - cbn [ok_selems] in *. destruct H0 as (H1 & H2 & H3 & H4 & H5 & H6 & H7). split; [exact H1|]. repeat split; auto.
    rewrite !app_assoc in *. apply ends_ext. exact H6.
  - cbn [ok_selems] in *. destruct H0 as (H1 & H2 & H3). split; [exact H1|]. repeat split; auto.
    rewrite !app_assoc in *. apply ends_ext. exact H2.
  - cbn [ok_selems] in *. destruct H0 as (H1 & H2 & H3 & H4 & H5 & H6 & H7). split; [exact H1|]. repeat split; auto.
    rewrite !app_assoc in *. apply ends_ext. exact H6.
  - cbn [ok_selems] in *. destruct H1 as (H1 & H2 & H3 & H4 & H5 & H6). repeat split; auto.
    + rewrite !app_assoc in *. apply stop_ext. exact H4.
    + rewrite !app_assoc in *. apply H. exact H5.
  - cbn [ok_selems] in *. destruct H0 as (H1 & H2 & H3 & H4 & H5 & H6 & H7 & H8 & H9). repeat split; auto.
    rewrite !app_assoc in *. apply ends_ext. exact H8.
Qed.
Lemma ok_selems_ext l c r : ok_selems l [c] -> ok_selems l (c :: r).
Proof. apply (proj2 (proj2 (proj2 (proj2 (proj2 ok_ext_mut)))) l []). Qed.
Lemma ok_attrs_ext l c r : ok_attrs l [c] -> ok_attrs l (c :: r).
Proof. apply (proj1 (proj2 (proj2 ok_ext_mut)) l []). Qed.
Lemma ok_items_ext br l c r : ok_items br l [c] -> ok_items br l (c :: r).
Proof. apply (proj1 (proj2 (proj2 (proj2 (proj2 ok_ext_mut)))) l br []). Qed.

Lemma sep_or w k : sep_text w -> stop k = true -> stop (w ++ k) = true.
Proof. intros Hw Hk. destruct w as [|c w]; [exact Hk|]. apply sep_stop; [exact Hw|discriminate]. Qed.

(** DEF w nm w' *)
Lemma r_def w nm w' k : sep_text w -> is_name nm = true -> sep_text w' -> w' <> [] -> no_sep k ->
  reads def_e (lit "DEF" ++ w ++ nm ++ w' ++ k) k [tname nm].
Proof.
  intros Hw Hn Hw' Hne Hk. apply r_opt1. cbn [sq cuts map].
  eapply r_seq; [apply r_lit; reflexivity| |reflexivity].
  eapply r_seq; [apply (r_ts w); [reflexivity|exact Hw|apply name_no_sep; exact Hn]| |reflexivity].
  eapply r_seq; [apply r_cut; apply (r_name nm _ _ eq_refl Hn); apply sep_ends; auto| |reflexivity].
  apply r_cut. apply (r_ts w'); auto.
Qed.
Lemma brace_stop w k : sep_text w -> stop (w ++ lit "{" ++ k) = true.
Proof. intros H. apply sep_or; [exact H|reflexivity]. Qed.
Lemma f_script_node d gi w1 w2 l k : ok_node (Nd d gi w1 w2 l) -> fails (NT G_Script) (show_node (Nd d gi w1 w2 l) ++ k).
Proof.
  intros [Hd [Hw1 _]]. cbn [show_node].
  destruct d as [[[w nm] w']|]; cbn [show_def]; rewrite <- !app_assoc, ?app_nil_l.
  - destruct Hd as (Hw & Hn & Hw' & Hne & Hg & Hsc). apply f_nt. cbn [rule sq cuts map].
    eapply f_seq2; [apply r_def; eauto; apply name_no_sep; exact Hg|].
    apply f_seq. apply f_lit. apply kw_strip; [reflexivity|exact Hsc|].
    apply stop_ends. apply brace_stop. exact Hw1.
  - pose proof (safe_no_kw gi (w1 ++ lit "{" ++ w2 ++ show_attrs l ++ lit "}" ++ k) Hd) as Hk.
    apply f_script; apply Hk; try (cbn; auto 20); apply stop_ends; apply brace_stop; exact Hw1.
Qed.
Lemma node_no_kw1 n k p : ok_node n -> In p keywords -> p <> lit "DEF" -> p <> lit "Script" ->
  strip p (show_node n ++ k) = None.
Proof.
  destruct n as [d gi w1 w2 l|d w1 w2 l]; intros [Hd [Hw1 _]] Hp Hp2 Hp3; cbn [show_node];
  destruct d as [[[w nm] w']|]; cbn [show_def]; rewrite <- !app_assoc, ?app_nil_l;
  try (unfold keywords in Hp; cbn [map In] in Hp;
    repeat (destruct Hp as [<-|Hp]; [first [reflexivity|congruence]|]); contradiction).
  - apply (safe_no_kw gi); [exact Hd|apply stop_ends; apply brace_stop; exact Hw1|exact Hp].
Qed.
Lemma f_num_node n k : ok_node n -> fails (NT G_SFNumber) (show_node n ++ k).
Proof.
  destruct n as [d gi w1 w2 l|d w1 w2 l]; intros [Hd [Hw1 _]]; cbn [show_node];
  destruct d as [[[w nm] w']|]; cbn [show_def]; rewrite <- !app_assoc, ?app_nil_l;
    try (apply no_num_letter; reflexivity).
  - apply p_number_fail. apply safe_no_num; [exact Hd|apply brace_stop; exact Hw1].
Qed.
Lemma f_bool_node n k : ok_node n -> fails (NT G_SFBool) (show_node n ++ k).
Proof.
  intros H. apply f_nt. apply f_alt; apply f_lit; apply node_no_kw1; auto; try discriminate; cbn; auto 20.
Qed.

(** Proto, ExternProto and ROUTE start with their keyword *)
Lemma f_kw3 s : no_kw s -> fails (NT G_Proto) s /\ fails (NT G_ExternProto) s /\ fails (NT G_ROUTE) s.
Proof.
  intros H. repeat split; apply f_nt; apply f_seq; apply f_lit; apply H; cbn; auto 20.
Qed.
Lemma closer_fail_body s : closer s -> fails (al (NT G_Proto) [NT G_ExternProto; NT G_ROUTE; NT G_Attr]) s.
Proof.
  intros H. destruct (f_kw3 s (closer_no_kw s H)) as (A & B & C). cbn [al]. repeat apply f_alt; auto.
  apply f_nt. apply f_seq. apply f_name. destruct H as (c & r & -> & [->| ->]); reflexivity.
Qed.

Lemma alt_br_last s r X : fails (NT G_vector) s -> fails (NT G_SFNumber) s -> fails (NT G_SFBool) s ->
  fails (NT G_SFString) s -> fails use_e s -> reads node_e s r X ->
  reads alt_br s r X.
Proof. intros. unfold alt_br. cbn [al]. repeat (apply r_alt2; [assumption|]). assumption. Qed.
Lemma alt_pl_last s r X : fails (NT G_SFNumber) s -> fails (NT G_SFBool) s -> fails (NT G_SFNull) s ->
  fails (NT G_SFString) s -> fails use_e s -> reads node_e s r X ->
  reads alt_pl s r X.
Proof. intros. unfold alt_pl. cbn [al]. repeat (apply r_alt2; [assumption|]). assumption. Qed.

Lemma r_number n k s : s = n ++ k -> is_number n -> stop k = true -> reads (NT G_SFNumber) s k [T G_SFNumber n []].
Proof. intros -> Hn Hk. do 2 eexists. split; [apply p_number; auto|reflexivity]. Qed.
Lemma r_bool (b : bool) k : reads (NT G_SFBool) (lit (if b then "TRUE" else "FALSE") ++ k) k
  [T G_SFBool (lit (if b then "TRUE" else "FALSE")) []].
Proof.
  exists (lit (if b then "TRUE" else "FALSE")), [T G_SFBool (lit (if b then "TRUE" else "FALSE")) []].
  split; [|reflexivity]. apply (p_nt G_SFBool). cbn [rule]. destruct b.
  - apply p_alt1; [|discriminate]. apply p_lit. reflexivity.
  - apply p_alt2; [apply p_lit_fail; reflexivity|]. apply p_lit. reflexivity.
Qed.
Lemma pieces_erase b : forall rn, map erase (pieces rn b) = pieces rn b.
Proof.
  assert (Hfl : forall rn, map erase (flush rn) = flush rn) by (intros []; reflexivity).
  enough (H : forall n b, List.length b <= n -> forall rn, map erase (pieces rn b) = pieces rn b)
    by (intros rn; eapply H; eauto).
  clear b. induction n as [|n IH]; intros b Hb rn; destruct b as [|c b]; cbn [pieces]; try apply Hfl;
    cbn in Hb; try lia.
  destruct (plain_char c); [apply IH; lia|]. rewrite map_app, Hfl. f_equal.
  destruct b as [|c2 b]; [reflexivity|]. cbn in Hb.
  destruct (plain_char c2); cbn [map]; f_equal; apply IH; cbn; lia.
Qed.
Lemma r_string b s k : string_body b s -> reads (NT G_SFString) ((34%N :: b ++ [34%N]) ++ k) k [T G_SFString (34%N :: b ++ [34%N]) (pieces [] b)].
Proof.
  intros H. do 2 eexists. split.
  - cbn [app]. rewrite <- app_assoc. apply (p_string b s k H).
  - cbn. rewrite pieces_erase. reflexivity.
Qed.
Lemma r_null w k : sep_text w -> no_sep k -> reads (NT G_SFNull) (lit "NULL" ++ w ++ k) k [T G_SFNull [] []].
Proof.
  intros Hw Hk. apply r_nt; [reflexivity|reflexivity|]. cbn [rule].
  eapply r_seq; [apply r_lit; reflexivity|apply (r_ts w); auto|reflexivity].
Qed.

Lemma item_parse i : (forall n, i = INode n -> forall w k, ok_node n -> sep_text w -> no_sep k ->
    reads node_e (show_node n ++ w ++ k) k [et_item (sk_node n)]) ->
  forall w k, ok_item i (w ++ k) -> sep_text w -> no_sep k ->
  reads (Seq alt_pl TS) (show_item i ++ w ++ k) k [et_item (sk_item i)] /\
  (i <> INull -> reads (Seq alt_br TS) (show_item i ++ w ++ k) k [et_item (sk_item i)]).
Proof.
  intros IH w k Hi Hw Hk. pose proof (r_ts w k _ eq_refl Hw Hk) as Rts. pose proof (r_ts0 k Hk) as Rts0.
  destruct i as [n|b| |b|w' nm|n]; cbn [ok_item show_item sk_item] in *.
  - destruct Hi as [Hn Hs]. pose proof (r_number n (w ++ k) _ eq_refl Hn Hs) as R.
    split; [|intros _]; (eapply r_seq0; [|exact Rts]).
    + apply r_alt1. exact R.
    + cbn [al alt_br]. unfold alt_br. cbn [al]. apply r_alt2; [|apply r_alt1; exact R].
      apply f_vector. apply number_no; [exact Hn|]. intros c Hc. apply N.eqb_eq in Hc. subst.
      split; [reflexivity|discriminate].
  - pose proof (r_bool b (w ++ k)) as R.
    split; [|intros _]; (eapply r_seq0; [|exact Rts]); unfold alt_pl, alt_br; cbn [al].
    + destruct b; (apply r_alt2; [apply no_num_letter; reflexivity|]; apply r_alt1; exact R).
    + destruct b; (apply r_alt2; [apply f_vector; reflexivity|]; apply r_alt2; [apply no_num_letter; reflexivity|];
        apply r_alt1; exact R).
  - split; [|congruence]. eapply r_seq0; [|exact Rts0]. unfold alt_pl. cbn [al].
    apply r_alt2; [apply no_num_letter; reflexivity|].
    apply r_alt2; [apply f_nt; apply f_alt; apply f_lit; reflexivity|]. apply r_alt1.
    apply r_null; auto.
  - destruct Hi as [s Hs]. pose proof (r_string b s (w ++ k) Hs) as R.
    split; [|intros _]; (eapply r_seq0; [|exact Rts]); unfold alt_pl, alt_br; cbn [al].
    + apply r_alt2; [apply no_num_letter; reflexivity|].
      apply r_alt2; [apply f_nt; apply f_alt; apply f_lit; reflexivity|].
      apply r_alt2; [apply f_null; reflexivity|]. apply r_alt1. exact R.
    + apply r_alt2; [apply f_vector; reflexivity|].
      apply r_alt2; [apply no_num_letter; reflexivity|].
      apply r_alt2; [apply f_nt; apply f_alt; apply f_lit; reflexivity|]. apply r_alt1. exact R.
  - destruct Hi as (Hw' & Hn & He). pose proof (r_use w' nm w k Hw' Hn He Hw Hk) as R.
    rewrite <- !app_assoc.
    split; [|intros _]; (eapply r_seq0; [|exact Rts0]); unfold alt_pl, alt_br; cbn [al].
    + apply r_alt2; [apply no_num_letter; reflexivity|].
      apply r_alt2; [apply f_nt; apply f_alt; apply f_lit; reflexivity|].
      apply r_alt2; [apply f_null; reflexivity|].
      apply r_alt2; [apply p_string_fail; reflexivity|]. apply r_alt1. exact R.
    + apply r_alt2; [apply f_vector; reflexivity|].
      apply r_alt2; [apply no_num_letter; reflexivity|].
      apply r_alt2; [apply f_nt; apply f_alt; apply f_lit; reflexivity|].
      apply r_alt2; [apply p_string_fail; reflexivity|]. apply r_alt1. exact R.
  - specialize (IH n eq_refl w k Hi Hw Hk).
    split; [|intros _]; (eapply r_seq0; [|exact Rts0]).
    + apply alt_pl_last; auto.
      * apply f_num_node; exact Hi.
      * apply f_bool_node; exact Hi.
      * apply f_null. apply node_no_kw1; [exact Hi|cbn; auto 20|discriminate|discriminate].
      * apply p_string_fail. apply node_no_head; [exact Hi|reflexivity].
      * apply f_use. apply node_no_kw1; [exact Hi|cbn; auto 20|discriminate|discriminate].
    + apply alt_br_last; auto.
      * apply f_vector. apply node_no_head; [exact Hi|reflexivity].
      * apply f_num_node; exact Hi.
      * apply f_bool_node; exact Hi.
      * apply p_string_fail. apply node_no_head; [exact Hi|reflexivity].
      * apply f_use. apply node_no_kw1; [exact Hi|cbn; auto 20|discriminate|discriminate].
Qed.

Lemma r_exposure ex k : reads (NT G_fieldExposure) (exposure ex ++ k) k [T G_fieldExposure (exposure ex) []].
Proof.
  exists (exposure ex), [T G_fieldExposure (exposure ex) []]. split; [|reflexivity].
  apply (p_nt G_fieldExposure). cbn [rule]. destruct ex.
  - apply p_alt2; [apply p_lit_fail; reflexivity|]. apply p_lit. reflexivity.
  - apply p_alt1; [|discriminate]. apply p_lit. reflexivity.
Qed.
Lemma r_direction out k : reads (NT G_eventDirection) (direction out ++ k) k [T G_eventDirection (direction out) []].
Proof.
  exists (direction out), [T G_eventDirection (direction out) []]. split; [|reflexivity].
  apply (p_nt G_eventDirection). cbn [rule]. destruct out.
  - apply p_alt2; [apply p_lit_fail; reflexivity|]. apply p_lit. reflexivity.
  - apply p_alt1; [|discriminate]. apply p_lit. reflexivity.
Qed.
Lemma f_exposure out k : fails (NT G_fieldExposure) (direction out ++ k).
Proof. apply f_nt. destruct out; apply f_alt; apply f_lit; reflexivity. Qed.
Lemma r_type ty k : ok_type ty -> ends_name k = true -> reads (NT G_dataType) (ty ++ k) k [et_type ty].
Proof.
  intros [(b & -> & Hb)|(b & -> & Hb)] Hk; rewrite <- app_assoc.
  - exists (lit "SF" ++ b), [et_type (lit "SF" ++ b)]. split; [|reflexivity].
    apply (p_nt G_dataType _ _ _ [tname b]). cbn [rule]. eapply (p_seq _ _ _ (lit "SF") _ [] b k [tname b]).
    + apply p_opt1; [|discriminate]. apply p_alt1; [|discriminate]. apply p_lit. reflexivity.
    + apply p_name; auto.
  - exists (lit "MF" ++ b), [et_type (lit "MF" ++ b)]. split; [|reflexivity].
    apply (p_nt G_dataType _ _ _ [tname b]). cbn [rule]. eapply (p_seq _ _ _ (lit "MF") _ [] b k [tname b]).
    + apply p_opt1; [|discriminate]. apply p_alt2; [apply p_lit_fail; reflexivity|]. apply p_lit. reflexivity.
    + apply p_name; auto.
Qed.
Lemma type_no_sep ty k : ok_type ty -> no_sep (ty ++ k).
Proof. intros [(b & -> & _)|(b & -> & _)]; apply no_sep_head; reflexivity. Qed.
Lemma type_no_brace ty k : ok_type ty -> no_head 123 (ty ++ k).
Proof. intros [(b & -> & _)|(b & -> & _)]; reflexivity. Qed.
(** *** the elements of a Script *)
Lemma f_decl_like nm k : decl_like nm = false -> ends_name k = true ->
  fails (NT G_ScriptFieldDecl) (nm ++ k) /\ fails (NT G_ScriptEventDecl) (nm ++ k).
Proof.
  unfold decl_like. cbn [map existsb]. rewrite !orb_false_iff. intros (A & B & C & D & _) He.
  split; apply f_nt; apply f_seq; apply f_nt; apply f_alt; apply f_lit; apply kw_strip; auto.
Qed.
Lemma closer_fail_sbody s : closer s ->
  fails (al (NT G_ScriptFieldDecl) [NT G_ScriptEventDecl; NT G_Proto; NT G_ExternProto; NT G_ROUTE; NT G_Attr]) s.
Proof.
  intros H. pose proof (closer_fail_body s H) as B. cbn [al] in *.
  destruct H as (c & r & -> & Hc).
  apply f_alt; [|apply f_alt; [|exact B]]; apply f_nt; apply f_seq; apply f_nt; apply f_alt; apply f_lit;
      destruct Hc as [->| ->]; reflexivity.
Qed.
Lemma selems_head l k : ok_selems l k -> closer k -> closer (show_selems l ++ k) \/
  exists nm w r, show_selems l ++ k = nm ++ w ++ r /\ safe_name nm = true /\ sep_text w /\ stop (w ++ r) = true /\
    no_sep r /\ no_head 123 r.
Proof.
  destruct l as [|ex w ty w1 nm w2 f l|ex w ty w1 nm w2 w3 pn w4 l|out w ty w1 nm w2 l|out w ty w1 nm w2 w3 pn w4 l|nm w f l|nm w w1 pn w2 l];
    cbn [ok_selems show_selems]; intros H Hk; [left; exact Hk| | | | | |]; right.
  1-4: destruct H as [(Hw & Hne & Ht & _) _].
  - exists (exposure ex), w. eexists. rewrite <- !app_assoc. split; [reflexivity|].
    split; [destruct ex; reflexivity|]. split; [exact Hw|]. split; [apply sep_stop; auto|].
    split; [apply type_no_sep; exact Ht|apply type_no_brace; exact Ht].
  - exists (exposure ex), w. eexists. rewrite <- !app_assoc. split; [reflexivity|].
    split; [destruct ex; reflexivity|]. split; [exact Hw|]. split; [apply sep_stop; auto|].
    split; [apply type_no_sep; exact Ht|apply type_no_brace; exact Ht].
  - exists (direction out), w. eexists. rewrite <- !app_assoc. split; [reflexivity|].
    split; [destruct out; reflexivity|]. split; [exact Hw|]. split; [apply sep_stop; auto|].
    split; [apply type_no_sep; exact Ht|apply type_no_brace; exact Ht].
  - exists (direction out), w. eexists. rewrite <- !app_assoc. split; [reflexivity|].
    split; [destruct out; reflexivity|]. split; [exact Hw|]. split; [apply sep_stop; auto|].
    split; [apply type_no_sep; exact Ht|apply type_no_brace; exact Ht].
  - destruct H as (Hn & _ & Hw & Hs & Hf & _). exists nm, w. eexists. rewrite <- !app_assoc. split; [reflexivity|].
    repeat split; auto; [apply field_no_sep; exact Hf|apply field_no_brace; exact Hf].
  - destruct H as (Hn & _ & Hw & Hne & _). exists nm, w. eexists. rewrite <- !app_assoc. split; [reflexivity|].
    repeat split; auto; [apply sep_stop; auto|apply no_sep_head; reflexivity].
Qed.
Lemma selems_no_sep l k : ok_selems l k -> closer k -> no_sep (show_selems l ++ k).
Proof.
  intros H Hk. destruct (selems_head l k H Hk) as [C|(nm & w & r & -> & Hn & _)]; [apply closer_no_sep; exact C|].
  apply name_no_sep. apply safe_is_name. exact Hn.
Qed.
Lemma selems_fail_pl l k : ok_selems l k -> closer k -> fails alt_pl (show_selems l ++ k).
Proof.
  intros H Hk. destruct (selems_head l k H Hk) as [C|(nm & w & r & -> & Hn & Hw & Hs & Hr & Hb)]; [apply closer_fail_pl; exact C|].
  apply attr_fail_pl; auto.
Qed.
Lemma selems_no_is l k : ok_selems l k -> closer k -> strip (lit "IS") (show_selems l ++ k) = None.
Proof.
  intros H Hk. destruct (selems_head l k H Hk) as [C|(nm & w & r & -> & Hn & Hw & Hs & Hr & Hb)].
  - apply closer_no_kw; [exact C|cbn; auto 20].
  - apply (safe_no_kw nm); [exact Hn|apply stop_ends; exact Hs|cbn; auto 20].
Qed.
(** IS w pn w' of a declaration *)
Lemma r_is w pn w' k : sep_text w -> is_name pn = true -> ends_name (w' ++ k) = true -> sep_text w' -> no_sep k ->
  reads (sq (tk "IS") (TS :: cuts [NT G_IS; TS])) (lit "IS" ++ w ++ pn ++ w' ++ k) k [T G_IS pn [tname pn]].
Proof.
  intros Hw Hn He Hw' Hk. cbn [sq cuts map].
  eapply r_seq; [apply r_lit; reflexivity| |reflexivity].
  eapply r_seq; [apply (r_ts w); [reflexivity|exact Hw|apply name_no_sep; exact Hn]| |reflexivity].
  eapply r_seq0; [apply r_cut; eapply r_wrap; [reflexivity|reflexivity|reflexivity|reflexivity|exact Hn|exact He]|].
  apply r_cut. apply (r_ts w'); auto.
Qed.

Definition et_attr (p : text * sval) : tree := T G_Attr [] [tname (fst p); et_val (snd p)].
Lemma doc_parse :
  (forall i w k, ok_item i (w ++ k) -> sep_text w -> no_sep k ->
     reads (Seq alt_pl TS) (show_item i ++ w ++ k) k [et_item (sk_item i)] /\
     (i <> INull -> reads (Seq alt_br TS) (show_item i ++ w ++ k) k [et_item (sk_item i)])) /\
  (forall n w k, ok_node n -> sep_text w -> no_sep k ->
     reads node_e (show_node n ++ w ++ k) k [et_item (sk_node n)]) /\
  (forall l k, ok_attrs l k -> closer k -> reads body_e (show_attrs l ++ k) k (map et_attr (sk_attrs l))) /\
  (forall f k, ok_field f k -> no_sep k -> fails alt_pl k ->
     reads (NT G_Field) (show_field f ++ k) k [T G_Field [] (map et_item (sk_field f))]) /\
  (forall l k, no_sep k ->
     (ok_items false l k -> fails alt_pl k ->
        reads (Star (Seq alt_pl TS)) (show_items l ++ k) k (map et_item (sk_items l)) /\
        (l <> SNil -> reads (Plus (Seq alt_pl TS)) (show_items l ++ k) k (map et_item (sk_items l)))) /\
     (ok_items true l k -> fails alt_br k ->
        reads (Star (Seq alt_br TS)) (show_items l ++ k) k (map et_item (sk_items l)))) /\
  (forall l k, ok_selems l k -> closer k -> reads sbody_e (show_selems l ++ k) k (map et_sel (sk_selems l))).
Proof.
  apply doc_mutind.
  1-5: intros; apply item_parse; auto; intros; discriminate.
  - intros n IH. apply item_parse. intros n' [= <-]. exact IH.
  - intros d gi w1 w2 l IH w k Hn Hw Hk. pose proof Hn as Hn0. destruct Hn as (Hd & Hw1 & Hw2 & Hl).
    apply r_alt2; [apply f_script_node; exact Hn0|].
    apply r_nt; [reflexivity|reflexivity|]. rewrite Node_rule. cbn [show_node sk_node et_item].
    apply (ok_attrs_ext l 125%N (w ++ k)) in Hl.
    assert (Hcl : closer (125%N :: w ++ k)) by (do 2 eexists; split; [reflexivity|auto]).
    specialize (IH _ Hl Hcl).
    assert (Rgi : is_name gi = true -> reads (sq (NT G_nodegi) [TS; tk "{"; TS; body_e; TS; Cut (tk "}"); Cut TS])
              (gi ++ w1 ++ lit "{" ++ w2 ++ show_attrs l ++ lit "}" ++ w ++ k) k
              (T G_nodegi gi [tname gi] :: map et_attr (sk_attrs l))).
    { intros Hg. cbn [sq]. eapply r_seq; [eapply r_wrap; [reflexivity|reflexivity|reflexivity|reflexivity|exact Hg|]| |].
      { apply stop_ends. apply brace_stop. exact Hw1. }
      2:{ reflexivity. }
      eapply r_seq; [apply (r_ts w1); [reflexivity|exact Hw1|apply no_sep_head; reflexivity]| |reflexivity].
      eapply r_seq; [apply r_lit; reflexivity| |reflexivity].
      eapply r_seq; [apply (r_ts w2); [reflexivity|exact Hw2|]| |reflexivity].
      { apply attrs_no_sep; auto. }
      eapply r_seq; [exact IH| |symmetry; apply app_nil_r].
      eapply r_seq; [apply r_ts0; apply closer_no_sep; exact Hcl| |reflexivity].
      eapply r_seq; [apply r_cut; apply r_lit; reflexivity| |reflexivity].
      apply r_cut. apply (r_ts w); auto. }
    destruct d as [[[w0 nm] w0']|]; cbn [show_def].
    + destruct Hd as (Hw0 & Hnm & Hw0' & Hne & Hg & Hsc). rewrite <- !app_assoc.
      eapply r_seq; [apply r_def; auto; apply name_no_sep; exact Hg|apply Rgi; exact Hg|reflexivity].
    + rewrite <- !app_assoc, app_nil_l. eapply r_seq; [apply r_nodef|apply Rgi|reflexivity].
      * apply (safe_no_kw gi); [exact Hd|apply stop_ends; apply brace_stop; exact Hw1|cbn; auto 20].
      * apply safe_is_name. exact Hd.
  - intros d w1 w2 l IH w k (Hd & Hw1 & Hw2 & Hl) Hw Hk.
    apply r_alt1. apply r_nt; [reflexivity|reflexivity|]. rewrite Script_rule. cbn [show_node sk_node et_item].
    apply (ok_selems_ext l 125%N (w ++ k)) in Hl.
    assert (Hcl : closer (125%N :: w ++ k)) by (do 2 eexists; split; [reflexivity|auto]).
    specialize (IH _ Hl Hcl).
    assert (Rgi : reads (sq (tk "Script") (TS :: cuts [tk "{"; TS; sbody_e; TS; tk "}"; TS]))
              (lit "Script" ++ w1 ++ lit "{" ++ w2 ++ show_selems l ++ lit "}" ++ w ++ k) k (map et_sel (sk_selems l))).
    { cbn [sq cuts map].
      eapply r_seq; [apply r_lit; reflexivity| |reflexivity].
      eapply r_seq; [apply (r_ts w1); [reflexivity|exact Hw1|apply no_sep_head; reflexivity]| |reflexivity].
      eapply r_seq; [apply r_cut; apply r_lit; reflexivity| |reflexivity].
      eapply r_seq; [apply r_cut; apply (r_ts w2); [reflexivity|exact Hw2|]| |reflexivity].
      { apply selems_no_sep; auto. }
      eapply r_seq; [apply r_cut; exact IH| |symmetry; apply app_nil_r].
      eapply r_seq; [apply r_cut; apply r_ts0; apply closer_no_sep; exact Hcl| |reflexivity].
      eapply r_seq; [apply r_cut; apply r_lit; reflexivity| |reflexivity].
      apply r_cut. apply (r_ts w); auto. }
    destruct d as [[[w0 nm] w0']|]; cbn [show_def].
    + destruct Hd as (Hw0 & Hnm & Hw0' & Hne). rewrite <- !app_assoc.
      eapply r_seq; [apply r_def; auto; apply no_sep_head; reflexivity|exact Rgi|reflexivity].
    + rewrite <- !app_assoc, app_nil_l. eapply r_seq; [apply r_nodef; reflexivity|exact Rgi|reflexivity].
  - intros k _ Hk. cbn. apply r_star0. apply closer_fail_body. exact Hk.
  - intros nm w f IHf l IHl k Hok Hk. pose proof Hok as (Hn & Hw & Hs & Hf & Hl).
    cbn [show_attrs sk_attrs map]. rewrite <- !app_assoc.
    pose proof (safe_no_kw nm (w ++ show_field f ++ show_attrs l ++ k) Hn (stop_ends _ Hs)) as Hkw.
    destruct (f_kw3 _ Hkw) as (A & B & C).
    eapply r_starS with (X1 := [et_attr (nm, SVal (sk_field f))]); [|apply IHl; [exact Hl|exact Hk]|reflexivity].
    cbn [al]. do 3 (apply r_alt2; [assumption|]).
    apply r_nt; [reflexivity|reflexivity|]. cbn [rule sq].
    eapply r_seq; [apply (r_name nm); [reflexivity|apply safe_is_name; exact Hn|apply stop_ends; exact Hs]| |reflexivity].
    eapply r_seq; [apply (r_ts w); [reflexivity|exact Hw|apply field_no_sep; exact Hf]| |reflexivity].
    eapply r_seq0; [|apply r_ts0; apply attrs_no_sep; auto].
    apply r_alt2; [apply f_seq; apply f_lit; apply is_fail_field; exact Hf|].
    apply IHf; [exact Hf|apply attrs_no_sep; auto|apply attrs_fail_pl; auto].
  - intros nm w w1 pn w2 l IHl k Hok Hk. pose proof Hok as (Hn & Hw & Hne & Hw1 & Hpn & Hw2 & He & Hl).
    cbn [show_attrs sk_attrs map]. rewrite <- !app_assoc.
    pose proof (sep_stop w (lit "IS" ++ w1 ++ pn ++ w2 ++ show_attrs l ++ k) Hw Hne) as Hs.
    pose proof (safe_no_kw nm _ Hn (stop_ends _ Hs)) as Hkw.
    destruct (f_kw3 _ Hkw) as (A & B & C).
    eapply r_starS with (X1 := [et_attr (nm, SIs pn)]); [|apply IHl; [exact Hl|exact Hk]|reflexivity].
    cbn [al]. do 3 (apply r_alt2; [assumption|]).
    apply r_nt; [reflexivity|reflexivity|]. cbn [rule sq].
    eapply r_seq; [apply (r_name nm); [reflexivity|apply safe_is_name; exact Hn|apply stop_ends; exact Hs]| |reflexivity].
    eapply r_seq; [apply (r_ts w); [reflexivity|exact Hw|apply no_sep_head; reflexivity]| |reflexivity].
    eapply r_seq0; [|apply r_ts0; apply attrs_no_sep; auto].
    apply r_alt1. eapply r_seq; [apply r_lit; reflexivity| |reflexivity].
    eapply r_seq; [apply (r_ts w1); [reflexivity|exact Hw1|apply name_no_sep; exact Hpn]| |reflexivity].
    eapply r_seq0; [eapply r_wrap; [reflexivity|reflexivity|reflexivity|reflexivity|exact Hpn|exact He]|].
    apply (r_ts w2); [reflexivity|exact Hw2|apply attrs_no_sep; auto].
  - intros w l IH w' k (Hw & Hw' & Hl) Hk Hf. apply r_nt; [reflexivity|reflexivity|]. rewrite Field_rule.
    cbn [show_field sk_field]. apply r_alt1. cbn [sq]. rewrite <- !app_assoc.
    apply (ok_items_ext true l 93%N (w' ++ k)) in Hl.
    assert (Hcl : closer (93%N :: w' ++ k)) by (do 2 eexists; split; [reflexivity|auto]).
    eapply r_seq; [apply r_lit; reflexivity| |reflexivity].
    eapply r_seq; [apply (r_ts w); [reflexivity|exact Hw|]| |reflexivity].
    { eapply items_no_sep; [exact Hl|apply closer_no_sep; exact Hcl]. }
    eapply r_seq; [apply (IH (93%N :: w' ++ k)); [apply closer_no_sep; exact Hcl|exact Hl|apply closer_fail_br; exact Hcl]| |].
    + eapply r_seq; [apply r_cut; apply r_lit; reflexivity| |reflexivity]. apply (r_ts w'); auto.
    + symmetry. apply app_nil_r.
  - intros l IH k [Hne Hl] Hk Hf. apply r_nt; [reflexivity|reflexivity|]. rewrite Field_rule.
    cbn [show_field sk_field]. apply r_alt2.
    + apply f_seq. apply f_lit. destruct l as [|i w l]; [congruence|]. cbn [ok_items show_items] in *.
      destruct Hl as (_ & Hi & _). rewrite <- !app_assoc.
      assert (Hb : no_head 91 (show_item i ++ w ++ show_items l ++ k)).
      { destruct i as [n|[]| |b|w0 nm|n]; cbn [ok_item show_item] in *; try reflexivity.
        - apply number_no; [apply Hi|]. intros c Hc. apply N.eqb_eq in Hc. subst. split; [reflexivity|discriminate].
        - apply node_no_head; [exact Hi|reflexivity]. }
      destruct (show_item i ++ w ++ show_items l ++ k) as [|c s]; [reflexivity|].
      unfold no_head in Hb. cbn [heads] in Hb. cbv -[N.eqb] in Hb |- *. rewrite N.eqb_sym, Hb. reflexivity.
    + apply IH; auto.
  - intros k Hk. split; [intros _ Hf; split; [|congruence]|intros _ Hf]; cbn; apply r_star0; apply f_seq; exact Hf.
  - intros i IHi w l IHl k Hk. cbn [show_items sk_items map ok_items]. rewrite <- !app_assoc. split.
    + intros (Hnb & Hi & Hw & Hl) Hf. destruct (IHi w (show_items l ++ k) Hi Hw) as [R _].
      { eapply items_no_sep; eauto. }
      destruct (IHl k Hk) as [[Rl _] _]; auto.
      split; [|intros _].
      * eapply r_starS; [exact R|exact Rl|reflexivity].
      * eapply r_seq; [exact R|exact Rl|reflexivity].
    + intros (Hnb & Hi & Hw & Hl) Hf. destruct (IHi w (show_items l ++ k) Hi Hw) as [_ R].
      { eapply items_no_sep; eauto. }
      eapply r_starS; [exact (R (Hnb eq_refl))|apply IHl; auto|reflexivity].
  - intros k _ Hk. cbn. apply r_star0. apply closer_fail_sbody. exact Hk.
  - intros ex w ty w1 nm w2 f IHf l IHl k Hok Hk. pose proof Hok as ((Hw & Hne & Ht & Hw1 & Hne1 & Hnm & Hw2) & He & Hf & Hl).
    pose proof (selems_no_sep l k Hl Hk) as Hns.
    cbn [show_selems sk_selems map]. rewrite <- !app_assoc.
    eapply r_starS with (X1 := [et_sel (SSField ex ty nm (SVal (sk_field f)))]); [|apply IHl; [exact Hl|exact Hk]|reflexivity].
    cbn [al]. apply r_alt1. apply r_nt; [reflexivity|reflexivity|]. cbn [rule sq cuts map].
    eapply r_seq; [apply r_exposure| |reflexivity].
    eapply r_seq; [apply (r_ts w); [reflexivity|exact Hw|apply type_no_sep; exact Ht]| |reflexivity].
    eapply r_seq; [apply r_cut; apply r_type; [exact Ht|apply sep_ends; auto]| |reflexivity].
    eapply r_seq; [apply r_cut; apply (r_ts w1); [reflexivity|exact Hw1|apply name_no_sep; exact Hnm]| |reflexivity].
    eapply r_seq; [apply r_cut; apply (r_name nm); [reflexivity|exact Hnm|exact He]| |reflexivity].
    eapply r_seq; [apply r_cut; apply (r_ts w2); [reflexivity|exact Hw2|apply field_no_sep; exact Hf]| |reflexivity].
    eapply r_seq0; [apply r_cut|apply r_cut; apply r_ts0; exact Hns].
    apply r_alt2; [apply f_seq; apply f_lit; apply is_fail_field; exact Hf|].
    apply IHf; [exact Hf|exact Hns|apply selems_fail_pl; auto].
  - intros ex w ty w1 nm w2 w3 pn w4 l IHl k Hok Hk.
    pose proof Hok as ((Hw & Hne & Ht & Hw1 & Hne1 & Hnm & Hw2) & Hne2 & Hw3 & Hpn & Hw4 & He & Hl).
    pose proof (selems_no_sep l k Hl Hk) as Hns.
    cbn [show_selems sk_selems map]. rewrite <- !app_assoc.
    eapply r_starS with (X1 := [et_sel (SSField ex ty nm (SIs pn))]); [|apply IHl; [exact Hl|exact Hk]|reflexivity].
    cbn [al]. apply r_alt1. apply r_nt; [reflexivity|reflexivity|]. cbn [rule sq cuts map].
    eapply r_seq; [apply r_exposure| |reflexivity].
    eapply r_seq; [apply (r_ts w); [reflexivity|exact Hw|apply type_no_sep; exact Ht]| |reflexivity].
    eapply r_seq; [apply r_cut; apply r_type; [exact Ht|apply sep_ends; auto]| |reflexivity].
    eapply r_seq; [apply r_cut; apply (r_ts w1); [reflexivity|exact Hw1|apply name_no_sep; exact Hnm]| |reflexivity].
    eapply r_seq; [apply r_cut; apply (r_name nm); [reflexivity|exact Hnm|apply sep_ends; auto]| |reflexivity].
    eapply r_seq; [apply r_cut; apply (r_ts w2); [reflexivity|exact Hw2|apply no_sep_head; reflexivity]| |reflexivity].
    eapply r_seq0; [apply r_cut|apply r_cut; apply r_ts0; exact Hns].
    apply r_alt1. apply r_is; auto.
  - intros ex w ty w1 nm w2 l IHl k Hok Hk.
    pose proof Hok as ((Hw & Hne & Ht & Hw1 & Hne1 & Hnm & Hw2) & He & Hl).
    pose proof (selems_no_sep l k Hl Hk) as Hns.
    cbn [show_selems sk_selems map]. rewrite <- !app_assoc.
    eapply r_starS with (X1 := [et_sel (SSEvent ex ty nm None)]); [|apply IHl; [exact Hl|exact Hk]|reflexivity].
    cbn [al]. apply r_alt2; [apply f_nt; apply f_seq; apply f_exposure|].
    apply r_alt1. apply r_nt; [reflexivity|reflexivity|]. cbn [rule sq cuts map].
    eapply r_seq; [apply r_direction| |reflexivity].
    eapply r_seq; [apply (r_ts w); [reflexivity|exact Hw|apply type_no_sep; exact Ht]| |reflexivity].
    eapply r_seq; [apply r_cut; apply r_type; [exact Ht|apply sep_ends; auto]| |reflexivity].
    eapply r_seq; [apply r_cut; apply (r_ts w1); [reflexivity|exact Hw1|apply name_no_sep; exact Hnm]| |reflexivity].
    eapply r_seq; [apply r_cut; apply (r_name nm); [reflexivity|exact Hnm|exact He]| |reflexivity].
    eapply r_seq; [apply r_cut; apply (r_ts w2); [reflexivity|exact Hw2|exact Hns]| |reflexivity].
    apply r_cut. apply r_opt0. apply f_seq. apply f_lit. apply selems_no_is; auto.
  - intros ex w ty w1 nm w2 w3 pn w4 l IHl k Hok Hk.
    pose proof Hok as ((Hw & Hne & Ht & Hw1 & Hne1 & Hnm & Hw2) & Hne2 & Hw3 & Hpn & Hw4 & He & Hl).
    pose proof (selems_no_sep l k Hl Hk) as Hns.
    cbn [show_selems sk_selems map]. rewrite <- !app_assoc.
    eapply r_starS with (X1 := [et_sel (SSEvent ex ty nm (Some pn))]); [|apply IHl; [exact Hl|exact Hk]|reflexivity].
    cbn [al]. apply r_alt2; [apply f_nt; apply f_seq; apply f_exposure|].
    apply r_alt1. apply r_nt; [reflexivity|reflexivity|]. cbn [rule sq cuts map].
    eapply r_seq; [apply r_direction| |reflexivity].
    eapply r_seq; [apply (r_ts w); [reflexivity|exact Hw|apply type_no_sep; exact Ht]| |reflexivity].
    eapply r_seq; [apply r_cut; apply r_type; [exact Ht|apply sep_ends; auto]| |reflexivity].
    eapply r_seq; [apply r_cut; apply (r_ts w1); [reflexivity|exact Hw1|apply name_no_sep; exact Hnm]| |reflexivity].
    eapply r_seq; [apply r_cut; apply (r_name nm); [reflexivity|exact Hnm|apply sep_ends; auto]| |reflexivity].
    eapply r_seq; [apply r_cut; apply (r_ts w2); [reflexivity|exact Hw2|apply no_sep_head; reflexivity]| |reflexivity].
    apply r_cut. apply r_opt1. apply r_is; auto.
  - intros nm w f IHf l IHl k Hok Hk. pose proof Hok as (Hn & Hdl & Hw & Hs & Hf & Hl).
    cbn [show_selems sk_selems map]. rewrite <- !app_assoc.
    pose proof (safe_no_kw nm (w ++ show_field f ++ show_selems l ++ k) Hn (stop_ends _ Hs)) as Hkw.
    destruct (f_kw3 _ Hkw) as (A & B & C).
    destruct (f_decl_like nm (w ++ show_field f ++ show_selems l ++ k) Hdl (stop_ends _ Hs)) as [D F].
    eapply r_starS with (X1 := [et_sel (SSAttr nm (SVal (sk_field f)))]); [|apply IHl; [exact Hl|exact Hk]|reflexivity].
    cbn [al]. do 5 (apply r_alt2; [assumption|]).
    apply r_nt; [reflexivity|reflexivity|]. cbn [rule sq].
    eapply r_seq; [apply (r_name nm); [reflexivity|apply safe_is_name; exact Hn|apply stop_ends; exact Hs]| |reflexivity].
    eapply r_seq; [apply (r_ts w); [reflexivity|exact Hw|apply field_no_sep; exact Hf]| |reflexivity].
    eapply r_seq0; [|apply r_ts0; apply selems_no_sep; auto].
    apply r_alt2; [apply f_seq; apply f_lit; apply is_fail_field; exact Hf|].
    apply IHf; [exact Hf|apply selems_no_sep; auto|apply selems_fail_pl; auto].
  - intros nm w w1 pn w2 l IHl k Hok Hk. pose proof Hok as (Hn & Hdl & Hw & Hne & Hw1 & Hpn & Hw2 & He & Hl).
    cbn [show_selems sk_selems map]. rewrite <- !app_assoc.
    pose proof (sep_stop w (lit "IS" ++ w1 ++ pn ++ w2 ++ show_selems l ++ k) Hw Hne) as Hs.
    pose proof (safe_no_kw nm _ Hn (stop_ends _ Hs)) as Hkw.
    destruct (f_kw3 _ Hkw) as (A & B & C).
    destruct (f_decl_like nm _ Hdl (stop_ends _ Hs)) as [D F].
    eapply r_starS with (X1 := [et_sel (SSAttr nm (SIs pn))]); [|apply IHl; [exact Hl|exact Hk]|reflexivity].
    cbn [al]. do 5 (apply r_alt2; [assumption|]).
    apply r_nt; [reflexivity|reflexivity|]. cbn [rule sq].
    eapply r_seq; [apply (r_name nm); [reflexivity|apply safe_is_name; exact Hn|apply stop_ends; exact Hs]| |reflexivity].
    eapply r_seq; [apply (r_ts w); [reflexivity|exact Hw|apply no_sep_head; reflexivity]| |reflexivity].
    eapply r_seq0; [|apply r_ts0; apply selems_no_sep; auto].
    apply r_alt1. eapply r_seq; [apply r_lit; reflexivity| |reflexivity].
    eapply r_seq; [apply (r_ts w1); [reflexivity|exact Hw1|apply name_no_sep; exact Hpn]| |reflexivity].
    eapply r_seq0; [eapply r_wrap; [reflexivity|reflexivity|reflexivity|reflexivity|exact Hpn|exact He]|].
    apply (r_ts w2); [reflexivity|exact Hw2|apply selems_no_sep; auto].
Qed.

(** *** declarations *)
Lemma decls_no_sep l k : closer k -> no_sep (show_decls l ++ k).
Proof.
  intros H. destruct l as [|[[] w ty w1 nm w2 f|[] w ty w1 nm w2] l]; [apply closer_no_sep; exact H| | | |];
    apply no_sep_head; reflexivity.
Qed.
Lemma decls_fail_pl l k : ok_decls l k -> closer k -> fails alt_pl (show_decls l ++ k).
Proof.
  destruct l as [|d l]; [intros _; apply closer_fail_pl|]. intros Hd _.
  assert (H : exists nm w ty r, show_decls (d :: l) ++ k = nm ++ w ++ ty ++ r /\ safe_name nm = true /\
              sep_text w /\ w <> [] /\ ok_type ty).
  { destruct d as [ex w ty w1 nm w2 f|out w ty w1 nm w2]; destruct Hd as [(Hw & Hne & Ht & _) _].
    - exists (exposure ex), w, ty. eexists. split; [|destruct ex; auto].
      unfold show_decls. cbn [map List.concat show_decl]. rewrite <- !app_assoc. reflexivity.
    - exists (direction out), w, ty. eexists. split; [|destruct out; auto].
      unfold show_decls. cbn [map List.concat show_decl]. rewrite <- !app_assoc. reflexivity. }
  destruct H as (nm & w & ty & r & -> & Hn & Hw & Hne & Ht).
  apply attr_fail_pl; auto; [apply sep_stop; auto|apply type_no_sep; exact Ht|apply type_no_brace; exact Ht].
Qed.
Lemma ok_decls_ext l : forall c r, ok_decls l [c] -> ok_decls l (c :: r).
Proof.
  induction l as [|[ex w ty w1 nm w2 f|out w ty w1 nm w2] l IH]; intros c r; cbn [ok_decls]; auto.
  - intros (H1 & H2 & H3 & H4). repeat split; try apply H1; auto.
    + rewrite !app_assoc in *. apply ends_ext. exact H2.
    + apply (proj1 (proj2 (proj2 (proj2 ok_ext_mut)))). exact H3.
  - intros (H1 & H2 & H3). repeat split; try apply H1; auto.
    rewrite !app_assoc in *. apply ends_ext. exact H2.
Qed.
Definition decl_e := Alt (NT G_fieldDecl) (NT G_eventDecl).
Lemma decls_parse l : forall k, ok_decls l k -> closer k ->
  reads (Star decl_e) (show_decls l ++ k) k (map et_decl (map sk_decl l)).
Proof.
  induction l as [|d l IH]; intros k Hl Hk.
  - apply r_star0. destruct Hk as (c & r & -> & Hc). apply f_alt; apply f_nt; apply f_seq; apply f_nt; apply f_alt; apply f_lit;
      destruct Hc as [->| ->]; reflexivity.
  - pose proof (decls_no_sep l k Hk) as Hns.
    enough (H : ok_decls l k /\ reads decl_e (show_decl d ++ show_decls l ++ k) (show_decls l ++ k) [et_decl (sk_decl d)]).
    { unfold show_decls. cbn [map List.concat]. fold (show_decls l). rewrite <- app_assoc.
      eapply r_starS; [apply H|apply IH; [apply H|exact Hk]|reflexivity]. }
    destruct d as [ex w ty w1 nm w2 f|out w ty w1 nm w2]; cbn [show_decl];
      rewrite <- !app_assoc; destruct Hl as ((Hw & Hne & Ht & Hw1 & Hne1 & Hnm & Hw2) & He & Hl); split.
    + apply Hl.
    + apply r_alt1. apply r_nt; [reflexivity|reflexivity|]. cbn [rule sq cuts map]. destruct Hl as [Hf Hl].
      eapply r_seq; [apply r_exposure| |reflexivity].
      eapply r_seq; [apply (r_ts w); [reflexivity|exact Hw|apply type_no_sep; exact Ht]| |reflexivity].
      eapply r_seq; [apply r_cut; apply r_type; [exact Ht|apply sep_ends; auto]| |reflexivity].
      eapply r_seq; [apply r_cut; apply (r_ts w1); [reflexivity|exact Hw1|apply name_no_sep; exact Hnm]| |reflexivity].
      eapply r_seq; [apply r_cut; apply (r_name nm); [reflexivity|exact Hnm|exact He]| |reflexivity].
      eapply r_seq; [apply r_cut; apply (r_ts w2); [reflexivity|exact Hw2|apply field_no_sep; exact Hf]| |reflexivity].
      eapply r_seq; [apply r_cut; apply doc_parse; [exact Hf|exact Hns|apply decls_fail_pl; auto]| |reflexivity].
      apply r_cut. apply r_ts0. exact Hns.
    + exact Hl.
    + apply r_alt2; [apply f_nt; apply f_seq; apply f_exposure|].
      apply r_nt; [reflexivity|reflexivity|]. cbn [rule sq cuts map].
      eapply r_seq; [apply r_direction| |reflexivity].
      eapply r_seq; [apply (r_ts w); [reflexivity|exact Hw|apply type_no_sep; exact Ht]| |reflexivity].
      eapply r_seq; [apply r_cut; apply r_type; [exact Ht|apply sep_ends; auto]| |reflexivity].
      eapply r_seq; [apply r_cut; apply (r_ts w1); [reflexivity|exact Hw1|apply name_no_sep; exact Hnm]| |reflexivity].
      eapply r_seq; [apply r_cut; apply (r_name nm); [reflexivity|exact Hnm|exact He]| |reflexivity].
      apply r_cut. apply (r_ts w2); auto.
Qed.

(** *** EXTERNPROTO *)
Lemma xdecls_no_sep l k : closer k -> no_sep (show_xdecls l ++ k).
Proof.
  intros H. destruct l as [|[[] w ty w1 nm w2|[] w ty w1 nm w2] l]; [apply closer_no_sep; exact H| | | |];
    apply no_sep_head; reflexivity.
Qed.
Lemma ok_xdecls_ext l : forall c r, ok_xdecls l [c] -> ok_xdecls l (c :: r).
Proof.
  induction l as [|[ex w ty w1 nm w2|out w ty w1 nm w2] l IH]; intros c r; cbn [ok_xdecls]; auto;
  intros (H1 & H2 & H3); (split; [exact H1|]); split; auto;
    rewrite !app_assoc in *; apply ends_ext; exact H2.
Qed.
Definition xdecl_e := Alt (NT G_extFieldDecl) (NT G_eventDecl).
Lemma xdecls_parse l : forall k, ok_xdecls l k -> closer k ->
  reads (Star xdecl_e) (show_xdecls l ++ k) k (map et_xdecl (map sk_xdecl l)).
Proof.
  induction l as [|d l IH]; intros k Hl Hk.
  - apply r_star0. destruct Hk as (c & r & -> & Hc). apply f_alt; apply f_nt; apply f_seq; apply f_nt; apply f_alt; apply f_lit;
      destruct Hc as [->| ->]; reflexivity.
  - pose proof (xdecls_no_sep l k Hk) as Hns.
    enough (H : ok_xdecls l k /\ reads xdecl_e (show_xdecl d ++ show_xdecls l ++ k) (show_xdecls l ++ k) [et_xdecl (sk_xdecl d)]).
    { unfold show_xdecls. cbn [map List.concat]. fold (show_xdecls l). rewrite <- app_assoc.
      eapply r_starS; [apply H|apply IH; [apply H|exact Hk]|reflexivity]. }
    destruct d as [ex w ty w1 nm w2|out w ty w1 nm w2]; cbn [show_xdecl];
      rewrite <- !app_assoc; destruct Hl as ((Hw & Hne & Ht & Hw1 & Hne1 & Hnm & Hw2) & He & Hl);
      (split; [exact Hl|]).
    + apply r_alt1. apply r_nt; [reflexivity|reflexivity|]. cbn [rule sq cuts map].
      eapply r_seq; [apply r_exposure| |reflexivity].
      eapply r_seq; [apply (r_ts w); [reflexivity|exact Hw|apply type_no_sep; exact Ht]| |reflexivity].
      eapply r_seq; [apply r_cut; apply r_type; [exact Ht|apply sep_ends; auto]| |reflexivity].
      eapply r_seq; [apply r_cut; apply (r_ts w1); [reflexivity|exact Hw1|apply name_no_sep; exact Hnm]| |reflexivity].
      eapply r_seq; [apply r_cut; apply (r_name nm); [reflexivity|exact Hnm|exact He]| |reflexivity].
      apply r_cut. apply (r_ts w2); auto.
    + apply r_alt2; [apply f_nt; apply f_seq; apply f_exposure|].
      apply r_nt; [reflexivity|reflexivity|]. cbn [rule sq cuts map].
      eapply r_seq; [apply r_direction| |reflexivity].
      eapply r_seq; [apply (r_ts w); [reflexivity|exact Hw|apply type_no_sep; exact Ht]| |reflexivity].
      eapply r_seq; [apply r_cut; apply r_type; [exact Ht|apply sep_ends; auto]| |reflexivity].
      eapply r_seq; [apply r_cut; apply (r_ts w1); [reflexivity|exact Hw1|apply name_no_sep; exact Hnm]| |reflexivity].
      eapply r_seq; [apply r_cut; apply (r_name nm); [reflexivity|exact Hnm|exact He]| |reflexivity].
      apply r_cut. apply (r_ts w2); auto.
Qed.
Lemma r_str b s k : string_body b s -> reads (NT G_SFString) (show_str b ++ k) k [et_str b].
Proof. apply r_string. Qed.
Lemma head_lit x s : no_head x s -> fails (Lit [x]) s.
Proof.
  intros H. apply f_lit. destruct s as [|c s]; [reflexivity|]. unfold no_head in H. cbn [heads] in H.
  cbn [strip]. rewrite N.eqb_sym, H. reflexivity.
Qed.
Lemma show_url_no_sep u k : no_sep (show_url u ++ k).
Proof. destruct u; apply no_sep_head; reflexivity. Qed.
Lemma url_parse u w k : ok_url u -> sep_text w -> no_sep k -> no_head 34 k -> no_head 93 k ->
  reads (NT G_ExtProtoURL) (show_url u ++ w ++ k) k [T G_ExtProtoURL [] (map et_str (sk_url u))].
Proof.
  intros Hu Hw Hk Hq Hb. apply r_nt; [reflexivity|reflexivity|]. cbn [rule sq].
  destruct u as [b|w0 l]; cbn [ok_url show_url sk_url map] in *.
  - destruct Hu as [s Hs]. eapply r_seq with (X1 := []); [apply r_opt0; apply f_lit; reflexivity| |reflexivity].
    eapply r_seq0.
    + eapply r_starS with (X1 := [et_str b]); [|apply r_star0|reflexivity].
      * eapply r_seq; [apply r_ts0; apply no_sep_head; reflexivity|apply (r_str b s); exact Hs|reflexivity].
      * eapply f_seq2; [apply (r_ts w); auto|]. apply p_string_fail. exact Hq.
    + eapply r_seq; [apply (r_ts w); auto| |reflexivity].
      eapply r_seq; [apply r_opt0; apply head_lit; exact Hb|apply r_ts0; exact Hk|reflexivity].
  - destruct Hu as [Hw0 Hl]. rewrite <- !app_assoc.
    eapply r_seq with (X1 := []); [apply r_opt1; apply r_lit; reflexivity| |reflexivity].
    assert (G : exists w9, sep_text w9 /\
      reads (Star (Seq TS (NT G_SFString)))
        (w0 ++ List.concat (map (fun x => show_str (fst x) ++ snd x) l) ++ lit "]" ++ w ++ k)
        (w9 ++ lit "]" ++ w ++ k) (map et_str (map fst l))).
    { clear Hq Hb. revert w0 Hw0. induction l as [|[b w1] l IH]; intros w0 Hw0; cbn [map List.concat fst snd].
      - exists w0. split; [exact Hw0|]. rewrite app_nil_l. apply r_star0.
        eapply f_seq2; [apply (r_ts w0); [reflexivity|exact Hw0|apply no_sep_head; reflexivity]|].
        apply p_string_fail. reflexivity.
      - inversion Hl as [|? ? [[s Hs] Hw1] Hl']; subst. cbn [fst snd] in *.
        destruct (IH Hl' w1 Hw1) as (w9 & H9 & R). exists w9. split; [exact H9|]. rewrite <- !app_assoc.
        eapply r_starS with (X1 := [et_str b]); [|exact R|reflexivity].
        eapply r_seq; [apply (r_ts w0); [reflexivity|exact Hw0|apply no_sep_head; reflexivity]|apply (r_str b s); exact Hs|reflexivity]. }
    destruct G as (w9 & H9 & R). eapply r_seq0; [exact R|].
    eapply r_seq; [apply (r_ts w9); [reflexivity|exact H9|apply no_sep_head; reflexivity]| |reflexivity].
    eapply r_seq; [apply r_opt1; apply r_lit; reflexivity|apply (r_ts w); auto|reflexivity].
Qed.

(** *** the file *)
Scheme root_ind' := Induction for root Sort Prop with roots_ind' := Induction for roots Sort Prop.
Combined Scheme root_mutind from root_ind', roots_ind'.
Definition ending (k : text) : Prop := k = [] \/ exists r, k = 125%N :: r.
Lemma brace_closer r : closer (125%N :: r).
Proof. do 2 eexists. split; [reflexivity|auto]. Qed.
Lemma ending_no_sep k : ending k -> no_sep k.
Proof. intros [->|[r ->]]; apply no_sep_head; reflexivity. Qed.
Lemma root_no_sep r k : ok_root r k -> no_sep (show_root r ++ k).
Proof.
  destruct r as [n|w nm|w1 a af w2 w3 b bf|w1 gi w2 w3 ds w4 w5 l|w1 gi w2 w3 ds w4 u]; cbn [ok_root show_root]; intros H;
    try (apply no_sep_head; reflexivity).
  apply node_no_sep. exact H.
Qed.
Lemma roots_no_sep l k : ok_roots l k -> ending k -> no_sep (show_roots l ++ k).
Proof.
  destruct l as [|r w l]; cbn.
  - intros _. apply ending_no_sep.
  - intros (H & _) _. rewrite <- !app_assoc. apply root_no_sep. exact H.
Qed.
Lemma root_no_head x r k : ok_root r k -> name_char x = false -> no_head x (show_root r ++ k).
Proof.
  destruct r as [n|w nm|w1 a af w2 w3 b bf|w1 gi w2 w3 ds w4 w5 l|w1 gi w2 w3 ds w4 u]; cbn [ok_root show_root]; intros H Hx;
    [apply node_no_head; auto|..].
  1: change (((85 =? x) = false)%N). 2: change (((82 =? x) = false)%N).
  3: change (((80 =? x) = false)%N). 4: change (((69 =? x) = false)%N).
  all: apply N.eqb_neq; intros <-; discriminate.
Qed.
Lemma roots_no_head x l k : ok_roots l k -> ending k -> name_char x = false -> x <> 125%N -> no_head x (show_roots l ++ k).
Proof.
  destruct l as [|r w l]; cbn.
  - intros _ [->|[r ->]] _ Hx; [reflexivity|]. apply N.eqb_neq. congruence.
  - intros (H & _) _ Hx _. rewrite <- !app_assoc. apply root_no_head; auto.
Qed.
Lemma ok_root_ext :
  (forall r w c k, ok_root r (w ++ [c]) -> ok_root r (w ++ c :: k)) /\
  (forall l w c k, ok_roots l (w ++ [c]) -> ok_roots l (w ++ c :: k)).
Proof.
  apply root_mutind; intros; cbn [ok_root ok_roots] in *; auto.
  - intuition auto. apply ends_ext. auto.
  - intuition auto. apply ends_ext. auto.
  - destruct H1 as (H1 & H2 & H3). repeat split; auto. rewrite !app_assoc in *. apply H. exact H1.
Qed.
Lemma ok_roots_ext l c k : ok_roots l [c] -> ok_roots l (c :: k).
Proof. apply (proj2 ok_root_ext l []). Qed.
Definition root_e := al (NT G_Proto) [NT G_ExternProto; NT G_ROUTE; use_e; NT G_Script; NT G_Node].
Lemma f_root k : ending k -> fails (NT G_rootItem) k.
Proof.
  intros He. apply f_nt. cbn [rule sq]. eapply f_seq2; [apply r_ts0; apply ending_no_sep; exact He|].
  assert (no_kw k) as Hk.
  { destruct He as [->|[r ->]]; [|apply closer_no_kw; apply brace_closer]. intros p Hp. unfold keywords in Hp. cbn [map In] in Hp.
    repeat (destruct Hp as [<-|Hp]; [reflexivity|]). contradiction. }
  destruct (f_kw3 k Hk) as (A & B & C).
  apply f_seq. cbn [al]. repeat (apply f_alt; [assumption|]).
  apply f_alt; [apply f_use; apply Hk; cbn; auto 20|].
  apply f_alt; [apply f_script; apply Hk; cbn; auto 20|]. apply f_node_noname; [apply Hk; cbn; auto 20|]. apply f_name.
  destruct He as [->|[r ->]]; reflexivity.
Qed.
Lemma root_parse_mut :
  (forall r w k, ok_root r (w ++ k) -> sep_text w -> no_sep k -> no_head 34 k -> no_head 93 k ->
    reads (Seq root_e TS) (show_root r ++ w ++ k) k [et_sroot (sk_root r)]) /\
  (forall l w k, ok_roots l k -> ending k -> sep_text w -> (l = RNil -> w = []) ->
    reads (Star (NT G_rootItem)) (w ++ show_roots l ++ k) k (map et_root (sk_roots l))).
Proof.
  apply root_mutind.
  - intros n w k Hr Hw Hk _ _. pose proof (r_ts0 k Hk) as Rts0. unfold root_e. cbn [al ok_root show_root sk_root et_sroot] in *.
    eapply r_seq0; [|exact Rts0].
    assert (Hkw : forall p, In p keywords -> p <> lit "DEF" -> p <> lit "Script" -> strip p (show_node n ++ w ++ k) = None)
      by (intros; apply node_no_kw1; auto).
    apply r_alt2; [apply f_nt; apply f_seq; apply f_lit; apply Hkw; [cbn; auto 20|discriminate|discriminate]|].
    apply r_alt2; [apply f_nt; apply f_seq; apply f_lit; apply Hkw; [cbn; auto 20|discriminate|discriminate]|].
    apply r_alt2; [apply f_nt; apply f_seq; apply f_lit; apply Hkw; [cbn; auto 20|discriminate|discriminate]|].
    apply r_alt2; [apply f_use; apply Hkw; [cbn; auto 20|discriminate|discriminate]|].
    apply doc_parse; auto.
  - intros w' nm w k Hr Hw Hk _ _. pose proof (r_ts0 k Hk) as Rts0. unfold root_e. cbn [al ok_root show_root sk_root et_sroot] in *.
    destruct Hr as (Hw' & Hn & He). rewrite <- !app_assoc. eapply r_seq0; [|exact Rts0].
    do 3 (apply r_alt2; [apply f_nt; apply f_seq; apply f_lit; reflexivity|]).
    apply r_alt1. apply r_use; auto.
  - intros w1 a af w2 w3 b bf w k Hr Hw Hk _ _. pose proof (r_ts0 k Hk) as Rts0. unfold root_e.
    cbn [al ok_root show_root sk_root et_sroot] in *.
    destruct Hr as (Hn & Hs & Hne & He). rewrite <- !app_assoc. eapply r_seq0; [|exact Rts0].
    do 2 (apply r_alt2; [apply f_nt; apply f_seq; apply f_lit; reflexivity|]).
    apply r_alt1. apply r_nt; [reflexivity|reflexivity|]. cbn [rule sq cuts map].
    assert (Ha : is_name a = true) by (inversion Hn; auto).
    assert (Haf : is_name af = true) by (inversion Hn as [|? ? ? Q]; inversion Q; auto).
    assert (Hb : is_name b = true) by (inversion Hn as [|? ? ? Q]; inversion Q as [|? ? ? Q2]; inversion Q2; auto).
    assert (Hbf : is_name bf = true).
    { inversion Hn as [|? ? ? Q]; inversion Q as [|? ? ? Q2]; inversion Q2 as [|? ? ? Q3]; inversion Q3; auto. }
    assert (H1 : sep_text w1) by (inversion Hs; auto).
    assert (H2 : sep_text w2) by (inversion Hs as [|? ? ? Q]; inversion Q; auto).
    assert (H3 : sep_text w3) by (inversion Hs as [|? ? ? Q]; inversion Q as [|? ? ? Q2]; inversion Q2; auto).
    eapply r_seq; [apply r_lit; reflexivity| |reflexivity].
    eapply r_seq; [apply (r_ts w1); [reflexivity|exact H1|apply name_no_sep; exact Ha]| |reflexivity].
    eapply r_seq; [apply r_cut; apply (r_name a); [reflexivity|exact Ha|reflexivity]| |reflexivity].
    eapply r_seq; [apply r_cut; apply r_lit; reflexivity| |reflexivity].
    eapply r_seq; [apply r_cut; apply (r_name af); [reflexivity|exact Haf|apply sep_ends; auto]| |reflexivity].
    eapply r_seq; [apply r_cut; apply (r_ts w2); [reflexivity|exact H2|apply no_sep_head; reflexivity]| |reflexivity].
    eapply r_seq; [apply r_cut; apply r_lit; reflexivity| |reflexivity].
    eapply r_seq; [apply r_cut; apply (r_ts w3); [reflexivity|exact H3|apply name_no_sep; exact Hb]| |reflexivity].
    eapply r_seq; [apply r_cut; apply (r_name b); [reflexivity|exact Hb|reflexivity]| |reflexivity].
    eapply r_seq; [apply r_cut; apply r_lit; reflexivity| |reflexivity].
    eapply r_seq; [apply r_cut; apply (r_name bf); [reflexivity|exact Hbf|exact He]| |reflexivity].
    apply r_cut. apply (r_ts w); auto.
  - intros w1 gi w2 w3 ds w4 w5 l IH w k Hr Hw Hk _ _. pose proof (r_ts0 k Hk) as Rts0. unfold root_e.
    cbn [al ok_root show_root sk_root et_sroot] in *.
    destruct Hr as (Hg & Hs & Hd & Hl). rewrite <- !app_assoc. eapply r_seq0; [|exact Rts0].
    inversion Hs as [|? ? H1 Q1]; subst. inversion Q1 as [|? ? H2 Q2]; subst. inversion Q2 as [|? ? H3 Q3]; subst.
    inversion Q3 as [|? ? H4 Q4]; subst. inversion Q4 as [|? ? H5 _]; subst.
    apply (ok_decls_ext ds 93%N (w4 ++ lit "{" ++ w5 ++ show_roots l ++ lit "}" ++ w ++ k)) in Hd.
    apply (ok_roots_ext l 125%N (w ++ k)) in Hl.
    assert (Hcd : closer (93%N :: w4 ++ lit "{" ++ w5 ++ show_roots l ++ lit "}" ++ w ++ k))
      by (do 2 eexists; split; [reflexivity|auto]).
    assert (Hcl : closer (125%N :: w ++ k)) by (do 2 eexists; split; [reflexivity|auto]).
    apply r_alt1. apply r_nt; [reflexivity|reflexivity|]. cbn [rule sq cuts map].
    eapply r_seq; [apply r_lit; reflexivity| |reflexivity].
    eapply r_seq; [apply (r_ts w1); [reflexivity|exact H1|apply name_no_sep; exact Hg]| |reflexivity].
    eapply r_seq; [apply r_cut; eapply r_wrap; [reflexivity|reflexivity|reflexivity|reflexivity|exact Hg|]| |reflexivity].
    { apply stop_ends. apply sep_or; [exact H2|reflexivity]. }
    eapply r_seq; [apply r_cut; apply (r_ts w2); [reflexivity|exact H2|apply no_sep_head; reflexivity]| |reflexivity].
    eapply r_seq; [apply r_cut; apply r_lit; reflexivity| |reflexivity].
    eapply r_seq; [apply r_cut; apply (r_ts w3); [reflexivity|exact H3|apply (decls_no_sep ds); exact Hcd]| |reflexivity].
    eapply r_seq; [apply r_cut; apply (decls_parse ds _ Hd Hcd)| |reflexivity].
    eapply r_seq; [apply r_cut; apply r_lit; reflexivity| |reflexivity].
    eapply r_seq; [apply r_cut; apply (r_ts w4); [reflexivity|exact H4|apply no_sep_head; reflexivity]| |reflexivity].
    eapply r_seq; [apply r_cut; apply r_lit; reflexivity| |reflexivity].
    eapply r_seq; [apply r_cut; apply (r_ts w5); [reflexivity|exact H5|apply (roots_no_sep l _ Hl); right; eauto]| |reflexivity].
    eapply r_seq; [apply r_cut; apply r_nt; [reflexivity|reflexivity|];
      apply (IH [] _ Hl (or_intror (ex_intro _ _ eq_refl)) sep_nil (fun _ => eq_refl))| |].
    2:{ symmetry. apply app_nil_r. }
    eapply r_seq; [apply r_cut; apply r_ts0; apply closer_no_sep; exact Hcl| |reflexivity].
    eapply r_seq; [apply r_cut; apply r_lit; reflexivity| |reflexivity].
    apply r_cut. apply (r_ts w); auto.
  - intros w1 gi w2 w3 ds w4 u w k Hr Hw Hk Hq Hb. pose proof (r_ts0 k Hk) as Rts0. unfold root_e.
    cbn [al ok_root show_root sk_root et_sroot] in *.
    destruct Hr as (Hg & Hs & Hd & Hu). rewrite <- !app_assoc. eapply r_seq0; [|exact Rts0].
    inversion Hs as [|? ? H1 Q1]; subst. inversion Q1 as [|? ? H2 Q2]; subst. inversion Q2 as [|? ? H3 Q3]; subst.
    inversion Q3 as [|? ? H4 _]; subst.
    apply (ok_xdecls_ext ds 93%N (w4 ++ show_url u ++ w ++ k)) in Hd.
    assert (Hcd : closer (93%N :: w4 ++ show_url u ++ w ++ k)) by (do 2 eexists; split; [reflexivity|auto]).
    apply r_alt2; [apply f_nt; apply f_seq; apply f_lit; reflexivity|].
    apply r_alt1. apply r_nt; [reflexivity|reflexivity|]. cbn [rule sq cuts map].
    eapply r_seq; [apply r_lit; reflexivity| |reflexivity].
    eapply r_seq; [apply (r_ts w1); [reflexivity|exact H1|apply name_no_sep; exact Hg]| |reflexivity].
    eapply r_seq; [apply r_cut; eapply r_wrap; [reflexivity|reflexivity|reflexivity|reflexivity|exact Hg|]| |reflexivity].
    { apply stop_ends. apply sep_or; [exact H2|reflexivity]. }
    eapply r_seq; [apply r_cut; apply (r_ts w2); [reflexivity|exact H2|apply no_sep_head; reflexivity]| |reflexivity].
    eapply r_seq; [apply r_cut; apply r_lit; reflexivity| |reflexivity].
    eapply r_seq; [apply r_cut; apply (r_ts w3); [reflexivity|exact H3|apply (xdecls_no_sep ds); exact Hcd]| |reflexivity].
    eapply r_seq; [apply r_cut; apply (xdecls_parse ds _ Hd Hcd)| |reflexivity].
    eapply r_seq; [apply r_cut; apply r_lit; reflexivity| |reflexivity].
    eapply r_seq; [apply r_cut; apply (r_ts w4); [reflexivity|exact H4|apply show_url_no_sep]| |reflexivity].
    apply r_cut. apply url_parse; auto.
  - intros w k _ He _ Hne. rewrite (Hne eq_refl). cbn. apply r_star0. apply f_root. exact He.
  - intros r IHr wl l IHl w k Hl He Hw _. cbn [show_roots sk_roots map ok_roots] in *. destruct Hl as (Hr & Hwl & Hl).
    rewrite <- !app_assoc.
    eapply r_starS with (X1 := [et_root (sk_root r)]);
      [|apply (IHl [] k Hl He); [constructor|reflexivity]|reflexivity].
    apply r_nt; [reflexivity|reflexivity|]. cbn [rule sq].
    eapply r_seq; [apply (r_ts w); [reflexivity|exact Hw|apply root_no_sep; exact Hr]| |reflexivity].
    apply IHr; [exact Hr|exact Hwl|apply roots_no_sep; auto|apply roots_no_head; auto; discriminate|apply roots_no_head; auto; discriminate].
Qed.
Lemma roots_parse l w : sep_text w -> (l = RNil -> w = []) -> ok_roots l [] ->
  reads (NT G_vrmlScene) (w ++ show_roots l) [] [T G_vrmlScene [] (map et_root (sk_roots l))].
Proof.
  intros Hw Hne Hl. apply r_nt; [reflexivity|reflexivity|]. cbn [rule].
  pose proof (proj2 root_parse_mut l w [] Hl (or_introl eq_refl) Hw Hne) as H. rewrite app_nil_r in H. exact H.
Qed.
(** every well-formed document parses; its tree depends on its contents only *)
Theorem doc_reads d : ok_doc d ->
  reads (rule G_vrmlFile) (show_doc d) []
    [T G_header [] []; T G_vrmlScene [] (map et_root (sk_doc d)); T G_EOF [] []].
Proof.
  destruct d as [h w l]. intros (Hh & Hw & Hl & Hnl). cbn [show_doc sk_doc rule sq].
  eapply r_seq with (X1 := [T G_header [] []]); [| |reflexivity].
  - apply r_nt; [reflexivity|reflexivity|]. exists h, []. split; [|reflexivity]. cbn [rule].
    apply p_star_cls; [apply not_nl; exact Hh|].
    destruct l as [|r wl l]; [subst w; reflexivity|]. destruct Hnl as [w' ->]. reflexivity.
  - eapply r_seq; [apply roots_parse; auto| |reflexivity].
    + intros ->. exact Hnl.
    + apply r_cut. apply r_nt; [reflexivity|reflexivity|]. exists [], []. split; [apply p_eof|reflexivity].
Qed.
