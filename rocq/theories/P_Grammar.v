(** C25, C26, C62, C63: the parser of VRML97 texts. *)
From Verif Require Import Base Text Grammar_Model Grammar_Proofs Lex_Spec Lex_Proofs Doc_Spec Doc_Proofs.
Local Open Scope nat_scope.
Local Open Scope list_scope.

(** *** errors *)
Definition errs (e : expr) (s : text) : Prop := parses e s PErr.
Lemma e_seq a b s : errs a s -> errs (Seq a b) s.
Proof. intros H. apply p_seq_bad; auto. Qed.
Lemma e_seq2 a b s r X : reads a s r X -> errs b r -> errs (Seq a b) s.
Proof. intros (c & l & H & _) H'. eapply p_seq_bad2; eauto. Qed.
Lemma e_alt1 a b s : errs a s -> errs (Alt a b) s.
Proof. intros H. apply p_alt1; [exact H|discriminate]. Qed.
Lemma e_alt2 a b s : fails a s -> errs b s -> errs (Alt a b) s.
Proof. apply p_alt2. Qed.
Lemma e_nt n s : errs (rule n) s -> errs (NT n) s.
Proof. intros H. apply p_nt_bad; auto. Qed.
Lemma e_cut a s : fails a s -> errs (Cut a) s.
Proof. apply p_cut_fail. Qed.
Lemma e_opt a s : errs a s -> errs (Opt a) s.
Proof. intros H. apply p_opt1; [exact H|discriminate]. Qed.

Lemma r_header h k : ~ In 10%N h -> reads (NT G_header) (h ++ 10%N :: k) (10%N :: k) [T G_header [] []].
Proof.
  intros Hh. apply r_nt; [reflexivity|reflexivity|]. exists h, []. split; [|reflexivity].
  apply p_star_cls; [apply not_nl; exact Hh|reflexivity].
Qed.
Lemma e_file_item h k : ~ In 10%N h -> errs (NT G_rootItem) (10%N :: k) ->
  errs (NT G_vrmlFile) (h ++ 10%N :: k).
Proof.
  intros Hh H. apply e_nt. cbn [rule sq]. eapply e_seq2; [apply r_header; exact Hh|].
  apply e_seq. apply e_nt. cbn [rule]. apply p_star_err. exact H.
Qed.
Lemma e_file_rest h k c r X : ~ In 10%N h -> reads (NT G_vrmlScene) (10%N :: k) (c :: r) X ->
  errs (NT G_vrmlFile) (h ++ 10%N :: k).
Proof.
  intros Hh H. apply e_nt. cbn [rule sq]. eapply e_seq2; [apply r_header; exact Hh|].
  eapply e_seq2; [exact H|]. apply e_cut. apply f_nt. apply p_eof_fail.
Qed.
Lemma r_nl k : no_sep k -> reads TS (10%N :: k) k [].
Proof. intros H. apply (r_ts [10%N]); auto. apply sep_blank; [reflexivity|constructor]. Qed.

(** ** C62: the parser gives one answer for every text, and an accepted text
    is consumed completely *)
Theorem C62_parser_answers_every_text s :
  exists r, parses (NT G_vrmlFile) s r /\ forall r', parses (NT G_vrmlFile) s r' -> r' = r.
Proof.
  destruct (terminates G_vrmlFile s) as [r H]. exists r. split; [exact H|].
  intros r' H'. eapply parses_det; eauto.
Qed.
Lemma parses_nt_inv n s c r l : parses (NT n) s (POk c r l) -> exists l', parses (rule n) s (POk c r l').
Proof.
  intros [k H]. destruct k; [discriminate|]. cbn [run] in H.
  destruct (run k (rule n) s) as [[c1 r1 l1| |]|] eqn:E; try discriminate. injection H as <- <- _.
  exists l1, k. exact E.
Qed.
Lemma parses_cut_inv a s c r l : parses (Cut a) s (POk c r l) -> parses a s (POk c r l).
Proof.
  intros [k H]. destruct k; [discriminate|]. cbn [run] in H.
  destruct (run k a s) as [[c1 r1 l1| |]|] eqn:E; try discriminate. exists k. congruence.
Qed.
Theorem C62_accepted_text_is_consumed s c r l :
  parses (NT G_vrmlFile) s (POk c r l) -> c = s /\ r = [].
Proof.
  intros H. pose proof (parses_prefix _ _ _ _ _ H) as Hp.
  apply parses_nt_inv in H as [l' H]. cbn [rule sq] in H.
  apply parses_seq_inv in H as (c1 & r1 & l1 & c2 & l2 & _ & H & _ & _).
  apply parses_seq_inv in H as (c3 & r3 & l3 & c4 & l4 & _ & H & _ & _).
  apply parses_cut_inv in H. apply parses_nt_inv in H as [l5 H]. cbn [rule] in H.
  destruct H as [k H]. destruct k; [discriminate|]. cbn [run] in H. destruct r3; [|discriminate].
  injection H as _ <- _. rewrite app_nil_r in Hp. auto.
Qed.

(** a text with nested nodes is accepted, and one with a missing brace is not *)
Definition demo1 : text := lit "#VRML" ++ [10%N] ++ lit "A { b [ C { d 1,2 } ] }".
Definition demo2 : text := lit "#VRML" ++ [10%N] ++ lit "A { b [ C { d 1,2 ] }".
Example C62_accepts : match run 200 (NT G_vrmlFile) demo1 with Some (POk _ [] _) => true | _ => false end = true.
Proof. vm_compute. reflexivity. Qed.
Example C62_rejects : run 200 (NT G_vrmlFile) demo2 = Some PErr.
Proof. vm_compute. reflexivity. Qed.

(** ** C25: separators *)
(** the separator production always succeeds, reports nothing and consumes
    the longest prefix made of blanks, commas and finished comments *)
Theorem C25_separators_are_maximal s : exists w k,
  parses TS s (POk w k []) /\ s = w ++ k /\ sep_text w /\
  forall w' k', s = w' ++ k' -> sep_text w' -> List.length w' <= List.length w.
Proof.
  destruct (ts_any s) as (w & k & E & Hw & Hk & P). exists w, k. repeat split; auto.
  intros w' k' E' Hw'. destruct (Nat.le_gt_cases (List.length w') (List.length w)) as [L|L]; [exact L|].
  exfalso. subst s.
  destruct (ts_any k') as (v & k2 & E2 & Hv & Hk2 & _).
  destruct (sep_unique w k (w' ++ v) k2) as [Ew _]; auto.
  - clear - Hw' Hv. induction Hw' as [|c u Hc Hu IH|b u Hb Hu IH]; [exact Hv|apply sep_blank; auto|].
    cbn [app]. rewrite <- app_assoc. cbn [app]. apply sep_comment; auto.
  - rewrite E', E2, app_assoc. reflexivity.
  - subst w. rewrite app_length in L. lia.
Qed.
(** two documents with the same contents parse to the same tree, whatever
    separators are between their tokens; [erase] blanks the text spans of the
    entries that contain separators and keeps every other span *)
Theorem C25_layout_does_not_matter d d' : ok_doc d -> ok_doc d' -> sk_doc d = sk_doc d' ->
  exists t t', parses (NT G_vrmlFile) (show_doc d) (POk (show_doc d) [] [t]) /\
               parses (NT G_vrmlFile) (show_doc d') (POk (show_doc d') [] [t']) /\
               erase t = erase t'.
Proof.
  intros H H' E.
  destruct (doc_reads d H) as (c & l & P & El). destruct (doc_reads d' H') as (c' & l' & P' & El').
  apply (p_nt G_vrmlFile) in P. apply (p_nt G_vrmlFile) in P'. cbn [reported] in P, P'.
  destruct (C62_accepted_text_is_consumed _ _ _ _ P) as [-> _].
  destruct (C62_accepted_text_is_consumed _ _ _ _ P') as [-> _].
  do 2 eexists. split; [exact P|split; [exact P'|]]. cbn [erase keeps]. f_equal. congruence.
Qed.
(** the same contents in two layouts *)
Definition lay1 : doc := Doc (lit "#VRML V2.0 utf8") [10%N]
  (RCons (RNode (Nd (Some (lit " ", lit "x", lit " ")) (lit "Group") (lit " ") []
     (ACons (lit "children") (lit " ") (FBr [] (SCons (INode (Nd None (lit "Cone") [] [] ANil)) []
        (SCons (IUse (lit " ") (lit "x")) [] SNil)) []) ANil))) [] RNil).
Definition lay2 : doc := Doc (lit "#other") (10%N :: lit " ,#c" ++ [10%N])
  (RCons (RNode (Nd (Some (lit "  ", lit "x", [10%N])) (lit "Group") [] (lit " ,")
     (ACons (lit "children") [] (FBr (lit " ") (SCons (INode (Nd None (lit "Cone") (lit " ") (lit "#c" ++ [10%N]) ANil)) (lit " ,")
        (SCons (IUse [] (lit "x")) (lit " ") SNil)) (lit " ")) ANil))) (lit "  ") RNil).
Ltac dsep := repeat first [apply sep_nil | apply sep_blank; [reflexivity|]
  | match goal with |- sep_text (35%N :: ?r) =>
      match r with 99%N :: 10%N :: ?k => apply (sep_comment [99%N] k);
        [cbn; intros X; intuition discriminate|] end end].
Ltac dnin := cbn; intros X; intuition discriminate.
Example C25_layouts_ok : ok_doc lay1 /\ ok_doc lay2 /\ sk_doc lay1 = sk_doc lay2 /\ show_doc lay1 <> show_doc lay2.
Proof.
  repeat split; try discriminate; try reflexivity; cbn; try dsep; try (intros X; intuition discriminate); eauto.
Qed.

(** the same PROTO, with an IS, in two layouts *)
Definition lay3 : doc := Doc (lit "#VRML V2.0 utf8") [10%N]
  (RCons (RProto (lit " ") (lit "Pin") (lit " ") (lit " ")
     [DField false (lit " ") (lit "SFFloat") (lit " ") (lit "size") (lit " ") (FPl (SCons (INum (lit "1")) (lit " ") SNil));
      DEvent true (lit " ") (lit "SFTime") (lit " ") (lit "hit") (lit " ")]
     (lit " ") (lit " ")
     (RCons (RNode (Nd None (lit "Sphere") (lit " ") (lit " ")
        (AIs (lit "radius") (lit " ") (lit " ") (lit "size") (lit " ") ANil))) (lit " ") RNil)) (lit " ") RNil).
Definition lay4 : doc := Doc (lit "#VRML V2.0 utf8") [10%N]
  (RCons (RProto (lit ",") (lit "Pin") [] []
     [DField false (lit "	") (lit "SFFloat") (lit ",,") (lit "size") (lit ",") (FPl (SCons (INum (lit "1")) [10%N] SNil));
      DEvent true (lit "  ") (lit "SFTime") (lit " ") (lit "hit") []]
     [] []
     (RCons (RNode (Nd None (lit "Sphere") [] []
        (AIs (lit "radius") (lit "   ") (lit ", ") (lit "size") [] ANil))) [] RNil)) [] RNil).
Example C25_proto_layouts_ok : ok_doc lay3 /\ ok_doc lay4 /\ sk_doc lay3 = sk_doc lay4 /\ show_doc lay3 <> show_doc lay4.
Proof.
  split; [|split; [|split; [reflexivity|discriminate]]]; cbn [ok_doc lay3 lay4].
  - split; [dnin|]. split; [dsep|]. split; [|eauto].
    cbn -[ok_type is_name safe_name]. repeat split; try discriminate; try reflexivity; try dsep;
      try (left; eexists; split; reflexivity).
    + repeat constructor; dsep.
    + apply (num_plain [] (lit "1")); reflexivity.
  - split; [dnin|]. split; [dsep|]. split; [|eauto].
    cbn -[ok_type is_name safe_name]. repeat split; try discriminate; try reflexivity; try dsep;
      try (left; eexists; split; reflexivity).
    + repeat constructor; dsep.
    + apply (num_plain [] (lit "1")); reflexivity.
Qed.

(** ** C26: names *)
(** a node type and a field name that do not start with a keyword are read as
    they are, for every layout between the tokens *)
Theorem C26_plain_names_are_read h gi nm w1 w2 w3 n w4 :
  ~ In 10%N h -> safe_name gi = true -> safe_name nm = true -> is_number n ->
  sep_text w1 -> sep_text w2 -> sep_text w3 -> w3 <> [] -> sep_text w4 ->
  exists t, parses (NT G_vrmlFile) (h ++ 10%N :: gi ++ w1 ++ lit "{" ++ w2 ++ nm ++ w3 ++ n ++ w4 ++ lit "}") 
      (POk (h ++ 10%N :: gi ++ w1 ++ lit "{" ++ w2 ++ nm ++ w3 ++ n ++ w4 ++ lit "}") [] [t]) /\
    erase t = T G_vrmlFile [] [T G_header [] []; T G_vrmlScene [] [T G_rootItem [] [
      T G_Node [] [T G_nodegi gi [T G_name gi []];
        T G_Attr [] [T G_name nm []; T G_Field [] [T G_SFNumber n []]]]]]; T G_EOF [] []].
Proof.
  intros Hh Hgi Hnm Hn S1 S2 S3 Hw3 S4.
  set (d := Doc h [10%N] (RCons (RNode (Nd None gi w1 w2 (ACons nm w3 (FPl (SCons (INum n) w4 SNil)) ANil))) [] RNil)).
  assert (Hd : ok_doc d).
  { cbn [d ok_doc ok_roots ok_root ok_node ok_attrs ok_field ok_items ok_item show_field show_items show_item show_attrs show_roots].
    repeat split; auto; try discriminate.
    - apply sep_blank; [reflexivity|constructor].
    - rewrite <- app_assoc. apply sep_stop; auto.
    - cbn [app]. apply sep_or; [exact S4|reflexivity].
    - constructor.
    - exists []. reflexivity. }
  destruct (doc_reads d Hd) as (c & l & P & E). apply (p_nt G_vrmlFile) in P. cbn [reported] in P.
  destruct (C62_accepted_text_is_consumed _ _ _ _ P) as [-> _].
  assert (Es : show_doc d = h ++ 10%N :: gi ++ w1 ++ lit "{" ++ w2 ++ nm ++ w3 ++ n ++ w4 ++ lit "}").
  { cbn [d show_doc show_roots show_root show_node show_def show_attrs show_field show_items show_item].
    rewrite ?app_nil_r, <- ?app_assoc. cbn [app]. rewrite <- ?app_assoc. reflexivity. }
  rewrite Es in P. eexists. split; [exact P|]. cbn [erase keeps]. rewrite E. reflexivity.
Qed.
Example C26_plain_names : safe_name (lit "Transform") = true /\ safe_name (lit "aDEFx") = true
  /\ safe_name (lit "isActive") = true /\ is_number (lit "-.5").
Proof. repeat split; try reflexivity. apply (num_plain (lit "-") (lit ".5")); reflexivity. Qed.

(** a node type whose name continues a keyword is a syntax error *)
Definition root_keywords : list text := map lit ["PROTO"; "EXTERNPROTO"; "ROUTE"; "USE"; "Script"; "DEF"]%string.
Lemma r_root_ts k : no_sep k -> errs root_e k -> errs (NT G_rootItem) (10%N :: k).
Proof.
  intros Hk H. apply e_nt. cbn [rule sq]. eapply e_seq2; [apply r_nl; exact Hk|]. apply e_seq. exact H.
Qed.
Lemma f_root_brace k : fails root_e (lit "{}" ++ k).
Proof.
  unfold root_e. cbn [al].
  do 3 (apply f_alt; [apply f_nt; apply f_seq; apply f_lit; reflexivity|]).
  apply f_alt; [apply f_use; reflexivity|].
  apply f_alt; [apply f_script; reflexivity|]. apply f_node_noname; [reflexivity|]. apply f_name. reflexivity.
Qed.
Theorem C26_keyword_prefixed_type_refuted h k x :
  ~ In 10%N h -> In k root_keywords -> is_name x = true ->
  parses (NT G_vrmlFile) (h ++ 10%N :: k ++ x ++ lit " {}") PErr.
Proof.
  intros Hh Hk Hx.
  assert (Hsp : no_sep (lit "{}")) by (apply no_sep_head; reflexivity).
  assert (Hsep : sep_text (lit " ")) by (apply sep_blank; [reflexivity|constructor]).
  assert (Rx : reads (NT G_name) (x ++ lit " {}") (lit " {}") [tname x]) by (apply r_name; auto).
  assert (Rg : reads (NT G_nodegi) (x ++ lit " {}") (lit " {}") [T G_nodegi x [tname x]]) by (apply r_wrap; auto).
  assert (Rsp : reads TS (lit " {}") (lit "{}") []) by (apply (r_ts (lit " ")); auto).
  assert (Rx0 : reads TS (x ++ lit " {}") (x ++ lit " {}") []) by (apply r_ts0; apply name_no_sep; exact Hx).
  cbn [root_keywords map In] in Hk.
  destruct Hk as [<-|[<-|[<-|[<-|[<-|[<-|[]]]]]]].
  - (* PROTO *)
    apply e_file_item; [exact Hh|]. apply r_root_ts; [apply no_sep_head; reflexivity|].
    apply e_alt1. apply e_nt. cbn [rule sq cuts map].
    eapply e_seq2; [apply r_lit; reflexivity|]. eapply e_seq2; [exact Rx0|].
    eapply e_seq2; [apply r_cut; exact Rg|]. eapply e_seq2; [apply r_cut; exact Rsp|].
    apply e_seq. apply e_cut. apply f_lit. reflexivity.
  - (* EXTERNPROTO *)
    apply e_file_item; [exact Hh|]. apply r_root_ts; [apply no_sep_head; reflexivity|].
    apply e_alt2; [apply f_nt; apply f_seq; apply f_lit; reflexivity|].
    apply e_alt1. apply e_nt. cbn [rule sq cuts map].
    eapply e_seq2; [apply r_lit; reflexivity|]. eapply e_seq2; [exact Rx0|].
    eapply e_seq2; [apply r_cut; exact Rg|]. eapply e_seq2; [apply r_cut; exact Rsp|].
    apply e_seq. apply e_cut. apply f_lit. reflexivity.
  - (* ROUTE *)
    apply e_file_item; [exact Hh|]. apply r_root_ts; [apply no_sep_head; reflexivity|].
    do 2 (apply e_alt2; [apply f_nt; apply f_seq; apply f_lit; reflexivity|]).
    apply e_alt1. apply e_nt. cbn [rule sq cuts map].
    eapply e_seq2; [apply r_lit; reflexivity|]. eapply e_seq2; [exact Rx0|].
    eapply e_seq2; [apply r_cut; exact Rx|]. apply e_seq. apply e_cut. apply f_lit. reflexivity.
  - (* USE: read as a reference, and the brace is left over *)
    eapply (e_file_rest h _ 123%N (lit "}")); [exact Hh|].
    apply r_nt; [reflexivity|reflexivity|]. cbn [rule].
    eapply r_starS; [|apply r_star0|reflexivity].
    + apply r_nt; [reflexivity|reflexivity|]. cbn [rule sq].
      eapply r_seq; [apply r_nl; apply no_sep_head; reflexivity| |reflexivity].
      eapply r_seq0; [|apply (r_ts0 (lit "{}")); exact Hsp]. fold root_e. unfold root_e. cbn [al].
      do 3 (apply r_alt2; [apply f_nt; apply f_seq; apply f_lit; reflexivity|]).
      apply r_alt1. apply (r_use [] x (lit " ") (lit "{}")); auto. constructor.
    + apply f_nt. cbn [rule sq]. eapply f_seq2; [apply (r_ts0 (lit "{}")); exact Hsp|].
      apply f_seq. apply (f_root_brace []).
  - (* Script *)
    apply e_file_item; [exact Hh|]. apply r_root_ts; [apply no_sep_head; reflexivity|].
    do 3 (apply e_alt2; [apply f_nt; apply f_seq; apply f_lit; reflexivity|]).
    apply e_alt2; [apply f_use; reflexivity|].
    apply e_alt1. apply e_nt. cbn [rule sq cuts map].
    eapply e_seq2; [apply r_nodef; reflexivity|].
    eapply e_seq2; [apply r_lit; reflexivity|]. eapply e_seq2; [exact Rx0|].
    apply e_seq. apply e_cut. apply f_lit. pose proof (name_head 123 x (lit " {}") Hx eq_refl) as Hb.
    destruct (x ++ lit " {}") as [|c r]; [reflexivity|]. unfold no_head in Hb. cbn [heads] in Hb.
    cbv -[N.eqb] in Hb |- *. rewrite N.eqb_sym, Hb. reflexivity.
  - (* DEF: the name is taken, and no type follows *)
    assert (Rd : reads def_e (lit "DEF" ++ x ++ lit " {}") (lit "{}") [tname x]).
    { change (lit "DEF" ++ x ++ lit " {}") with (lit "DEF" ++ [] ++ x ++ lit " " ++ lit "{}").
      apply r_def; auto; [constructor|discriminate]. }
    eapply (e_file_rest h _ 10%N); [exact Hh|].
    apply r_nt; [reflexivity|reflexivity|]. cbn [rule]. apply r_star0.
    apply f_nt. cbn [rule sq]. eapply f_seq2; [apply r_nl; apply no_sep_head; reflexivity|].
    apply f_seq. fold root_e. unfold root_e. cbn [al].
    do 3 (apply f_alt; [apply f_nt; apply f_seq; apply f_lit; reflexivity|]).
    apply f_alt; [apply f_use; reflexivity|]. apply f_alt.
    + apply f_nt. cbn [rule sq]. eapply f_seq2; [exact Rd|]. apply f_seq. apply f_lit. reflexivity.
    + apply f_nt. rewrite Node_rule. cbn [sq]. eapply f_seq2; [exact Rd|]. apply f_seq. apply f_gi.
      apply f_name. reflexivity.
Qed.
Example C26_keyword_prefixed_names : is_name (lit "Table") = true /\ In (lit "ROUTE") root_keywords.
Proof. split; [reflexivity|cbn; auto 10]. Qed.

(** a field whose name continues USE or TRUE is swallowed by the field before it *)
Definition attrs_of (t : tree) : list tree :=
  match t with T G_vrmlFile _ [_; T G_vrmlScene _ [T G_rootItem _ [T G_Node _ (_ :: l)]]; _] => l | _ => [] end.
Definition a_field (nm : text) (l : list tree) : tree := T G_Attr [] [T G_name nm []; T G_Field [] l].
Theorem C26_keyword_prefixed_field_refuted x :
  safe_name x = true ->
  (exists c t, parses (NT G_vrmlFile) (10%N :: lit "Foo { a 1 USE" ++ x ++ lit " 2 }") (POk c [] [t]) /\
     attrs_of (erase t) =
       [a_field (lit "a") [T G_SFNumber (lit "1") []; T G_USE x [T G_name x []]; T G_SFNumber (lit "2") []]]) /\
  (exists c t, parses (NT G_vrmlFile) (10%N :: lit "Foo { a 1 TRUE" ++ x ++ lit " 2 }") (POk c [] [t]) /\
     attrs_of (erase t) =
       [a_field (lit "a") [T G_SFNumber (lit "1") []; T G_SFBool (lit "TRUE") []];
        a_field x [T G_SFNumber (lit "2") []]]).
Proof.
  intros Hx. pose proof (safe_is_name x Hx) as Hx'.
  assert (N1 : is_number (lit "1")) by (apply (num_plain [] (lit "1")); reflexivity).
  assert (N2 : is_number (lit "2")) by (apply (num_plain [] (lit "2")); reflexivity).
  split.
  - set (d := Doc [] [10%N] (RCons (RNode (Nd None (lit "Foo") (lit " ") (lit " ")
        (ACons (lit "a") (lit " ") (FPl (SCons (INum (lit "1")) (lit " ") (SCons (IUse [] x) (lit " ")
          (SCons (INum (lit "2")) (lit " ") SNil)))) ANil))) [] RNil)).
    assert (Hd : ok_doc d).
    { cbn. repeat split; auto; try discriminate; dsep; eauto. }
    destruct (doc_reads d Hd) as (c & l & P & E). apply (p_nt G_vrmlFile) in P. cbn [reported] in P.
    assert (Es : show_doc d = 10%N :: lit "Foo { a 1 USE" ++ x ++ lit " 2 }").
    { cbn. rewrite ?app_nil_r, <- ?app_assoc. reflexivity. }
    rewrite Es in P. do 2 eexists. split; [exact P|]. cbn [erase keeps]. rewrite E. reflexivity.
  - set (d := Doc [] [10%N] (RCons (RNode (Nd None (lit "Foo") (lit " ") (lit " ")
        (ACons (lit "a") (lit " ") (FPl (SCons (INum (lit "1")) (lit " ") (SCons (IBool true) [] SNil)))
        (ACons x (lit " ") (FPl (SCons (INum (lit "2")) (lit " ") SNil)) ANil)))) [] RNil)).
    assert (Hd : ok_doc d).
    { cbn. repeat split; auto; try discriminate; dsep; eauto. }
    destruct (doc_reads d Hd) as (c & l & P & E). apply (p_nt G_vrmlFile) in P. cbn [reported] in P.
    assert (Es : show_doc d = 10%N :: lit "Foo { a 1 TRUE" ++ x ++ lit " 2 }").
    { cbn. rewrite ?app_nil_r, <- ?app_assoc. reflexivity. }
    rewrite Es in P. do 2 eexists. split; [exact P|]. cbn [erase keeps]. rewrite E. reflexivity.
Qed.

(** ** C63: a file that holds nothing but its first line and separators is a
    syntax error as soon as the line is ended *)
Theorem C63_empty_scene_refuted h w :
  ~ In 10%N h -> sep_text (10%N :: w) -> parses (NT G_vrmlFile) (h ++ 10%N :: w) PErr.
Proof.
  intros Hh Hw. eapply (e_file_rest h w 10%N w); [exact Hh|].
  apply r_nt; [reflexivity|reflexivity|]. cbn [rule]. apply r_star0.
  apply f_nt. cbn [rule sq]. eapply f_seq2.
  - apply (r_ts (10%N :: w) []); [rewrite app_nil_r; reflexivity|exact Hw|apply no_sep_head; reflexivity].
  - apply f_seq. cbn [al].
    do 3 (apply f_alt; [apply f_nt; apply f_seq; apply f_lit; reflexivity|]).
    apply f_alt; [apply f_use; reflexivity|].
    apply f_alt; [apply f_script; reflexivity|]. apply f_node_noname; [reflexivity|]. apply f_name. reflexivity.
Qed.
(** the first line alone, without its end, is accepted *)
Theorem C63_first_line_alone h : ~ In 10%N h ->
  exists t, parses (NT G_vrmlFile) h (POk h [] [t]).
Proof.
  intros Hh. destruct (doc_reads (Doc h [] RNil)) as (c & l & P & _).
  { cbn. repeat split; auto. constructor. }
  cbn [show_doc show_roots] in P. rewrite !app_nil_r in P. apply (p_nt G_vrmlFile) in P. cbn [reported] in P.
  destruct (C62_accepted_text_is_consumed _ _ _ _ P) as [-> _]. eauto.
Qed.
Example C63_header : ~ In 10%N (lit "#VRML V2.0 utf8") /\ sep_text (10%N :: []).
Proof. split; [dnin|dsep]. Qed.

Print Assumptions C62_parser_answers_every_text.
Print Assumptions C62_accepted_text_is_consumed.
Print Assumptions C25_separators_are_maximal.
Print Assumptions C25_layout_does_not_matter.
Print Assumptions C26_plain_names_are_read.
Print Assumptions C26_keyword_prefixed_type_refuted.
Print Assumptions C26_keyword_prefixed_field_refuted.
Print Assumptions C63_empty_scene_refuted.
Print Assumptions C63_first_line_alone.
