(** C89-C91: files in the X3D grammar. *)
From Coq Require Import Reals SpecFloat.
From Flocq Require Import Core.Core IEEE754.BinarySingleNaN.
From Verif Require Import Base Text PyDict PyDict_Proofs Float Coerce_Model Coerce_Spec Grammar_Model Grammar_Proofs Lex_Spec Lex_Proofs
  Doc_Spec Doc_Proofs SceneGraph_Model VrmlStr_Model VrmlStr_Values Scene_Model Scene_Spec Build_Model Reading_Spec Reading_Proofs Reading_Facts
  StdNodes Std_Proofs P_VrmlStr P_Grammar P_Linearise P_Scene P_Reading Script_Spec P_Script
  X3D_Spec X3D_Model X3D_Parser X3D_Proofs X3D_File.
Local Open Scope nat_scope.
Local Open Scope list_scope.

(** parsing the text with the X3D grammar gives [r]: PROTOs and scene, or an
    exception of the processor *)
Definition xloads (P : prims) (base : list (text * list fdecl)) (s : text) (r : res file) : Prop :=
  exists c trees, xparses (xrule G_vrmlFile) s (POk c [] trees) /\ build_file P base trees = r.
(** ParserSyntaxError, in the X3D and in the VRML97 grammar *)
Definition x_syntax_error (s : text) : Prop := xparses (xrule G_vrmlFile) s PErr.
Definition v_syntax_error (s : text) : Prop := parses (rule G_vrmlFile) s PErr.
(** the VRML97 text has a list of numbers within a list *)
Definition vector_in (s : text) : Prop :=
  exists c trees, parses (rule G_vrmlFile) s (POk c [] trees) /\ existsb has_vector trees = true.

Lemma x_start h k : x3d_start h k -> exists t, xparses (NT G_header) (h ++ k) (POk h k [T G_header h t]).
Proof.
  intros [h0 k0 H1 H2 H3|h0 key value s1 s2 k0 H1 H2 H3 H4].
  - apply x_header; assumption.
  - rewrite <- app_assoc. eapply x_header_meta; eassumption.
Qed.
Lemma build_shift P base t l : build_file P base (t :: shift_scene l) = build_file P base (t :: l).
Proof.
  destruct l as [|[n c [|[m c' ch] r]] [|e [|]]]; reflexivity.
Qed.
Lemma build_header P base t t' l : build_file P base (t :: l) = build_file P base (t' :: l).
Proof. reflexivity. Qed.
(** the X3D file and the VRML97 file with the same body *)
Lemma same_body h line k v : x3d_start h k -> no_words k -> ~ In 10%N line -> parses scene_e k v ->
  xparses (xrule G_vrmlFile) (h ++ k) PErr /\ (v = PErr \/ hasvec v = true) \/
  exists t, hasvec v = false /\
    xparses (xrule G_vrmlFile) (h ++ k) match v with POk c k' l => POk (h ++ c) k' (T G_header h t :: l) | o => o end.
Proof.
  intros Hs W Hl Pv. destruct (scene_agrees k v W Pv) as (x & Px & Ag). destruct (x_start h k Hs) as [t Ph].
  pose proof (x_file h k _ x Ph Px) as F. destruct Ag as [[-> Hv]|[-> Hr]].
  - right. exists t. split; [exact Hv|]. destruct v; exact F.
  - left. auto.
Qed.

(** C89.  An X3D file with the body b gives what the VRML97 file with that body
    gives, unless that has a vector within a list; and it is a syntax error
    exactly where the VRML97 file is one, or has such a vector. *)
Theorem C89_x3d_files_read_as_vrml97 : forall P base h b line r, x3d_start h b -> b <> [] -> no_words b -> ~ In 10%N line ->
  (xloads P base (h ++ b) r <-> loads P base (line ++ 10%N :: b) r /\ ~ vector_in (line ++ 10%N :: b)) /\
  (x_syntax_error (h ++ b) <-> v_syntax_error (line ++ 10%N :: b) \/ vector_in (line ++ 10%N :: b)).
Proof.
  intros P base h b line r Hs Hb W Hl. destruct (scene_total b) as [v Pv].
  destruct (scene_newline b v Hb Pv) as [[-> Pn]|(c & l & -> & Vs & Pn)].
  - pose proof (v_file line b PErr Hl Pn) as Fv. cbn in Fv.
    assert (Fx : xparses (xrule G_vrmlFile) (h ++ b) PErr).
    { destruct (same_body h line b PErr Hs W Hl Pv) as [[F _]|(t & _ & F)]; exact F. }
    split; split.
    + intros (c & tr & Q & _). pose proof (xparses_det _ _ _ _ Fx Q). discriminate.
    + intros [(c & tr & Q & _) _]. pose proof (parses_det _ _ _ _ Fv Q). discriminate.
    + intros _. left. exact Fv.
    + intros _. exact Fx.
  - pose proof (v_file line b _ Hl Pn) as Fv. cbn in Fv.
    destruct (same_body h line b _ Hs W Hl Pv) as [[Fx [E|Hv]]|(t & Hv & Fx)]; [discriminate| |].
    + assert (Vi : vector_in (line ++ 10%N :: b)).
      { eexists _, _. split; [exact Fv|]. cbn [existsb has_vector orb]. cbn [hasvec] in Hv. unfold vecs in *. rewrite Vs. exact Hv. }
      split; split.
      * intros (c' & tr & Q & _). pose proof (xparses_det _ _ _ _ Fx Q). discriminate.
      * intros [_ N]. contradiction.
      * intros _. right. exact Vi.
      * intros _. exact Fx.
    + cbn [hasvec] in Hv.
      assert (Nv : ~ vector_in (line ++ 10%N :: b)).
      { intros (c' & tr & Q & V). pose proof (parses_det _ _ _ _ Fv Q) as E. injection E as <- <-. cbn [existsb has_vector orb] in V.
        unfold vecs in *. congruence. }
      split; split.
      * intros (c' & tr & Q & B). pose proof (xparses_det _ _ _ _ Fx Q) as E. injection E as <- <-. split; [|exact Nv].
        eexists _, _. split; [exact Fv|]. rewrite build_shift, <- B. apply build_header.
      * intros [(c' & tr & Q & B) _]. pose proof (parses_det _ _ _ _ Fv Q) as E. injection E as <- <-.
        eexists _, _. split; [exact Fx|]. rewrite <- B, build_shift. apply build_header.
      * intros Q. pose proof (xparses_det _ _ _ _ Fx Q). discriminate.
      * intros [Q|Q]; [|contradiction]. pose proof (parses_det _ _ _ _ Fv Q). discriminate.
Qed.
Print Assumptions C89_x3d_files_read_as_vrml97.

(** C89, for documents: nodes, field values, DEF/USE, ROUTEs, PROTOs, Scripts and
    EXTERNPROTOs mean in an X3D file what they mean in a VRML97 file. *)
Theorem C89_documents : forall P base h line w l r, ok_doc (Doc line w l) -> l <> RNil ->
  x3d_header h (w ++ show_roots l) -> no_words (w ++ show_roots l) ->
  xloads P base (h ++ w ++ show_roots l) r <-> loads P base (show_doc (Doc line w l)) r.
Proof.
  intros P base h line w l r Ok Hn Hh W. pose proof Ok as (Hl & Sw & Ol & Hw).
  assert (exists w', w = 10%N :: w') as [w' ->] by (destruct l; [congruence|exact Hw]). clear Hw.
  pose proof (doc_reads _ Ok) as DR. pose proof (fun c t => doc_trees_novec _ c t Ok) as DN.
  cbn [show_doc app] in *. set (b := w' ++ show_roots l) in *. clearbody b.
  assert (Hs : x3d_start h (10%N :: b)).
  { constructor; [exact Hh| |]; intros [q E]; discriminate E. }
  destruct (scene_total (10%N :: b)) as [v Pv]. pose proof (v_file line b v Hl Pv) as Fv.
  destruct (same_body h line _ v Hs W Hl Pv) as [[Fx Hv]|(t & Hv & Fx)].
  - exfalso. destruct DR as (c & trees & Pa & _).
    destruct Hv as [->|Hv].
    + pose proof (parses_det _ _ _ _ Fv Pa). discriminate.
    + destruct v as [c' k' l'| |]; try discriminate. pose proof (scene_ok _ _ _ _ Pv) as ->.
      pose proof (DN _ _ Fv) as N. unfold vecs in *. cbn [existsb has_vector orb] in N. cbn [hasvec] in Hv. unfold vecs in Hv. congruence.
  - split; intros (c & trees & Q & B).
    + pose proof (xparses_det _ _ _ _ Fx Q) as E. destruct v as [c' k' l'| |]; try discriminate. injection E as <- -> <-.
      eexists _, _. split; [exact Fv|]. rewrite <- B. apply build_header.
    + pose proof (parses_det _ _ _ _ Fv Q) as E. destruct v as [c' k' l'| |]; try discriminate. injection E as <- -> <-.
      eexists _, _. split; [exact Fx|]. rewrite <- B. apply build_header.
Qed.
Print Assumptions C89_documents.

(** a file without a body is an empty scene *)
Theorem C89_empty : forall P base h, x3d_start h [] -> xloads P base h (Ok file0).
Proof.
  intros P base h Hs. destruct (x_start h [] Hs) as [t Ph]. rewrite app_nil_r in Ph.
  assert (Pe : xparses scene_e [] (POk [] [] [T G_vrmlScene [] []; T G_EOF [] []])) by (exists 30; reflexivity).
  pose proof (x_file h [] _ _ (eq_rect_r (fun s => xparses (NT G_header) s _) Ph (app_nil_r h)) Pe) as F. rewrite app_nil_r in F.
  eexists _, _. split; [exact F|]. reflexivity.
Qed.
Print Assumptions C89_empty.

(** *** examples *)
Fixpoint wordless (s : text) : bool :=
  forallb (fun w => match strip w s with Some _ => false | None => true end) x3d_words &&
  match s with [] => true | _ :: r => wordless r end.
Lemma wordless_ok s : wordless s = true -> no_words s.
Proof.
  induction s as [|c s IH]; intros H w a b Hw E.
  - destruct a; [|discriminate]. cbn in E, Hw. repeat destruct Hw as [<-|Hw]; try discriminate. destruct Hw.
  - cbn [wordless] in H. apply andb_true_iff in H as [H1 H2]. destruct a as [|x a].
    + cbn [app] in E. rewrite E in H1. rewrite forallb_forall in H1. specialize (H1 w Hw). rewrite strip_ok in H1. discriminate.
    + injection E as -> E. exact (IH H2 w a b Hw E).
Qed.
Definition nl : text := [10%N].
Definition xhead : text := lit "#X3D V3.0 utf8" ++ nl ++ lit "PROFILE Immersive" ++ nl.
Lemma xhead_ok k : x3d_header xhead k.
Proof.
  change xhead with (lit "#X3D V" ++ lit "3.0 utf8" ++ nl ++ lit "PROFILE " ++ lit "Immersive" ++ nl).
  apply (xh (lit "3.0 utf8") (lit "Immersive") nl nl k); [|reflexivity|constructor|constructor].
  intros c Hc. change (lit "3.0 utf8") with [51; 46; 48; 32; 117; 116; 102; 56]%N in Hc. cbn in Hc.
  repeat destruct Hc as [<-|Hc]; try (split; discriminate). destruct Hc.
Qed.
(** the document of P_Reading.v as an X3D file *)
Definition after_line (d : doc) : text := let (_, w, l) := d in w ++ show_roots l.
Example pins_as_x3d : exists tab S0, xloads P_ex std_protos (xhead ++ after_line pins) (Ok (tab, S0)) /\
  s_kids S0 = [RNode 0; RNode 2; RNode 3] /\ getDEF (s_defs S0) (lit "A") = Some 2.
Proof.
  destruct pins_read as (tab & S0 & L & _ & _ & _ & _ & _ & Q). exists tab, S0. split; [|exact Q].
  apply (C89_documents P_ex std_protos xhead (lit "#VRML V2.0 utf8"));
    [exact (proj1 pins_ok)|discriminate|apply xhead_ok|apply wordless_ok; vm_compute; reflexivity|exact L].
Qed.
(** a META statement and a vector within a list: VRML97 reads the latter *)
Definition xmeta : text := xhead ++ meta_text (lit "title") (lit "box").
Definition xvec : text := nl ++ lit "Shape { geometry IndexedFaceSet { coordIndex [ [ 0 1 ] [ 2 3 ] ] } }".
Lemma xmeta_ok k : ~ begins (lit "META") k -> x3d_start xmeta k.
Proof.
  intros H. assert (B : forall t, forallb plain_char t = true -> string_body t t).
  { induction t as [|c t IH]; intros Ht; [constructor|]. cbn [forallb] in Ht. apply andb_true_iff in Ht as [H1 H2].
    apply plain_iff in H1 as [H1 H3]. constructor; auto. }
  eapply xs_meta; [apply xhead_ok|apply B; reflexivity|apply B; reflexivity|exact H].
Qed.
Example vector_is_an_error : x_syntax_error (xmeta ++ xvec) /\ vector_in (lit "#VRML V2.0 utf8" ++ 10%N :: xvec).
Proof.
  assert (V : vector_in (lit "#VRML V2.0 utf8" ++ 10%N :: xvec)).
  { destruct (run 100 (rule G_vrmlFile) (lit "#VRML V2.0 utf8" ++ 10%N :: xvec)) as [[c [|] l| |]|] eqn:E;
      try (vm_compute in E; discriminate E).
    exists c, l. split; [exists 100; exact E|]. vm_compute in E. injection E as <- <-. reflexivity. }
  split; [|exact V].
  apply (C89_x3d_files_read_as_vrml97 P_ex std_protos xmeta xvec (lit "#VRML V2.0 utf8") (Ok file0)).
  - apply xmeta_ok. intros [q E]. discriminate E.
  - discriminate.
  - apply wordless_ok. vm_compute. reflexivity.
  - intros H. change (lit "#VRML V2.0 utf8") with [35; 86; 82; 77; 76; 32; 86; 50; 46; 48; 32; 117; 116; 102; 56]%N in H. cbn in H.
    repeat destruct H as [H|H]; try discriminate. exact H.
  - right. exact V.
Qed.

(** *** headers the grammar does not read *)
(** a name that does not start a node at this place *)
Lemma no_root w n w' c k : sep_text w -> is_name n = true -> forallb (fun p => negb (starts_with p n)) keywords = true ->
  sep_text w' -> no_sep (c :: k) -> c <> 123%N -> ends_name (w' ++ c :: k) = true ->
  xparses (NT G_rootItem) (w ++ n ++ w' ++ c :: k) PFail.
Proof.
  intros Sw Hn Hk Sw' Nc Hc He.
  assert (Ts : xparses TS (w ++ n ++ w' ++ c :: k) (POk w (n ++ w' ++ c :: k) [])).
  { apply lex_x; [reflexivity|]. apply p_ts; [exact Sw|apply name_no_sep; exact Hn]. }
  assert (Kw : forall p, In p keywords -> forallb name_char p = true -> strip p (n ++ w' ++ c :: k) = None).
  { intros p Hp Hnc. apply kw_strip; [exact Hnc| |exact He]. rewrite forallb_forall in Hk. apply negb_true_iff. exact (Hk p Hp). }
  apply xp_nt_bad; [|auto]. cbn [xrule rule sq]. eapply xp_seq_bad2; [exact Ts| |auto]. apply xp_seq_bad; [|auto]. cbn [al].
  assert (Fk : forall str l, In (lit str) keywords -> forallb name_char (lit str) = true -> xparses (sq (tk str) l) (n ++ w' ++ c :: k) PFail).
  { intros str l Hi Hnc. pose proof (xp_lit_fail _ _ (Kw _ Hi Hnc)) as F. destruct l; [exact F|]. apply xp_seq_bad; [exact F|auto]. }
  apply xp_alt2; [apply xp_nt_bad; [|auto]; cbn [xrule rule]; apply Fk; [cbn; auto|reflexivity]|].
  apply xp_alt2; [apply xp_nt_bad; [|auto]; cbn [xrule rule]; apply Fk; [cbn; auto|reflexivity]|].
  apply xp_alt2; [apply xp_nt_bad; [|auto]; cbn [xrule rule]; apply Fk; [cbn; auto|reflexivity]|].
  apply xp_alt2; [apply (Fk "USE"%string [TS; NT G_USE; TS]); [cbn; auto|reflexivity]|].
  assert (Od : xparses (Opt (sq (tk "DEF") (TS :: cuts [NT G_name; TS]))) (n ++ w' ++ c :: k) (POk [] (n ++ w' ++ c :: k) [])).
  { apply xp_opt0. apply Fk; [cbn; auto 10|reflexivity]. }
  apply xp_alt2.
  - apply xp_nt_bad; [|auto]. cbn [xrule rule sq]. eapply xp_seq_bad2; [apply Od| |auto]. cbn [sq]. apply xp_seq_bad; [|auto].
    apply xp_lit_fail. apply Kw; [cbn; auto 10|reflexivity].
  - apply xp_nt_bad; [|auto]. cbn [xrule rule sq]. eapply xp_seq_bad2; [apply Od| |auto].
    eapply xp_seq_bad2; [apply (xp_nt G_nodegi); cbn [xrule rule]; apply x_name; [exact Hn|exact He]| |auto].
    eapply xp_seq_bad2; [apply lex_x; [reflexivity|apply p_ts; [exact Sw'|exact Nc]]| |auto].
    apply xp_seq_bad; [|auto]. apply xp_lit_fail. change (lit "{") with [123%N]. cbn [strip].
    destruct (N.eqb_spec 123 c) as [<-|_]; [congruence|reflexivity].
Qed.
Lemma no_scene k : k <> [] -> xparses (NT G_rootItem) k PFail -> xparses scene_e k PErr.
Proof.
  intros Hk H. destruct k as [|c k]; [congruence|]. unfold scene_e.
  eapply xp_seq_bad2; [apply xp_nt; cbn [xrule rule]; apply xp_star0; exact H| |auto].
  apply xp_cut_fail. apply xp_nt_bad; [|auto]. cbn [xrule rule]. apply xp_eof_fail.
Qed.

Lemma starts_name c : name_char c = true -> starts_sep [c] = false.
Proof.
  intros H. unfold name_char in H. cbn. unfold blank. destruct (c =? 32)%N eqn:E1; [apply N.eqb_eq in E1; subst; discriminate|].
  destruct (c =? 44)%N eqn:E2; [apply N.eqb_eq in E2; subst; discriminate|].
  destruct (c =? 35)%N eqn:E3; [apply N.eqb_eq in E3; subst; discriminate|].
  destruct ((9 <=? c) && (c <=? 13))%N eqn:E4; [|reflexivity].
  apply andb_true_iff in E4 as [_ E4]. apply N.leb_le in E4.
  assert (A : (c <=? 16 = true)%N) by (apply N.leb_le; lia). rewrite A in H. discriminate.
Qed.
Lemma number_no_sep n k : is_number n -> no_sep (n ++ k).
Proof.
  intros H. apply no_sep_head. destruct n as [|c n].
  { exfalso. inversion H; destruct sg; try discriminate; destruct d; discriminate. }
  assert (A : (sign c || digit_or_dot c)%bool = true).
  { inversion H as [sg x h Hs _ _ _ E|sg d Hs Hd Hn E|sg d e x Hs Hd Hn _ _ _ E]; destruct sg as [|y sg]; cbn in E.
    - injection E as <- _. reflexivity.
    - injection E as -> _. cbn [forallb] in Hs. apply andb_true_iff in Hs as [Hs _]. rewrite Hs. reflexivity.
    - subst d. cbn [forallb] in Hd. apply andb_true_iff in Hd as [Hd _]. rewrite Hd. apply orb_true_r.
    - injection E as -> _. cbn [forallb] in Hs. apply andb_true_iff in Hs as [Hs _]. rewrite Hs. reflexivity.
    - destruct d as [|z d]; [discriminate|]. injection E as -> _. cbn [forallb] in Hd. apply andb_true_iff in Hd as [Hd _]. rewrite Hd. apply orb_true_r.
    - injection E as -> _. cbn [forallb] in Hs. apply andb_true_iff in Hs as [Hs _]. rewrite Hs. reflexivity. }
  cbn. apply expo_name in A as [A|A].
  - exact (starts_name c A).
  - subst c. reflexivity.
Qed.
(** C90.  Two META statements, apart from each other: whatever follows, a syntax error. *)
Theorem C90_two_metas_refuted : forall h key value s1 s2 w rest,
  x3d_header h (meta_text key value ++ w ++ lit "META " ++ 34%N :: rest) -> string_body key s1 -> string_body value s2 ->
  sep_text w -> w <> [] -> x_syntax_error (h ++ meta_text key value ++ w ++ lit "META " ++ 34%N :: rest).
Proof.
  intros h key value s1 s2 w rest Hh H1 H2 Sw Hw.
  assert (Nm : ~ begins (lit "META") (w ++ lit "META " ++ 34%N :: rest)).
  { intros [r E]. destruct Sw as [|c w Hc _|body w _ _]; [congruence| |discriminate E].
    injection E as -> _. discriminate Hc. }
  destruct (x_header_meta h key value s1 s2 _ Hh H1 H2 Nm) as [t Ph]. rewrite app_assoc in Ph. rewrite app_assoc.
  apply (x_file _ _ _ PErr Ph). apply no_scene; [destruct w; discriminate|].
  apply (no_root w (lit "META") (lit " ") 34%N rest); try reflexivity; try assumption; try discriminate.
  - constructor; [reflexivity|constructor].
  - apply no_sep_head. reflexivity.
Qed.
Print Assumptions C90_two_metas_refuted.

(** A COMPONENT statement as the standard writes it, "COMPONENT name:level": a syntax error. *)
Theorem C90_components_refuted : forall h nm level w c rest,
  x3d_header h (lit "COMPONENT " ++ nm ++ lit ":" ++ level ++ w ++ c :: rest) -> is_name nm = true ->
  forallb digit level = true -> sep_text w -> w <> [] -> no_sep (c :: rest) -> c <> 58%N ->
  x_syntax_error (h ++ lit "COMPONENT " ++ nm ++ lit ":" ++ level ++ w ++ c :: rest).
Proof.
  intros h nm level w c rest Hh Hn Hd Sw Hw Nc Hc. set (k := lit "COMPONENT " ++ nm ++ lit ":" ++ level ++ w ++ c :: rest) in *.
  assert (Hn' : is_name (nm ++ lit ":" ++ level) = true).
  { destruct nm as [|x nm]; [discriminate|]. cbn [is_name app] in *. apply andb_true_iff in Hn as [H1 H2]. rewrite H1.
    rewrite !forallb_app, H2. cbn [andb]. apply forallb_forall. intros d Hd'. rewrite forallb_forall in Hd. apply Hd in Hd'.
    destruct (dod_name d) as [A|A]; [unfold digit_or_dot; rewrite Hd'; reflexivity|exact A|subst d; discriminate]. }
  assert (Hwe : ends_name (w ++ c :: rest) = true).
  { destruct Sw as [|x w Hx _|body w _ _]; [congruence| |reflexivity]. cbn. apply negb_true_iff.
    destruct (name_char x) eqn:E; [|reflexivity]. exfalso. pose proof (name_no_sep [x] [] ) as Q. cbn in Q.
    clear - Hx E. unfold blank in Hx. unfold name_char in E. apply orb_true_iff in Hx as [Hx|Hx]; [apply orb_true_iff in Hx as [Hx|Hx]|].
    - apply N.eqb_eq in Hx. subst. discriminate.
    - apply andb_true_iff in Hx as [_ Hx]. apply N.leb_le in Hx. assert (x <=? 16 = true)%N as A by (apply N.leb_le; lia). rewrite A in E. discriminate.
    - apply N.eqb_eq in Hx. subst. discriminate. }
  destruct (x_lines h k Hh) as [l Pl].
  assert (Pc : xparses component_statement k PFail).
  { unfold component_statement, k. cbn [sq].
    replace (lit "COMPONENT " ++ nm ++ lit ":" ++ level ++ w ++ c :: rest)
      with (lit "COMPONENT" ++ 32%N :: (nm ++ lit ":" ++ level) ++ w ++ c :: rest) by (rewrite <- !app_assoc; reflexivity).
    eapply xp_seq_bad2; [apply x_tk| |auto]. eapply xp_seq_bad2; [apply x_blank; apply name_no_sep; exact Hn'| |auto].
    eapply xp_seq_bad2; [apply x_name; [exact Hn'|exact Hwe]| |auto].
    eapply xp_seq_bad2; [apply lex_x; [reflexivity|apply p_ts; [exact Sw|exact Nc]]| |auto].
    apply xp_seq_bad; [|auto]. apply xp_lit_fail. change (lit ":") with [58%N]. cbn [strip].
    destruct (N.eqb_spec 58 c) as [<-|_]; [congruence|reflexivity]. }
  assert (Ps : xparses (Seq (Star component_statement) (Star meta_statement)) k (POk [] k [])).
  { eapply xp_seq'; [apply xp_star0; exact Pc|apply x_no_meta; intros [r E]; discriminate E|reflexivity|reflexivity]. }
  pose proof (xp_seq_split _ _ _ _ _ _ _ _ _ _ Pl Ps) as Q. rewrite !app_nil_r in Q.
  pose proof (xp_nt G_header _ _ _ _ Q) as Ph. apply (x_file _ _ _ PErr Ph). apply no_scene; [discriminate|].
  destruct nm as [|x nm]; [discriminate|]. unfold k.
  apply (no_root [] (lit "COMPONENT") (lit " ") x (nm ++ lit ":" ++ level ++ w ++ c :: rest)); try reflexivity.
  - constructor.
  - constructor; [reflexivity|constructor].
  - exact (name_no_sep (x :: nm) _ Hn).
  - intros ->. discriminate Hn.
Qed.
Print Assumptions C90_components_refuted.

(** A version that is a number, as the grammar has it: the line of the profile
    is taken for a comment, and the text is not matched. *)
Theorem C90_version_refuted : forall num profile body, is_number num -> is_name profile = true -> ~ begins (lit "PROFILE") body ->
  xparses (xrule G_vrmlFile) (lit "#X3D " ++ num ++ lit " utf8" ++ 10%N :: lit "PROFILE " ++ profile ++ 10%N :: body) PFail.
Proof.
  intros num profile body Hn Hp Hb. cbn [xrule rule sq]. apply xp_seq_bad; [|auto]. apply xp_nt_bad; [|auto]. cbn [xrule sq].
  eapply xp_seq_bad2.
  - apply xp_alt1; [|discriminate].
    replace (lit "#X3D " ++ num ++ lit " utf8" ++ 10%N :: lit "PROFILE " ++ profile ++ 10%N :: body)
      with (lit "#X3D" ++ 32%N :: num ++ 32%N :: lit "utf8" ++ 10%N :: (lit "PROFILE " ++ profile) ++ nl ++ body)
      by (rewrite <- !app_assoc; reflexivity).
    cbn [sq]. eapply xp_seq; [apply x_tk|]. eapply xp_seq.
    { apply x_blank. apply number_no_sep. exact Hn. }
    eapply xp_seq; [apply lex_x; [reflexivity|apply p_number; [exact Hn|reflexivity]]|].
    eapply xp_seq; [apply x_blank; apply no_sep_head; reflexivity|]. eapply xp_seq; [apply x_tk|].
    eapply xp_seq.
    { apply lex_x; [reflexivity|]. apply (p_ts [10%N]); [constructor; [reflexivity|constructor]|]. apply no_sep_head. reflexivity. }
    eapply xp_seq.
    { apply xp_opt1; [|discriminate]. apply x_comment; [discriminate| |constructor].
      intros c Hc. apply in_app_iff in Hc as [Hc|Hc].
      - change (lit "PROFILE ") with [80; 82; 79; 70; 73; 76; 69; 32]%N in Hc. cbn in Hc.
        repeat destruct Hc as [<-|Hc]; try (split; discriminate). destruct Hc.
      - assert (A : name_char c = true).
        { destruct profile as [|x p]; [discriminate|]. cbn [is_name] in Hp. apply andb_true_iff in Hp as [Hx Hp]. apply andb_true_iff in Hx as [_ Hx].
          destruct Hc as [<-|Hc]; [exact Hx|]. rewrite forallb_forall in Hp. exact (Hp c Hc). }
        split; intros ->; discriminate A. }
    apply (x_line_end nl body). constructor.
  - apply xp_seq_bad; [|auto]. apply xp_seq_bad; [|auto]. apply xp_lit_fail. apply not_begins. exact Hb.
  - auto.
Qed.
Print Assumptions C90_version_refuted.
Example two_metas : x_syntax_error (xhead ++ meta_text (lit "title") (lit "box") ++ nl ++ meta_text (lit "author") (lit "me") ++ nl ++ lit "Group { }").
Proof.
  assert (B : forall t, forallb plain_char t = true -> string_body t t).
  { induction t as [|c t IH]; intros Ht; [constructor|]. cbn [forallb] in Ht. apply andb_true_iff in Ht as [H1 H2].
    apply plain_iff in H1 as [H1 H3]. constructor; auto. }
  eapply (C90_two_metas_refuted xhead (lit "title") (lit "box") _ _ nl); try (apply B; reflexivity); [apply xhead_ok| |discriminate].
  constructor; [reflexivity|constructor].
Qed.
Example a_component : x_syntax_error (xhead ++ lit "COMPONENT Geospatial:1" ++ nl ++ lit "Group { }").
Proof.
  apply (C90_components_refuted xhead (lit "Geospatial") (lit "1") nl 71%N (lit "roup { }")); try reflexivity; try discriminate.
  - apply xhead_ok.
  - constructor; [reflexivity|constructor].
  - apply no_sep_head. reflexivity.
Qed.

(** *** the words for the kinds of fields and events *)
(** how they are taken *)
Definition read_as (a : access) : text :=
  lit match a with InputOutput | InitializeOnly => "field" | InputOnly | OutputOnly => "eventIn" end.
(** the words of VRML97 for them *)
Definition vrml97_word (a : access) : text :=
  lit match a with InputOutput => "exposedField" | InitializeOnly => "field" | InputOnly => "eventIn" | OutputOnly => "eventOut" end.
Definition is_field (a : access) : bool := match a with InputOutput | InitializeOnly => true | _ => false end.
Definition as_xdecl (w : access -> text) (d : access * text * text) : xdecl :=
  let '(a, ty, nm) := d in
  if is_field a then XField (text_eqb (w a) (lit "exposedField")) (lit " ") ty (lit " ") nm (lit " ")
  else XEvent (text_eqb (w a) (lit "eventOut")) (lit " ") ty (lit " ") nm (lit " ").
Definition decl_tag (a : access) : nt := if is_field a then G_extFieldDecl else G_eventDecl.
Definition word_tag (a : access) : nt := if is_field a then G_fieldExposure else G_eventDirection.
(** the entry of a declaration *)
Definition entry_of (w : access -> text) (d : access * text * text) (t : tree) : Prop :=
  let '(a, ty, nm) := d in exists sp l1 l2 l3, t = T (decl_tag a) sp [T (word_tag a) (w a) l1; T G_dataType ty l2; T G_name nm l3].
Lemma nt_shape n s c r l : reported n = true -> parses (NT n) s (POk c r l) -> exists ch, l = [T n c ch].
Proof.
  intros R [m H]. destruct m as [|m]; [discriminate|]. cbn [run] in H.
  destruct (run m (rule n) s) as [[c1 k1 l1| |]|]; try discriminate. rewrite R in H. injection H as <- <- <-. eauto.
Qed.
Lemma x_type ty k : ok_type ty -> ends_name k = true -> exists l, xparses (NT G_dataType) (ty ++ k) (POk ty k [T G_dataType ty l]).
Proof.
  intros H K. destruct (r_type ty k H K) as (c & l & P & _).
  pose proof (parses_prefix _ _ _ _ _ P) as E. apply app_inv_tail in E. subst c.
  destruct (nt_shape G_dataType _ _ _ _ eq_refl P) as [ch ->]. exists ch. apply lex_x; [reflexivity|exact P].
Qed.
Lemma type_no_sep ty k : ok_type ty -> no_sep (ty ++ k).
Proof. intros [(b & -> & _)|(b & -> & _)]; apply no_sep_head; reflexivity. Qed.
(** " ty nm ", the part all declarations end with *)
Lemma x_decl_tail a w s k : xparses (NT (word_tag a)) s (POk w (lit " " ++ k) [T (word_tag a) w []]) -> forall ty nm k', k = ty ++ lit " " ++ nm ++ lit " " ++ k' ->
  ok_type ty -> is_name nm = true -> no_sep k' -> exists sp l2,
  xparses (NT (decl_tag a)) s (POk sp k' [T (decl_tag a) sp [T (word_tag a) w []; T G_dataType ty l2; T G_name nm []]]).
Proof.
  intros Pw ty nm k' -> Ht Hn Hk. destruct (x_type ty (lit " " ++ nm ++ lit " " ++ k') Ht eq_refl) as [l2 Pt].
  assert (Pn : xparses (NT G_name) (nm ++ lit " " ++ k') (POk nm (lit " " ++ k') [T G_name nm []])) by (apply x_name; [exact Hn|reflexivity]).
  assert (B1 : xparses TS (lit " " ++ ty ++ lit " " ++ nm ++ lit " " ++ k') (POk [32%N] (ty ++ lit " " ++ nm ++ lit " " ++ k') [])) by (apply x_blank; apply type_no_sep; exact Ht).
  assert (B2 : xparses TS (lit " " ++ nm ++ lit " " ++ k') (POk [32%N] (nm ++ lit " " ++ k') [])) by (apply x_blank; apply name_no_sep; exact Hn).
  assert (B3 : xparses TS (lit " " ++ k') (POk [32%N] k' [])) by (apply x_blank; exact Hk).
  assert (Cc : forall e s0 c0 k0 l0, xparses e s0 (POk c0 k0 l0) -> xparses (Cut e) s0 (POk c0 k0 l0)) by (intros; apply xp_cut; [assumption|discriminate]).
  eexists _, l2.
  assert (R : xparses (xrule (decl_tag a)) s (POk (w ++ [32%N] ++ ty ++ [32%N] ++ nm ++ [32%N]) k' [T (word_tag a) w []; T G_dataType ty l2; T G_name nm []])).
  { destruct a; cbn [decl_tag is_field xrule rule sq cuts map];
      (eapply xp_seq'; [exact Pw| |reflexivity|]; [eapply xp_seq'; [exact B1|eapply xp_seq'; [apply Cc; exact Pt|eapply xp_seq'; [apply Cc; exact B2|
        eapply xp_seq'; [apply Cc; exact Pn|apply Cc; exact B3|reflexivity|reflexivity]|reflexivity|reflexivity]|reflexivity|reflexivity]|reflexivity|reflexivity]|reflexivity]). }
  pose proof (xp_nt (decl_tag a) _ _ _ _ R) as Q. destruct a; exact Q.
Qed.
Definition decl_text (w : access -> text) (d : access * text * text) : text :=
  w (fst (fst d)) ++ lit " " ++ snd (fst d) ++ lit " " ++ snd d ++ lit " ".
Lemma x_word a k : xparses (NT (word_tag a)) (x3d_word a ++ k) (POk (x3d_word a) k [T (word_tag a) (x3d_word a) []]).
Proof.
  destruct a; unfold x3d_word; cbn [word_tag is_field]; (apply (xp_nt G_fieldExposure _ _ _ []) || apply (xp_nt G_eventDirection _ _ _ [])); cbn [xrule al].
  - apply xp_alt1; [|discriminate]. apply x_tk.
  - apply xp_alt2; [apply xp_lit_fail; reflexivity|]. apply xp_alt1; [|discriminate]. apply x_tk.
  - apply xp_alt1; [|discriminate]. apply x_tk.
  - apply xp_alt2; [apply xp_lit_fail; reflexivity|]. apply xp_alt1; [|discriminate]. apply x_tk.
Qed.
Lemma x_decl d k : ok_type (snd (fst d)) -> is_name (snd d) = true -> no_sep k ->
  exists sp t, entry_of x3d_word d t /\ xparses (Alt (NT G_extFieldDecl) (NT G_eventDecl)) (decl_text x3d_word d ++ k) (POk sp k [t]).
Proof.
  destruct d as [[a ty] nm]. cbn [fst snd]. intros Ht Hn Hk.
  destruct (x_decl_tail a (x3d_word a) (decl_text x3d_word (a, ty, nm) ++ k) (ty ++ lit " " ++ nm ++ lit " " ++ k)) with (ty := ty) (nm := nm) (k' := k)
    as (sp & l2 & P); try assumption.
  - unfold decl_text. cbn [fst snd]. rewrite <- !app_assoc. apply x_word.
  - reflexivity.
  - exists sp. eexists. split; [|destruct a; cbn [decl_tag is_field] in P].
    + unfold entry_of. exists sp, [], l2, []. reflexivity.
    + apply xp_alt1; [exact P|discriminate].
    + apply xp_alt1; [exact P|discriminate].
    + apply xp_alt2; [|exact P]. apply xp_nt_bad; [|auto]. cbn [xrule rule sq]. apply xp_seq_bad; [|auto]. apply xp_nt_bad; [|auto]. exists 20. reflexivity.
    + apply xp_alt2; [|exact P]. apply xp_nt_bad; [|auto]. cbn [xrule rule sq]. apply xp_seq_bad; [|auto]. apply xp_nt_bad; [|auto]. exists 20. reflexivity.
Qed.
Lemma x_decls ds k : Forall (fun d => ok_type (snd (fst d)) /\ is_name (snd d) = true) ds ->
  exists sp l, Forall2 (entry_of x3d_word) ds l /\
    xparses (Star (Alt (NT G_extFieldDecl) (NT G_eventDecl))) (List.concat (map (decl_text x3d_word) ds) ++ lit "]" ++ k) (POk sp (lit "]" ++ k) l).
Proof.
  induction 1 as [|d ds [Ht Hn] _ (sp & l & F & P)].
  - exists [], []. split; [constructor|]. cbn [map List.concat app]. apply xp_star0. exists 30. reflexivity.
  - destruct (x_decl d (List.concat (map (decl_text x3d_word) ds) ++ lit "]" ++ k) Ht Hn) as (sp1 & t & E & P1).
    { apply no_sep_head. destruct ds as [|[[a ty] nm] ds]; [reflexivity|]. destruct a; reflexivity. }
    exists (sp1 ++ sp), (t :: l). split; [constructor; assumption|]. cbn [map List.concat]. rewrite <- app_assoc.
    exact (xp_starS _ _ _ _ [t] _ _ l P1 P).
Qed.

Lemma xdecls_words P w w' ds : (forall a, is_field a = true -> text_eqb (w a) (lit "exposedField") = text_eqb (w' a) (lit "exposedField")) ->
  (forall a, is_field a = false -> text_eqb (w a) (lit "eventOut") = text_eqb (w' a) (lit "eventOut")) ->
  forall l l' sp sp' u mem, Forall2 (entry_of w) ds l -> Forall2 (entry_of w') ds l' ->
  xdecls P (l ++ [T G_ExtProtoURL sp u]) mem = xdecls P (l' ++ [T G_ExtProtoURL sp' u]) mem.
Proof.
  intros Hf He. induction ds as [|[[a ty] nm] ds IH]; intros l l' sp sp' u mem F F'; inversion F as [|? t ? r E1 Fr]; inversion F' as [|? t' ? r' E1' Fr']; subst; [reflexivity|].
  destruct E1 as (s0 & l1 & l2 & l3 & ->), E1' as (s0' & l1' & l2' & l3' & ->). cbn [app xdecls].
  pose proof (Hf a) as Ha. pose proof (He a) as Hb.
  destruct a; cbn [decl_tag word_tag is_field Build_Model.decl] in *; [rewrite (Ha eq_refl)|rewrite (Ha eq_refl)|rewrite (Hb eq_refl)|rewrite (Hb eq_refl)];
    apply bind_ext; intros mem'; apply IH; assumption.
Qed.

(** the EXTERNPROTO, its declarations and its URL *)
Definition extern_rest (ds : list (access * text * text)) (url k : text) : text :=
  List.concat (map (decl_text x3d_word) ds) ++ lit "]" ++ 32%N :: 34%N :: url ++ 34%N :: k.
Lemma x_extern gi ds url s : is_name gi = true -> Forall (fun d => ok_type (snd (fst d)) /\ is_name (snd d) = true) ds ->
  string_body url s -> exists sp sp1 sp2 l, Forall2 (entry_of x3d_word) ds l /\
  xparses (NT G_rootItem) (extern_text x3d_word gi ds url)
    (POk sp [] [T G_rootItem sp [T G_ExternProto sp1 (T G_nodegi gi [T G_name gi []] :: l ++ [T G_ExtProtoURL sp2 [et_str url]])]]).
Proof.
  intros Hg Hd Hu.
  destruct (x_decls ds (32%N :: 34%N :: url ++ [34%N]) Hd) as (spd & l & F & Pd).
  assert (Cc : forall e s0 c0 k0 l0, xparses e s0 (POk c0 k0 l0) -> xparses (Cut e) s0 (POk c0 k0 l0)) by (intros; apply xp_cut; [assumption|discriminate]).
  assert (Ts0 : xparses TS [] (POk [] [] [])) by (exists 20; reflexivity).
  assert (Pu : xparses (NT G_ExtProtoURL) (34%N :: url ++ [34%N]) (POk (34%N :: url ++ [34%N]) [] [T G_ExtProtoURL (34%N :: url ++ [34%N]) [et_str url]])).
  { apply (xp_nt G_ExtProtoURL). cbn [xrule rule sq]. eapply xp_seq'; [apply xp_opt0; apply xp_lit_fail; reflexivity| |reflexivity|reflexivity].
    eapply xp_seq'; [eapply xp_starS'; [eapply xp_seq'; [apply lex_x; [reflexivity|apply p_ts_nil; apply no_sep_head; reflexivity]| |reflexivity|reflexivity]| | |reflexivity]| | |].
    - apply lex_x; [reflexivity|]. exact (p_string url s [] Hu).
    - apply xp_star0. exists 20. reflexivity.
    - rewrite app_nil_r. reflexivity.
    - eapply xp_seq'; [exact Ts0|eapply xp_seq'; [apply xp_opt0; exists 5; reflexivity|exact Ts0|reflexivity|reflexivity]|reflexivity|reflexivity].
    - rewrite app_nil_r. reflexivity.
    - reflexivity. }
  assert (Pg : forall k, ends_name k = true -> xparses (NT G_nodegi) (gi ++ k) (POk gi k [T G_nodegi gi [T G_name gi []]])).
  { intros k Hk. apply (xp_nt G_nodegi). cbn [xrule rule]. apply x_name; assumption. }
  set (body := List.concat (map (decl_text x3d_word) ds) ++ lit "]" ++ 32%N :: 34%N :: url ++ [34%N]) in *.
  assert (Nb : no_sep body).
  { unfold body. apply no_sep_head. destruct ds as [|[[a ty] nm] ds0]; [reflexivity|]. destruct a; reflexivity. }
  assert (E : extern_text x3d_word gi ds url = lit "EXTERNPROTO" ++ 32%N :: gi ++ 32%N :: lit "[" ++ 32%N :: body).
  { reflexivity. }
  assert (Px : exists sp1, xparses (NT G_ExternProto) (extern_text x3d_word gi ds url)
    (POk sp1 [] [T G_ExternProto sp1 (T G_nodegi gi [T G_name gi []] :: l ++ [T G_ExtProtoURL (34%N :: url ++ [34%N]) [et_str url]])])).
  { rewrite E. eexists. apply (xp_nt G_ExternProto). cbn [xrule rule sq cuts map].
    eapply xp_seq'; [apply x_tk| |reflexivity|].
    - eapply xp_seq; [apply x_blank; apply name_no_sep; exact Hg|].
      eapply xp_seq; [apply Cc; apply Pg; reflexivity|].
      eapply xp_seq; [apply Cc; apply x_blank; apply no_sep_head; reflexivity|].
      eapply xp_seq; [apply Cc; apply x_tk|].
      eapply xp_seq; [apply Cc; apply x_blank; exact Nb|].
      eapply xp_seq; [apply Cc; exact Pd|].
      eapply xp_seq; [apply Cc; apply x_tk|].
      eapply xp_seq; [apply Cc; apply x_blank; apply no_sep_head; reflexivity|].
      apply Cc. exact Pu.
    - reflexivity. }
  destruct Px as [sp1 Px].
  exists sp1, sp1, (34%N :: url ++ [34%N]), l. split; [exact F|].
  apply (xp_nt G_rootItem). cbn [xrule rule sq].
  assert (T0 : xparses TS (extern_text x3d_word gi ds url) (POk [] (extern_text x3d_word gi ds url) [])).
  { apply lex_x; [reflexivity|]. apply p_ts_nil. apply no_sep_head. reflexivity. }
  eapply xp_seq'; [exact T0| |reflexivity|reflexivity].
  eapply xp_seq'; [|exact Ts0|rewrite app_nil_r; reflexivity|rewrite app_nil_r; reflexivity].
  cbn [al]. apply xp_alt2; [|apply xp_alt1; [exact Px|discriminate]].
  apply xp_nt_bad; [|auto]. cbn [xrule rule sq]. apply xp_seq_bad; [|auto]. apply xp_lit_fail. reflexivity.
Qed.

(** the same EXTERNPROTO in a VRML97 file *)
Definition extern_doc (w : access -> text) (gi : text) (ds : list (access * text * text)) (url : text) : doc :=
  Doc (lit "#VRML V2.0 utf8") nl
    (RCons (RExtern (lit " ") gi (lit " ") (lit " ") (map (as_xdecl w) ds) (lit " ") (UOne url)) [] RNil).

Lemma extern_doc_ok w gi ds url s : is_name gi = true -> Forall (fun d => ok_type (snd (fst d)) /\ is_name (snd d) = true) ds ->
  string_body url s -> ok_doc (extern_doc w gi ds url).
Proof.
  intros Hg Hd Hu. assert (B : sep_text (lit " ")) by (constructor; [reflexivity|constructor]). cbn [extern_doc ok_doc]. split; [|split; [|split]].
  - intros H. change (lit "#VRML V2.0 utf8") with [35; 86; 82; 77; 76; 32; 86; 50; 46; 48; 32; 117; 116; 102; 56]%N in H. cbn in H.
    repeat destruct H as [H|H]; try discriminate. exact H.
  - constructor; [reflexivity|constructor].
  - cbn [ok_roots ok_root]. split; [|split; [constructor|exact Logic.I]]. split; [exact Hg|]. split; [repeat constructor; exact B|]. split; [|exists s; exact Hu].
    induction Hd as [|[[a ty] nm] ds0 [Ht Hn] _ IH]; [exact Logic.I|]. cbn [fst snd] in *. cbn [map as_xdecl].
    destruct (is_field a); cbn [ok_xdecls]; (split; [repeat split; try assumption; discriminate|split; [reflexivity|exact IH]]).
  - exists []. reflexivity.
Qed.
(** [w] prints the words of VRML97 *)
Definition prints (w : access -> text) : Prop :=
  forall a, In (w a) (map lit (if is_field a then ["field"; "exposedField"] else ["eventIn"; "eventOut"])%string).
Lemma extern_doc_text w gi ds url : prints w ->
  show_doc (extern_doc w gi ds url) = lit "#VRML V2.0 utf8" ++ nl ++ extern_text w gi ds url.
Proof.
  intros Hw. cbn [extern_doc show_doc show_roots show_root show_url]. rewrite !app_nil_r. do 2 f_equal. unfold extern_text.
  replace (show_xdecls (map (as_xdecl w) ds)) with (List.concat (map (decl_text w) ds)).
  - unfold show_str. rewrite <- ?app_assoc. reflexivity.
  - unfold show_xdecls. rewrite map_map. f_equal. apply map_ext. intros [[a ty] nm]. pose proof (Hw a) as Ha.
    unfold as_xdecl. destruct (is_field a); cbn [map] in Ha; destruct Ha as [Ha|[Ha|[]]]; unfold decl_text; cbn [fst snd]; rewrite <- Ha; reflexivity.
Qed.
Lemma extern_doc_loads P base w gi ds url s r : prints w -> is_name gi = true -> Forall (fun d => ok_type (snd (fst d)) /\ is_name (snd d) = true) ds ->
  string_body url s -> loads P base (lit "#VRML V2.0 utf8" ++ nl ++ extern_text w gi ds url) r ->
  exists sp sp1 sp2 l lg, Forall2 (entry_of w) ds l /\
  r = build_scene P base ctx0 [T G_rootItem sp [T G_ExternProto sp1 (T G_nodegi gi lg :: l ++ [T G_ExtProtoURL sp2 [et_str url]])]] file0.
Proof.
  intros Hw Hg Hd Hu L. rewrite <- (extern_doc_text w gi ds url Hw) in L.
  destruct (doc_loads P base _ r (extern_doc_ok w gi ds url s Hg Hd Hu) L) as (ch & Ech & <-).
  cbn [extern_doc sk_doc sk_roots sk_root sk_url map] in Ech.
  apply erase_cons in Ech as (t & ch' & -> & Et & Ech). destruct ch'; [clear Ech|discriminate].
  apply erase_not_kept in Et as (sp & c1 & -> & Ec). apply erase_cons in Ec as (t1 & c2 & -> & Et1 & Ec). destruct c2; [clear Ec|discriminate].
  cbn [et_sroot] in Et1. apply erase_not_kept in Et1 as (sp1 & c3 & -> & Ec). apply erase_cons in Ec as (t2 & c4 & -> & Et2 & Ec).
  apply erase_kept in Et2 as (lg & -> & _); [|reflexivity].
  assert (Q : exists l sp2, Forall2 (entry_of w) ds l /\ c4 = l ++ [T G_ExtProtoURL sp2 [et_str url]]).
  { clear L. revert c4 Ec. induction ds as [|[[a ty] nm] ds IH]; intros c4 Ec.
    - cbn [map app] in Ec. apply erase_cons in Ec as (t & c5 & -> & Et & Ec). destruct c5; [|discriminate].
      apply erase_not_kept in Et as (sp2 & cu & -> & Eu). exists [], sp2. split; [constructor|]. cbn [app]. do 3 f_equal.
      apply erase_cons in Eu as (tu & cu' & -> & Eu & En). destruct cu'; [|discriminate]. f_equal.
      change (et_str url) with (et_item (SStr url)) in *. apply erase_plain; [reflexivity|exact Eu].
    - cbn [map app] in Ec. apply erase_cons in Ec as (t & c5 & -> & Et & Ec).
      inversion Hd as [|? ? _ Hd']; subst. destruct (IH Hd' c5 Ec) as (l & sp2 & F & ->).
      exists (t :: l), sp2. split; [|reflexivity]. constructor; [|exact F].
      pose proof (Hw a) as Ha. unfold as_xdecl in Et. unfold entry_of, decl_tag, word_tag.
      destruct (is_field a); cbn [sk_xdecl et_xdecl map] in Et, Ha; apply erase_not_kept in Et as (s0 & c6 & -> & E6);
        apply erase_cons in E6 as (t1 & c7 & -> & E1 & E6); apply erase_cons in E6 as (t3 & c8 & -> & E3 & E6);
        apply erase_cons in E6 as (t4 & c9 & -> & E4 & E6); (destruct c9; [|discriminate]);
        apply erase_kept in E1 as (l1 & -> & _); try reflexivity; apply erase_kept in E3 as (l3 & -> & _); try reflexivity;
        apply erase_kept in E4 as (l4 & -> & _); try reflexivity;
        destruct Ha as [Ha|[Ha|[]]]; rewrite <- Ha; exists s0, l1, l3, l4; reflexivity. }
  destruct Q as (l & sp2 & F & ->). exists sp, sp1, sp2, l, lg. split; [exact F|reflexivity].
Qed.

(** C91.  The words "inputOutput" and "initializeOnly" both make a field that is not
    exposed, and "inputOnly" and "outputOnly" both an event that comes in: an EXTERNPROTO
    with the words of X3D reads as the one with "field" and "eventIn" in VRML97. *)
Theorem C91_access_words : forall P base h gi ds url s r, x3d_start h (extern_text x3d_word gi ds url) -> is_name gi = true ->
  Forall (fun d => ok_type (snd (fst d)) /\ is_name (snd d) = true) ds -> string_body url s ->
  xloads P base (h ++ extern_text x3d_word gi ds url) r <->
  loads P base (lit "#VRML V2.0 utf8" ++ nl ++ extern_text read_as gi ds url) r.
Proof.
  intros P base h gi ds url s r Hh Hg Hd Hu.
  assert (Hp : prints read_as) by (intros []; cbn; auto).
  destruct (x_extern gi ds url s Hg Hd Hu) as (sp & sp1 & sp2 & l & F & Px). destruct (x_start _ _ Hh) as [t Ph].
  assert (Ps : xparses scene_e (extern_text x3d_word gi ds url) (POk (sp ++ []) []
     [T G_vrmlScene sp [T G_rootItem sp [T G_ExternProto sp1 (T G_nodegi gi [T G_name gi []] :: l ++ [T G_ExtProtoURL sp2 [et_str url]])]]; T G_EOF [] []])).
  { eapply xp_seq'; [apply (xp_nt G_vrmlScene); cbn [xrule rule]; eapply xp_starS'; [exact Px|apply xp_star0; exists 30; reflexivity|rewrite app_nil_r; reflexivity|rewrite app_nil_r; reflexivity]| |reflexivity|reflexivity].
    apply xp_cut; [|discriminate]. apply (xp_nt G_EOF). apply xp_eof. }
  pose proof (x_file _ _ _ _ Ph Ps) as Fx.
  assert (Bx : forall sq1 sq2 sq3 l' lg, Forall2 (entry_of read_as) ds l' ->
    build_scene P base ctx0 [T G_rootItem sq1 [T G_ExternProto sq2 (T G_nodegi gi lg :: l' ++ [T G_ExtProtoURL sq3 [et_str url]])]] file0 =
    build_scene P base ctx0 [T G_rootItem sp [T G_ExternProto sp1 (T G_nodegi gi [T G_name gi []] :: l ++ [T G_ExtProtoURL sp2 [et_str url]])]] file0).
  { intros sq1 sq2 sq3 l' lg F'. cbn [build_scene build_root].
    rewrite (xdecls_words P read_as x3d_word ds) with (l' := l) (sp' := sp2); [reflexivity| | |exact F'|exact F]; intros []; try discriminate; reflexivity. }
  split.
  - intros (c & trees & Q & B). pose proof (xparses_det _ _ _ _ Fx Q) as E. injection E as <- <-. cbn [app build_file] in B.
    destruct (loads_doc P base _ (extern_doc_ok read_as gi ds url s Hg Hd Hu)) as (ch & _ & L). rewrite (extern_doc_text _ _ _ _ Hp) in L.
    destruct (extern_doc_loads P base read_as gi ds url s _ Hp Hg Hd Hu L) as (sq1 & sq2 & sq3 & l' & lg & F' & E).
    rewrite E, (Bx _ _ _ _ _ F'), B in L. exact L.
  - intros L. destruct (extern_doc_loads P base read_as gi ds url s r Hp Hg Hd Hu L) as (sq1 & sq2 & sq3 & l' & lg & F' & ->).
    eexists _, _. split; [exact Fx|]. cbn [app build_file]. symmetry. apply Bx. exact F'.
Qed.
Print Assumptions C91_access_words.

(** So "initializeOnly" and "inputOnly" mean what they should. *)
Theorem C91_plain_words : forall P base h gi ds url s r, x3d_start h (extern_text x3d_word gi ds url) -> is_name gi = true ->
  Forall (fun d => ok_type (snd (fst d)) /\ is_name (snd d) = true) ds -> string_body url s ->
  Forall (fun d => fst (fst d) = InitializeOnly \/ fst (fst d) = InputOnly) ds ->
  xloads P base (h ++ extern_text x3d_word gi ds url) r <->
  loads P base (lit "#VRML V2.0 utf8" ++ nl ++ extern_text vrml97_word gi ds url) r.
Proof.
  intros P base h gi ds url s r Hh Hg Hd Hu Hw.
  replace (extern_text vrml97_word gi ds url) with (extern_text read_as gi ds url); [eapply C91_access_words; eassumption|].
  unfold extern_text. do 4 f_equal.
  assert (A : map (fun d => read_as (fst (fst d)) ++ lit " " ++ snd (fst d) ++ lit " " ++ snd d ++ lit " ") ds =
              map (fun d => vrml97_word (fst (fst d)) ++ lit " " ++ snd (fst d) ++ lit " " ++ snd d ++ lit " ") ds).
  { apply map_ext_in. intros d Hin. rewrite Forall_forall in Hw. pose proof (Hw d Hin) as Q. destruct d as [[a ty] nm]. cbn [fst snd] in *. destruct Q as [E | E]; rewrite E; reflexivity. }
  rewrite A. reflexivity.
Qed.
Print Assumptions C91_plain_words.
(** The other two do not: an exposed field is read as a field, an event that goes out
    as one that comes in. *)
Definition knob : list (access * text * text) :=
  [(InputOutput, lit "SFFloat", lit "angle"); (OutputOnly, lit "SFBool", lit "turned"); (InputOnly, lit "SFBool", lit "turn")].
Definition members (r : res file) (gi : text) : option (list (text * member)) :=
  match r with Ok (tab, _) => option_map p_mem (dget text_eqb tab gi) | _ => None end.
Theorem C91_access_words_refuted : exists rx rv,
  xloads P_ex std_protos (xhead ++ extern_text x3d_word (lit "Knob") knob (lit "knob.wrl")) rx /\
  loads P_ex std_protos (lit "#VRML V2.0 utf8" ++ nl ++ extern_text vrml97_word (lit "Knob") knob (lit "knob.wrl")) rv /\
  (exists k, members rx (lit "Knob") = Some [(lit "angle", MField false k); (lit "turned", MEvent false (lit "SFBool")); (lit "turn", MEvent false (lit "SFBool"))] /\
             members rv (lit "Knob") = Some [(lit "angle", MField true k); (lit "turned", MEvent true (lit "SFBool")); (lit "turn", MEvent false (lit "SFBool"))]).
Proof.
  destruct (file_of (lit "#VRML V2.0 utf8" ++ nl ++ extern_text read_as (lit "Knob") knob (lit "knob.wrl"))) as [Fx|] eqn:Ex; [|vm_compute in Ex; discriminate Ex].
  destruct (file_of (lit "#VRML V2.0 utf8" ++ nl ++ extern_text vrml97_word (lit "Knob") knob (lit "knob.wrl"))) as [Fv|] eqn:Ev; [|vm_compute in Ev; discriminate Ev].
  exists (Ok Fx), (Ok Fv). split; [|split].
  - eapply C91_access_words.
    + constructor; [apply xhead_ok| |]; intros [q E]; discriminate E.
    + reflexivity.
    + repeat (apply Forall_cons; [split; [left; eexists; split; reflexivity|reflexivity]|]). apply Forall_nil.
    + instantiate (1 := lit "knob.wrl").
      assert (B : forall t, forallb plain_char t = true -> string_body t t).
      { induction t as [|c t IH]; intros Ht; [constructor|]. cbn [forallb] in Ht. apply andb_true_iff in Ht as [H1 H2].
        apply plain_iff in H1 as [H1 H3]. constructor; auto. }
      apply B. reflexivity.
    + apply file_of_loads. exact Ex.
  - apply file_of_loads. exact Ev.
  - vm_compute in Ex, Ev. injection Ex as <-. injection Ev as <-. eexists. split; reflexivity.
Qed.
Print Assumptions C91_access_words_refuted.

(** Every text gets exactly one answer from the X3D grammar. *)
Theorem C89_always_answers : forall s, exists r, xparses (xrule G_vrmlFile) s r /\ forall r', xparses (xrule G_vrmlFile) s r' -> r' = r.
Proof.
  intros s. destruct (xterminates_gen (List.length s) s (le_n _) 6 (xrule G_vrmlFile) eq_refl eq_refl) as [r H].
  exists r. split; [exact H|]. intros r' H'. exact (xparses_det _ _ _ _ H' H).
Qed.
Print Assumptions C89_always_answers.
