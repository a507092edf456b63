(** C73: files with PROTOs, written and read again. *)
From Coq Require Import Reals Permutation SpecFloat.
From Flocq Require Import Core.Core IEEE754.BinarySingleNaN.
From Verif Require Import Base Text PyDict PyDict_Proofs Float Coerce_Model Coerce_Spec Grammar_Model Lex_Spec Lex_Proofs
  Doc_Spec Doc_Proofs SceneGraph_Model SceneGraph_Proofs VrmlStr_Model VrmlStr_Spec VrmlStr_Proofs VrmlStr_Values Scene_Model Linearise_Model
  Build_Model Proto_Model Scene_Spec Proto_Spec Linearise_Proofs Drop_Proofs Layout_Proofs Written Rebuilt Scene_Proofs Whole Reading_Spec Reading_Proofs
  ProtoText ProtoTable ProtoBody ProtoFile.
Local Open Scope nat_scope.
Local Open Scope list_scope.
Notation RNode := Scene_Model.RNode.

(** *** the document *)
Definition roots_of (l : list (root * text)) (rl : roots) : roots := fold_right (fun x r => RCons (fst x) (snd x) r) rl l.
Lemma roots_of_show l rl : show_roots (roots_of l rl) = show_protos l ++ show_roots rl.
Proof. induction l as [|x l IH]; [reflexivity|]. unfold show_protos in *. cbn [roots_of fold_right show_roots map List.concat]. fold (roots_of l rl). rewrite IH, <- !app_assoc. reflexivity. Qed.
Lemma roots_of_ok l rl k : Forall whole_proto l -> ok_roots rl k -> ok_roots (roots_of l rl) k.
Proof. induction 1 as [|x l (H1 & H2) F IH]; intros H; [exact H|]. cbn [roots_of fold_right ok_roots]. split; [apply H1|]. split; [exact H2|apply IH; exact H]. Qed.
Lemma roots_of_sk l rl : sk_roots (roots_of l rl) = map (fun x => sk_root (fst x)) l ++ sk_roots rl.
Proof. induction l as [|x l IH]; [reflexivity|]. cbn [roots_of fold_right sk_roots map app]. f_equal. exact IH. Qed.

(** *** more PROTOs than needed *)
Lemma more_body P protos protos' S S' : (forall gi fs, proto protos gi = Some fs -> proto protos' gi = Some fs) ->
  same_body P protos S S' -> same_body P protos' S S'.
Proof.
  intros M (R & H1 & H2 & H3 & H4 & H5 & H6). exists R. do 5 (split; [assumption|]). intros a b Hab.
  destruct (H6 a b Hab) as (nd & nd' & fs & A1 & A2 & A3 & A4 & A5 & A6 & A7). exists nd, nd', fs. do 5 (split; [assumption|]). split; [apply M; exact A6|exact A7].
Qed.
Lemma more_scene P protos protos' S S' : (forall gi fs, proto protos gi = Some fs -> proto protos' gi = Some fs) ->
  same_scene P protos S S' -> same_scene P protos' S S'.
Proof.
  intros M (R & H1 & H2 & H3 & H4 & H6). exists R. do 4 (split; [assumption|]). intros a b Hab.
  destruct (H6 a b Hab) as (nd & nd' & fs & A1 & A2 & A3 & A4 & A5 & A6 & A7). exists nd, nd', fs. do 5 (split; [assumption|]). split; [apply M; exact A6|exact A7].
Qed.
Lemma more_types P base all e pre gi fs : fine P base all pre -> agree e pre -> proto (types base e) gi = Some fs -> proto (types base pre) gi = Some fs.
Proof.
  intros Fi A H. rewrite types_get in *. destruct (dget text_eqb e gi) as [p|] eqn:E; [rewrite (A _ _ E); exact H|].
  destruct (dget text_eqb pre gi) as [p|] eqn:Q; [|exact H]. destruct (Fi _ _ Q) as (e' & O). destruct (op_name _ _ _ _ _ _ O) as (_ & _ & O3). congruence.
Qed.
Lemma back_same P base all pre tab : back P base all pre tab -> forall post, fine P base all (pre ++ post) ->
  Forall2 (same_proto P (types base (pre ++ post))) pre tab.
Proof.
  induction 1 as [|pre tab nm p p' e B IH O A Nn L]; intros post Fi; [constructor|]. rewrite <- app_assoc in *. apply Forall2_app; [apply IH; exact Fi|].
  constructor; [|constructor]. split; [reflexivity|]. cbn [snd]. split; [apply L|]. split; [apply L|].
  eapply more_body; [|destruct (lk_body _ _ _ _ _ L) as (N & dn & rho & Bt); eapply built_body; [|exact Bt]].
  - intros gi fs H. eapply (more_types P base all e); [exact Fi|apply agree_snoc; exact A|exact H].
  - destruct (op_maps _ _ _ _ _ _ O) as (F & _). exact F.
Qed.

Lemma file_back P fstr base st F : wf_protos P base -> ok_file P base F -> ok_settings st -> faithful fstr ->
  exists text c trees tab S', write_file P fstr base st F = Some text /\
    parses (rule G_vrmlFile) text (POk c [] trees) /\
    build_file P base trees = Ok (tab, S') /\ same_file P base F (tab, S') /\ back P base (flat (fst F)) (flat (fst F)) tab.
Proof.
  intros WB OF ST FS. set (all := flat (fst F)).
  destruct (table_ok P base fstr st all [] (fst F) [] [] (header ++ [10%N]) []) as (dn1 & b1 & E1 & I1 & _).
  - apply Forall_forall. intros x _ env nm Sn. apply proto_writes; assumption.
  - exact (of_protos _ _ _ OF).
  - split; [intros g p H; discriminate|]. exists []. split; [reflexivity|]. split; [constructor|]. split; [intros H; contradiction|].
    intros ch Ech. destruct ch; [|discriminate]. exists []. split; [reflexivity|constructor].
  - intros g p H. discriminate.
  - exact (of_names _ _ _ OF).
  - intros x H. exact H.
  - intros g _ H. destruct H.
  - cbn [app] in I1. fold all in I1. destruct I1 as (Fi & l & Eb & Wh & Nl & Rd).
    assert (A : agree (fst F) all).
    { pose proof (agree_flat (fst F) [] []) as A. rewrite app_nil_r in A. cbn [app] in A. apply A; [intros g p H; discriminate|exact (of_names _ _ _ OF)]. }
    pose proof (types_wf P base all WB all (fst F) Fi A) as WP.
    destruct (body_written P fstr (types base (fst F)) st (snd F) no_maps [] [] [] [] WP (of_scene _ _ _ OF) ST FS)
      as (s & w & rl & N & dn & D' & is & L); [discriminate|constructor|reflexivity|].
    destruct (la_text _ _ _ _ _ _ _ _ _ _ _ _ _ _ _ _ _ L) as (t & Es & Bs & Et).
    rewrite (la_first _ _ _ _ _ _ _ _ _ _ _ _ _ _ _ _ _ L eq_refl) in Et. cbn [app] in Et, Bs. rewrite app_nil_r in Et.
    set (d := Doc header [10%N] (roots_of l rl)).
    assert (Okd : ok_doc d).
    { cbn [ok_doc d]. split; [exact header_line|]. split; [apply sep_nl_; constructor|].
      split; [apply roots_of_ok; [exact Wh|apply (la_ok _ _ _ _ _ _ _ _ _ _ _ _ _ _ _ _ _ L)]|].
      assert (roots_of l rl <> RNil).
      { destruct (of_some _ _ _ OF) as [H|H].
        - assert (l <> []) by (apply Nl; intros Q; apply H; unfold all in Q; destruct (fst F) as [|[n p] r]; [reflexivity|];
            unfold flat in Q; cbn in Q; rewrite flat_proto_eq in Q; destruct (flat (p_inner p)); discriminate).
          destruct l; [contradiction|discriminate].
        - apply (la_ne _ _ _ _ _ _ _ _ _ _ _ _ _ _ _ _ _ L) in H. destruct l; [exact H|discriminate]. }
      destruct (roots_of l rl); [contradiction|]. eauto. }
    assert (Ew : write_file P fstr base st F = Some (show_doc d)).
    { unfold write_file. pose proof (write_table_eq P base fstr st (fst F) [] ([], header ++ [10%N])) as Q.
      pose proof (eq_trans Q E1) as Q2. match goal with |- context [write_table ?a ?b ?c ?d ?e ?f ?g] => assert (Q3 : write_table a b c d e f g = Some (dn1, b1)) by exact Q2 end.
      rewrite Q3, (la_named _ _ _ _ _ _ _ _ _ _ _ _ _ _ _ _ _ L), Es. f_equal. cbn [snd d show_doc].
      rewrite roots_of_show, Eb, Bs, Et, <- !app_assoc. reflexivity. }
    destruct (doc_reads d Okd) as (c & trees & Pa & Er).
    destruct trees as [|t0 [|t1 [|t2 [|]]]]; try discriminate. injection Er as _ Er _.
    apply erase_inv in Er as (s1 & ch & -> & _ & Ech). cbn [d sk_doc] in Ech. rewrite roots_of_sk, map_app in Ech.
    apply map_eq_app in Ech as (ch1 & ch2 & -> & Ech1 & Ech2). destruct (Rd ch1 Ech1) as (tab & Bd & B).
    assert (Sc : exists S' rho, build_scene P base ctx0 ch2 (tab, scene0) = Ok (tab, S') /\ built P (types base (fst F)) (snd F) no_maps N dn S' rho).
    { apply (body_built P base ctx0 tab fstr (types base (fst F)) st (snd F) no_maps [] [] [] [] s w rl N dn D' is ch2 WP L).
      - intros n nd fs Nd Pr. destruct (type_back _ _ _ WB _ _ _ _ _ B A Pr) as (fs' & H1 & H2). exists fs'. unfold known. cbn [c_env ctx0]. rewrite app_nil_r.
        split; [exact H1|]. split; [|exact H2]. apply (inst_back _ _ _ WB _ _ _ _ B). reflexivity.
      - intros n nd fs f v Nd Pr Hf G _ Dr. cbn [c_in c_env c_outer ctx0]. rewrite app_nil_r.
        apply (sets_back P base all all tab _ (fst F) (snd F) all n nd fs f v); auto.
        + intros x H. exact H.
        + exact (of_inst _ _ _ OF).
        + intros pn (xs & H & _). rewrite (of_is _ _ _ OF) in H. destruct H.
      - discriminate.
      - exact Ech2. }
    destruct Sc as (S' & rho & Bs' & Bt).
    exists (show_doc d), c, [t0; T G_vrmlScene s1 (ch1 ++ ch2); t2], tab, S'. split; [exact Ew|]. split; [exact Pa|]. split.
    { cbn [build_file]. rewrite build_scene_app, Bd. exact Bs'. }
    split; [|exact B]. split; cbn [fst snd].
    + pose proof (back_same P base all all tab B []) as Q. rewrite app_nil_r in Q. apply Q. exact Fi.
    + eapply more_scene; [|eapply built_scene; exact Bt]. intros gi fs H. exact (more_types P base all (fst F) all gi fs Fi A H).
Qed.
(** C73.  A file that declares PROTOs -- within each other as well -- and meets the
    stated conditions is written as a text that parses; what is built from it
    is the same file: the same PROTOs with the same fields, events, bodies and IS
    maps, and the same scene. *)
Theorem C73_written_protos_read_back : forall P fstr base st F,
  wf_protos P base -> ok_file P base F -> ok_settings st -> faithful fstr ->
  exists text c trees F', write_file P fstr base st F = Some text /\
    parses (rule G_vrmlFile) text (POk c [] trees) /\
    build_file P base trees = Ok F' /\ same_file P base F F'.
Proof.
  intros P fstr base st F WB OF ST FS. destruct (file_back P fstr base st F WB OF ST FS) as (text & c & trees & tab & S' & H1 & H2 & H3 & H4 & _).
  exists text, c, trees, (tab, S'). auto.
Qed.
Print Assumptions C73_written_protos_read_back.

(** *** an example: a PROTO inside a PROTO, IS maps, an event, a ROUTE, and set
    fields of instances *)
From Verif Require Import FloatStr StdNodes Std_Proofs P_VrmlStr P_Linearise P_Scene.
Definition f1 : fl := S754_finite false 4503599627370496 (-52).
Definition f2 : fl := S754_finite false 4503599627370496 (-51).
Definition dot : pdef := PDef [(lit "size", MField true (KVal SFFloat (PFloat f1)))] []
  (mkscene 1 (nth_error [mksn (lit "Sphere") [] []]) dempty [RNode 0] [] [(lit "size", [(0, lit "radius")])]).
Definition pair_nodes : list snode :=
  [mksn (lit "Transform") [(lit "children", VRefs [RNode 1; RNode 2])] [];
   mksn (lit "Dot") [(lit "size", VPv (PFloat f2))] [];
   mksn (lit "TimeSensor") [(lit "loop", VPv (PInt 1))] []].
Definition pair : pdef := PDef
  [(lit "go", MEvent false (lit "SFBool")); (lit "place", MField true (KVal SFVec3f (PSeq KTuple [PInt 0; PInt 0; PInt 0])))]
  [(lit "Dot", dot)]
  (mkscene 3 (nth_error pair_nodes) {| defs := [(lit "Clock", 2)]; ndef := fun n => match n with 2 => lit "Clock" | _ => [] end |}
     [RNode 0] [((2, lit "fraction_changed"), (0, lit "set_scale"))] [(lit "place", [(0, lit "translation")])]).
Definition pf_nodes : list snode :=
  [mksn (lit "Group") [(lit "children", VRefs [RNode 1])] [];
   mksn (lit "Pair") [(lit "place", VPv (PArr (mkarr Cf [3] [NF (S754_finite false 8388608 (-23)); NF (S754_zero false); NF (S754_zero false)])))] []].
Definition pfile : file := ([(lit "Pair", pair)], mkscene 2 (nth_error pf_nodes) dempty [RNode 0] [] []).
Definition bstd := std_but_font.
Lemma nth_cases {A} (l : list A) n x : nth_error l n = Some x -> n < List.length l.
Proof. intros H. apply nth_error_Some. congruence. Qed.
Ltac nodes H := match type of H with _ = Some ?x => idtac end; pose proof (nth_cases _ _ _ H) as L; cbn [List.length pair_nodes pf_nodes] in L.
Lemma types_plain e : Forall (fun x => Forall plain_default (pfields (snd x))) e -> Forall (fun p => Forall plain_default (snd p)) (types bstd e).
Proof.
  intros H. unfold types. apply Forall_app. split; [|apply Forall_filter; exact std_plain]. apply Forall_forall. intros x Hx. apply in_map_iff in Hx as (y & <- & Hy).
  rewrite Forall_forall in H. exact (H y Hy).
Qed.
Lemma dot_body : wf_scene P_ex bstd (p_body dot).
Proof.
  split.
  - intros n nd H. exact (nth_cases _ _ _ H).
  - split; [discriminate|]. repeat constructor; eexists; reflexivity.
  - apply (std_fields_ok P_ex _ sane_ex). intros n nd H. nodes H. destruct n as [|n]; [|exfalso; clear - L; cbn in L; lia].
    injection H as <-. eexists. split; [vm_compute; reflexivity|]. intros f v _ E. discriminate E.
  - intros n nd H Hn. exfalso. apply Hn. reflexivity.
  - constructor.
  - intros n. left. assert (E : all_refs P_ex bstd (p_body dot) = [0]) by (vm_compute; reflexivity). rewrite E. destruct n; vm_compute; lia.
  - intros r [].
Qed.
Definition everything := flat (fst pfile).
Lemma imap_one S q n y m z pn : s_is S = [(q, [(n, y)])] -> imap S m z pn -> m = n /\ z = y /\ pn = q.
Proof. intros E (xs & H & I). rewrite E in H. destruct H as [H|[]]. injection H as <- <-. destruct I as [I|[]]. injection I as <- <-. auto. Qed.
Lemma dot_imap m z pn : imap (p_body dot) m z pn -> m = 0 /\ z = lit "radius" /\ pn = lit "size".
Proof. apply imap_one. reflexivity. Qed.
Lemma pair_imap m z pn : imap (p_body pair) m z pn -> m = 0 /\ z = lit "translation" /\ pn = lit "place".
Proof. apply imap_one. reflexivity. Qed.
Lemma member_ok P nm ex k : sane P -> Forall (ok_decl P) [mkfd nm k] -> plain_default (mkfd nm k) ->
  starts_with (lit "__") nm = false -> among nm reserved = false -> nm <> lit "externalURL" -> ok_member P (nm, MField ex k).
Proof.
  intros SP F W A B C. inversion F as [|? ? D _]; subst. split; [exact A|]. split; [exact B|]. split; [exact C|]. cbn [snd fst].
  split; [exact D|]. destruct k as [t d| |]; auto. intros v E. destruct D as (_ & _ & _ & v' & E' & Fi). cbn [f_kind] in *.
  rewrite E in E'. injection E' as <-. exact (coerce_stored P t d v SP W E Fi).
Qed.
Ltac member := apply member_ok; [exact sane_ex|decls|cbn; repeat split; reflexivity|reflexivity|reflexivity|discriminate].
Lemma dot_ok : ok_proto P_ex bstd everything (lit "Dot") dot [].
Proof.
  split.
  - split; [reflexivity|]. split; [discriminate|]. vm_compute. reflexivity.
  - split; [repeat constructor; cbn; tauto|]. apply Forall_cons; [member|apply Forall_nil].
  - reflexivity.
  - right. exact dot_body.
  - split.
    + intros n y pn pn' H H'. apply dot_imap in H as (_ & _ & ->). apply dot_imap in H' as (_ & _ & ->). reflexivity.
    + intros n y pn H. apply dot_imap in H as (-> & -> & ->). split; [reflexivity|]. split.
      * intros nd v Nd D. injection Nd as <-. discriminate D.
      * intros nd fs f Nd Pr Hf Ef. injection Nd as <-. vm_compute in Pr. injection Pr as <-. eexists. split; [reflexivity|].
        repeat (destruct Hf as [<-|Hf]; [first [reflexivity|exfalso; vm_compute in Ef; discriminate Ef]|]). destruct Hf.
  - intros n nd p f v Nd E. discriminate E.
Qed.

Lemma dot_fine : fine P_ex bstd everything [(lit "Dot", dot)].
Proof. intros g p H. cbn [dget] in H. destruct (text_eqb (lit "Dot") g) eqn:E; [|discriminate]. apply text_eqb_spec in E. subst g. injection H as <-. exists []. exact dot_ok. Qed.
Lemma pair_body : wf_scene P_ex (types bstd [(lit "Dot", dot)]) (p_body pair).
Proof.
  split.
  - intros n nd H. exact (nth_cases _ _ _ H).
  - split; [discriminate|]. repeat constructor; eexists; reflexivity.
  - apply (set_fields_ok P_ex _ _ sane_ex).
    + apply (types_wf P_ex bstd everything (std_wf P_ex) [(lit "Dot", dot)]); [exact dot_fine|intros g p H; exact H].
    + apply types_plain. repeat constructor.
    + intros n nd H. nodes H. do 3 (destruct n as [|n]; [injection H as <-; eexists; split; [vm_compute; reflexivity|set_fields]|]). exfalso. clear - L. lia.
  - intros n nd H Hn. nodes H. do 3 (destruct n as [|n]; [first [exfalso; apply Hn; reflexivity|split; reflexivity]|]). exfalso. clear - L. lia.
  - repeat constructor; cbn; tauto.
  - intros n. assert (E : all_refs P_ex (types bstd [(lit "Dot", dot)]) (p_body pair) = [0; 1; 2]) by (vm_compute; reflexivity).
    rewrite E. left. do 3 (destruct n as [|n]; [vm_compute; lia|]). vm_compute. lia.
  - assert (K : reach P_ex (types bstd [(lit "Dot", dot)]) (p_body pair) 0) by (apply reach_kid; left; reflexivity).
    intros r [<-|[]]. split; [|split; [exact K|split; reflexivity]]. eapply reach_field; [exact K|]. vm_compute. right. left. reflexivity.
Qed.
Lemma pair_ok : ok_proto P_ex bstd everything (lit "Pair") pair [(lit "Dot", dot)].
Proof.
  split.
  - split; [reflexivity|]. split; [discriminate|]. vm_compute. reflexivity.
  - split; [repeat constructor; cbn; intuition discriminate|]. apply Forall_cons; [|apply Forall_cons; [member|apply Forall_nil]].
    split; [reflexivity|]. split; [reflexivity|]. split; [discriminate|]. split; [reflexivity|]. right. right. exists SFBool. reflexivity.
  - reflexivity.
  - right. exact pair_body.
  - split.
    + intros n y pn pn' H H'. apply pair_imap in H as (_ & _ & ->). apply pair_imap in H' as (_ & _ & ->). reflexivity.
    + intros n y pn H. apply pair_imap in H as (-> & -> & ->). split; [reflexivity|]. split.
      * intros nd v Nd D. injection Nd as <-. discriminate D.
      * intros nd fs f Nd Pr Hf Ef. injection Nd as <-. vm_compute in Pr. injection Pr as <-. eexists. split; [reflexivity|].
        repeat (destruct Hf as [<-|Hf]; [first [reflexivity|exfalso; vm_compute in Ef; discriminate Ef]|]). destruct Hf.
  - intros n nd p f v Nd E Hf _ _ _ _ (x & y & Ld). nodes Nd.
    destruct n as [|[|[|n]]]; [injection Nd as <-; discriminate E| |injection Nd as <-; discriminate E|exfalso; clear - L; lia].
    injection Nd as <-. injection E as <-. apply dot_imap in Ld as (-> & -> & Ef). split.
    + split.
      * intros [g q] m nd Hq Nd2. cbn in Hq. destruct Hq as [[= <- <-]|[]]. clear L. nodes Nd2. destruct m as [|m]; [injection Nd2 as <-; discriminate|exfalso; clear - L; cbn in L; lia].
      * intros m nd Nd2 Gi. clear L. nodes Nd2. do 3 (destruct m as [|m]; [injection Nd2 as <-; first [reflexivity|discriminate Gi]|]). exfalso; clear - L; lia.
    + intros x y H. apply dot_imap in H as (-> & -> & _). split; [|intros r []].
      eexists. eexists. split; [reflexivity|]. vm_compute. reflexivity.
Qed.

Lemma pair_fine : fine P_ex bstd everything [(lit "Dot", dot); (lit "Pair", pair)].
Proof.
  intros g p H. cbn [dget] in H. destruct (text_eqb (lit "Dot") g) eqn:E; [apply text_eqb_spec in E; subst g; injection H as <-; exists []; exact dot_ok|].
  destruct (text_eqb (lit "Pair") g) eqn:E2; [|discriminate]. apply text_eqb_spec in E2. subst g. injection H as <-. exists [(lit "Dot", dot)]. exact pair_ok.
Qed.
Lemma pf_scene : wf_scene P_ex (types bstd (fst pfile)) (snd pfile).
Proof.
  split.
  - intros n nd H. exact (nth_cases _ _ _ H).
  - split; [discriminate|]. repeat constructor; eexists; reflexivity.
  - apply (set_fields_ok P_ex _ _ sane_ex).
    + apply (types_wf P_ex bstd everything (std_wf P_ex) [(lit "Dot", dot); (lit "Pair", pair)]); [exact pair_fine|].
      intros g p H. cbn [fst pfile dget] in *. destruct (text_eqb (lit "Pair") g) eqn:E; [|discriminate]. apply text_eqb_spec in E. subst g. exact H.
    + apply types_plain. repeat constructor.
    + intros n nd H. nodes H. do 2 (destruct n as [|n]; [injection H as <-; eexists; split; [vm_compute; reflexivity|set_fields]|]). exfalso. clear - L. lia.
  - intros n nd H Hn. exfalso. apply Hn. reflexivity.
  - constructor.
  - intros n. assert (E : all_refs P_ex (types bstd (fst pfile)) (snd pfile) = [0; 1]) by (vm_compute; reflexivity).
    rewrite E. left. do 2 (destruct n as [|n]; [vm_compute; lia|]). vm_compute. lia.
  - intros r [].
Qed.
Lemma pfile_sees n p e : sees [] (fst pfile) n p e -> (n = lit "Pair" /\ p = pair /\ e = [(lit "Dot", dot)]) \/ (n = lit "Dot" /\ p = dot /\ e = []).
Proof.
  intros H. inversion H as [e0 pre0 n0 p0 post0 Q1 Q2 Q3 Q4|e0 pre0 n0 p0 post0 n1 p1 e1 Q0 Q1 Q2 Q3 Q4]; subst.
  - destruct pre0 as [|x [|]]; try discriminate. injection Q2; intros; subst. left. auto.
  - destruct pre0 as [|x [|]]; try discriminate. injection Q2; intros; subst. right. cbn [pair p_inner app] in Q0.
    inversion Q0 as [e2 pre2 n2 p2 post2 R1 R2 R3 R4|e2 pre2 n2 p2 post2 n3 p3 e3 R0 R1 R2 R3 R4]; subst.
    + destruct pre2 as [|x [|]]; try discriminate. injection R2; intros; subst. auto.
    + destruct pre2 as [|x [|]]; try discriminate. injection R2; intros; subst. inversion R0 as [y1 pre4 y2 y3 y4 Z1 Z Z2 Z3|y1 pre4 y2 y3 y4 y5 y6 y7 Z0 Z1 Z Z2 Z3]; destruct pre4; discriminate Z.
Qed.
Lemma pfile_ok : ok_file P_ex bstd pfile.
Proof.
  split.
  - left. discriminate.
  - repeat constructor; cbn; intuition discriminate.
  - intros n p e H. apply pfile_sees in H as [(-> & -> & ->)|(-> & -> & ->)]; [exact pair_ok|exact dot_ok].
  - right. exact pf_scene.
  - reflexivity.
  - intros n nd p f v Nd E Hf _ _ _ _ (x & y & Ld). nodes Nd.
    destruct n as [|[|n]]; [injection Nd as <-; discriminate E| |exfalso; clear - L; lia].
    injection Nd as <-. injection E as <-. apply pair_imap in Ld as (-> & -> & Ef). split.
    + split.
      * intros [g q] m nd Hq Nd2. clear L. cbn in Hq. destruct Hq as [[= <- <-]|[[= <- <-]|[]]]; nodes Nd2.
        -- destruct m as [|m]; [injection Nd2 as <-; discriminate|exfalso; clear - L; cbn in L; lia].
        -- do 3 (destruct m as [|m]; [injection Nd2 as <-; discriminate|]). exfalso; clear - L; cbn in L; lia.
      * intros m nd Nd2 Gi. clear L. nodes Nd2. do 2 (destruct m as [|m]; [injection Nd2 as <-; first [reflexivity|discriminate Gi]|]). exfalso; clear - L; lia.
    + intros x y H. apply pair_imap in H as (-> & -> & _). split.
      * eexists. eexists. split; [reflexivity|]. vm_compute. reflexivity.
      * intros r [<-|[]] Q. discriminate Q.
Qed.
Example C73_demo : exists text c trees F', write_file P_ex exact_str bstd set_defaults pfile = Some text /\
  parses (rule G_vrmlFile) text (POk c [] trees) /\ build_file P_ex bstd trees = Ok F' /\ same_file P_ex bstd pfile F'.
Proof. apply C73_written_protos_read_back; [apply std_wf|exact pfile_ok|exact st_default|exact exact_faithful]. Qed.
