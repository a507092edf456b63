(** C27-C29: scenes written as text and read again. *)
From Coq Require Import Reals Permutation SpecFloat.
From Flocq Require Import Core.Core IEEE754.BinarySingleNaN.
From Verif Require Import Base Text PyDict PyDict_Proofs Float Coerce_Model Coerce_Spec Grammar_Model Lex_Spec Lex_Proofs
  Doc_Spec Doc_Proofs SceneGraph_Model SceneGraph_Proofs VrmlStr_Model VrmlStr_Spec VrmlStr_Proofs VrmlStr_Values Scene_Model Linearise_Model
  Build_Model Scene_Spec Linearise_Proofs Drop_Proofs Layout_Proofs Written Rebuilt Scene_Proofs Whole Garbled Unreadable FloatStr StdNodes Std_Proofs P_VrmlStr P_Linearise.
Local Open Scope nat_scope.
Local Open Scope list_scope.
Notation RNode := Scene_Model.RNode.

(** what is written for a well-formed scene *)
Lemma written P fstr protos st S : wf_protos P protos -> wf_scene P protos S -> ok_settings st -> faithful fstr ->
  exists text d N D' is, linearise P fstr protos st S = Some text /\ text = show_doc d /\ ok_doc d /\
    (exists dn, N = with_defs S dn /\ named S = Some N) /\
    (forall n, node_def N n = node_def S n \/ (node_def S n = [] /\ routed S n)) /\
    (forall n nd, s_node S n = Some nd -> node_def N n <> [] ->
       is_name (node_def N n) = true /\ getDEF (s_defs N) (node_def N n) = Some n) /\
    (forall n, routed S n -> node_def N n <> []) /\
    walk_refs P protos N no_maps [] (s_kids S) D' is /\
    Forall (fun i => match i with SNode _ _ _ | SUse _ => True | _ => False end) is /\
    sk_doc d = map SRItem is ++ map (route_sk_of N) (s_routes S) /\
    (forall n, reach P protos S n -> In n D').
Proof.
  intros WP WS ST FS.
  destruct (written_roots P fstr protos st S no_maps [] [] [] WP WS ST FS) as (s & t & rl & N & dn & D' & is & E & B & Et & Ok & (r & w & l & Ne) & EN & NM & H1 & H2 & H4 & Wk & Nn & Sk & Rc);
    [discriminate|constructor|reflexivity|]. rewrite app_nil_r in Et. cbn [app] in B.
  exists (show_doc (Doc header [10%N] rl)), (Doc header [10%N] rl), N, D', is. split.
  { unfold linearise, lin_scene, finish. rewrite NM, E, B, Et. reflexivity. }
  split; [reflexivity|]. split.
  { cbn [ok_doc]. split; [exact header_line|]. split; [apply sep_nl_; constructor|]. split; [exact Ok|]. subst rl. eauto. }
  split; [exists dn; auto|]. split; [exact H1|]. split; [exact H2|]. split; [exact H4|]. split; [exact Wk|]. split; [exact Nn|]. split; [exact Sk|exact Rc].
Qed.
Lemma find_field_some fs : NoDup (map f_name fs) -> forall P, fields_ok P fs fs.
Proof. intros ND P f Hf. exists f. split; [apply find_field_in; auto|apply alike_refl]. Qed.

(** ... and what is built from that *)
Lemma rebuilt P fstr protos st S : wf_protos P protos -> wf_scene P protos S -> ok_settings st -> faithful fstr ->
  exists text c trees S' N dn rho, linearise P fstr protos st S = Some text /\
    parses (rule G_vrmlFile) text (POk c [] trees) /\ build_file P protos trees = Ok ([], S') /\
    N = with_defs S dn /\ named S = Some N /\
    (forall n, node_def N n = node_def S n \/ (node_def S n = [] /\ routed S n)) /\
    (forall n nd, s_node S n = Some nd -> node_def N n <> [] ->
       is_name (node_def N n) = true /\ getDEF (s_defs N) (node_def N n) = Some n) /\
    (forall n, routed S n -> node_def N n <> []) /\
    bi N rho S' /\ Forall (node_ok P protos N no_maps rho S') rho /\
    Forall2 (same_ref (Rho rho)) (s_kids S) (s_kids S') /\ Forall2 (same_route (Rho rho)) (s_routes S) (s_routes S').
Proof.
  intros WP WS ST FS.
  destruct (written P fstr protos st S WP WS ST FS) as (text & d & N & D' & is & El & -> & Okd & (dn & EN & NM) & H1 & H2 & H4 & Wk & Nn & Sk & Rc).
  destruct (doc_reads d Okd) as (c & trees & Pa & Er).
  destruct trees as [|t0 [|t1 [|t2 [|]]]]; try discriminate. injection Er as _ Er _.
  apply erase_inv in Er as (s1 & ch & -> & _ & Ech). rewrite Sk in Ech.
  destruct (rebuilt_roots P protos ctx0 [] protos S no_maps N dn D' is ch WP WS) as (B2 & rho & Eb & I2 & Okn2 & Sl & Sr); auto.
  { intros n nd fs Nd Pr. exists fs. split; [exact Pr|]. split; [reflexivity|]. apply find_field_some. apply (WP _ _ Pr). }
  { intros n nd fs f v Nd Pr Hf G Im Dr. exact Logic.I. }
  { discriminate. }
  exists (show_doc d), c, [t0; T G_vrmlScene s1 ch; t2], B2, N, dn, rho. split; [exact El|]. split; [exact Pa|]. split.
  { exact Eb. }
  split; [exact EN|]. split; [exact NM|]. split; [exact H1|]. split; [exact H2|]. split; [exact H4|]. split; [exact I2|]. split; [exact Okn2|].
  split; [exact Sl|exact Sr].
Qed.
Lemma bi_fun S rho S1 : bi S rho S1 -> (forall a b b', Rho rho a b -> Rho rho a b' -> b = b') /\ (forall a a' b, Rho rho a b -> Rho rho a' b -> a = a').
Proof.
  intros I2. split.
  - intros a b b' A B. pose proof (bi_nd _ _ _ I2) as Nd. clear - A B Nd. unfold Rho in *. induction rho as [|[x y] rho IH]; [destruct A|].
    cbn in Nd. inversion Nd as [|? ? Nx Nd']; subst. destruct A as [A|A], B as [B|B]; [congruence| | |auto].
    + injection A as -> ->. exfalso. apply Nx. apply (in_map fst) in B. exact B.
    + injection B as -> ->. exfalso. apply Nx. apply (in_map fst) in A. exact A.
  - intros a a' b A B. pose proof (bi_inj _ _ _ I2) as Nd. clear - A B Nd. unfold Rho in *. induction rho as [|[x y] rho IH]; [destruct A|].
    cbn in Nd. inversion Nd as [|? ? Nx Nd']; subst. destruct A as [A|A], B as [B|B]; [congruence| | |auto].
    + injection A as -> ->. exfalso. apply Nx. apply (in_map snd) in B. exact B.
    + injection B as -> ->. exfalso. apply Nx. apply (in_map snd) in A. exact A.
Qed.

(** C27.  For all node types, scenes and settings that meet the stated
    conditions, whatever rendering of floating point numbers that reads back:
    writing the scene succeeds, the text parses completely, and the scene
    built from it is the same scene. *)
Theorem C27_written_scene_reads_back : forall P fstr protos st S,
  wf_protos P protos -> wf_scene P protos S -> ok_settings st -> faithful fstr ->
  exists text c trees S', linearise P fstr protos st S = Some text /\
    parses (rule G_vrmlFile) text (POk c [] trees) /\
    build_file P protos trees = Ok ([], S') /\ same_scene P protos S S'.
Proof.
  intros P fstr protos st S WP WS ST FS.
  destruct (rebuilt P fstr protos st S WP WS ST FS) as (text & c & trees & S' & N & dn & rho & El & Pa & Eb & EN & NM & H1 & H2 & H4 & I2 & Okn2 & Sl & Sr).
  exists text, c, trees, S'. split; [exact El|]. split; [exact Pa|]. split; [exact Eb|].
  destruct (bi_fun _ _ _ I2) as (F1 & F2).
  exists (Rho rho). split; [exact F1|]. split; [exact F2|]. split; [exact Sl|]. split; [exact Sr|].
  intros a b Hab. destruct (bi_node _ _ _ I2 a b Hab) as (nd & ndb & Na & Nb & Gi & Df & Gd).
    assert (NodesN : forall n nd, s_node N n = Some nd -> exists fs, proto protos (n_gi nd) = Some fs /\
      forall f, In f fs -> exists v, fget P N n f = Ok v /\ ok_value N f v) by (subst N; exact (wf_nodes _ _ _ WS)).
    destruct (NodesN a nd Na) as (fs & Pr & _). exists nd, ndb, fs. rewrite Forall_forall in Okn2.
    assert (NaS : s_node S a = Some nd) by (subst N; exact Na).
    split; [exact NaS|]. split; [exact Nb|]. split; [exact Gi|].
    split; [rewrite Df; exact (H1 a)|]. split; [rewrite Df; exact Gd|]. split; [exact Pr|].
    intros f Hf. destruct (proj1 (Okn2 _ Hab nd fs Na Pr) f Hf eq_refl) as (v & v' & G1 & G2 & Sv & _). exists v, v'.
    split; [subst N; exact G1|]. auto.
Qed.
Print Assumptions C27_written_scene_reads_back.

(** C29.  In the text of a well-formed scene every name is defined at most
    once, and every use of a name -- by USE or by a ROUTE -- comes after its
    definition. *)
Theorem C29_defined_once_before_use : forall P fstr protos st S,
  wf_protos P protos -> wf_scene P protos S -> ok_settings st -> faithful fstr ->
  exists text d, linearise P fstr protos st S = Some text /\ text = show_doc d /\ ok_doc d /\
    defined_once (flat_map occs_root (sk_doc d)) /\ defined_before_use (flat_map occs_root (sk_doc d)).
Proof.
  intros P fstr protos st S WP WS ST FS.
  destruct (written P fstr protos st S WP WS ST FS) as (text & d & N & D' & is & El & -> & Okd & (dn & EN & NM) & H1 & H2 & H4 & Wk & Nn & Sk & Rc).
  assert (UN : forall a b x y, s_node N a = Some x -> s_node N b = Some y -> node_def N a = node_def N b -> node_def N a <> [] -> a = b).
  { pose proof (unique_names N S H2) as Q. subst N. exact Q. }
  exists (show_doc d), d. split; [exact El|]. split; [reflexivity|]. split; [exact Okd|].
  destruct (proj1 (proj2 (walk_good P protos N no_maps UN)) _ _ _ _ Wk) as (U & (Df & Dd & _) & O).
  rewrite Sk, flat_map_app.
  assert (Q1 : flat_map occs_root (map SRItem is) = flat_map occs is).
  { clear. induction is as [|i l IH]; [reflexivity|]. cbn. rewrite IH. reflexivity. }
  rewrite Q1. set (rt := flat_map occs_root (map (route_sk_of N) (s_routes S))).
  assert (Q2 : forall o, In o rt -> exists n, routed S n /\ o = OUse (node_def N n)).
  { intros o Ho. unfold rt in Ho. apply in_flat_map in Ho as (x & Hx & Ho). apply in_map_iff in Hx as (r & <- & Hr).
    cbn in Ho. destruct Ho as [<-|[<-|[]]]; [exists (fst (fst r))|exists (fst (snd r))]; (split; [exists r; split; [exact Hr|auto]|reflexivity]). }
  split.
  - intros pre nm post E H. apply split_app in E as [(p2 & E & ->)|(p1 & -> & E)].
    + apply in_app_or in H as [H|H]; [exact (O _ _ _ E H)|]. destruct (Q2 _ H) as (n & _ & [=]).
    + destruct (Q2 (ODef nm)) as (n & _ & [=]). rewrite E. apply in_or_app. right. left. reflexivity.
  - intros pre nm post E. apply split_app in E as [(p2 & E & ->)|(p1 & -> & E)].
    + destruct (U _ _ _ E) as [(a & [] & _)|H]. exact H.
    + destruct (Q2 (OUse nm)) as (n & Rn & [= ->]). { rewrite E. apply in_or_app. right. left. reflexivity. }
      apply in_or_app. left. apply Dd; [|intros []|apply H4; exact Rn]. apply Rc.
      destruct Rn as (r & Hr & Hn). destruct (wf_routes _ _ _ WS r Hr) as (Ra & Rb & _). destruct Hn as [->| ->]; assumption.
Qed.
Print Assumptions C29_defined_once_before_use.

(** a scene of standard nodes: a Transform with a position and two Shapes that
    share a named Sphere; a Group that contains itself and the Transform; an
    unnamed TimeSensor routed to the Transform *)
Definition demo_nodes : list snode :=
  [mksn (lit "Transform") [(lit "children", VRefs [RNode 1; RNode 2]);
     (lit "translation", VPv (PArr (mkarr Cf [3] [NF (S754_finite false 8388608 (-23)); NF (S754_zero false); NF (S754_zero false)])))] [];
   mksn (lit "Shape") [(lit "geometry", VRef (RNode 3))] [];
   mksn (lit "Shape") [(lit "geometry", VRef (RNode 3))] [];
   mksn (lit "Sphere") [] [];
   mksn (lit "Group") [(lit "children", VRefs [RNode 4; RNode 0])] [];
   mksn (lit "TimeSensor") [(lit "loop", VPv (PInt 1))] []].
Definition demo : scene :=
  mkscene 6 (nth_error demo_nodes)
    {| defs := [(lit "T", 0); (lit "Ball", 3); (lit "G", 4)];
       ndef := fun n => match n with 0 => lit "T" | 3 => lit "Ball" | 4 => lit "G" | _ => [] end |}
    [RNode 4; RNode 5; RNode 0]
    [((5, lit "fraction_changed"), (0, lit "set_translation"))] [].

(** a field that was never set *)
Definition plain_default (f : fdecl) : Prop := match f_kind f with KVal _ d => wf_arg d | _ => True end.
Lemma unset_ok P S n nd f : sane P -> ok_decl P f -> plain_default f -> s_node S n = Some nd ->
  dget text_eqb (n_vals nd) (f_name f) = None -> exists v, fget P S n f = Ok v /\ ok_value S f v.
Proof.
  intros SP [_ D] W Nd N. unfold fget. rewrite Nd, N. unfold default_of, ok_value, plain_default in *. destruct (f_kind f) as [t d| |o].
  - destruct D as (Rd & Df & v & C & F). exists (VPv v). rewrite C. split; [reflexivity|].
    split; [eapply coerce_stored; eauto|]. split; [exact F|]. intros ->. right. destruct Df as [l ->].
    clear - C. cbn in C. unfold mfstring_coerce in C. cbn [py_iter bind] in C.
    replace (mapM (sfstring_coerce P) (map PStr l)) with (Ok (map PStr l)) in C; [injection C as <-; reflexivity|].
    symmetry. clear. induction l as [|t l IH]; [reflexivity|]. cbn [map mapM]. cbn [sfstring_coerce bind]. rewrite IH. reflexivity.
  - exists (VRef RNull). auto.
  - exists (VRefs []). split; [reflexivity|constructor].
Qed.
Lemma std_plain : Forall (fun p => Forall plain_default (snd p)) std_protos.
Proof.
  repeat (apply Forall_cons; [cbn [snd]; repeat (apply Forall_cons; [unfold plain_default; cbn [f_kind]; first [exact Logic.I | cbn; repeat split; reflexivity|cbn]|]); apply Forall_nil|]). apply Forall_nil.
Qed.

(** scenes of standard nodes: only the fields that have been set matter *)
Lemma set_fields_ok P protos S : sane P -> wf_protos P protos -> Forall (fun p => Forall plain_default (snd p)) protos ->
  (forall n nd, s_node S n = Some nd -> exists fs, proto protos (n_gi nd) = Some fs /\
    forall f v, In f fs -> dget text_eqb (n_vals nd) (f_name f) = Some v -> ok_value S f v) ->
  forall n nd, s_node S n = Some nd -> exists fs, proto protos (n_gi nd) = Some fs /\
    forall f, In f fs -> exists v, fget P S n f = Ok v /\ ok_value S f v.
Proof.
  intros SP WP Q H n nd Nd. destruct (H n nd Nd) as (fs & Pr & V). exists fs. split; [exact Pr|]. intros f Hf.
  destruct (dget text_eqb (n_vals nd) (f_name f)) as [v|] eqn:G.
  - exists v. split; [unfold fget; rewrite Nd, G; reflexivity|eauto].
  - destruct (WP _ _ Pr) as (_ & _ & _ & D). rewrite Forall_forall in D. 
    rewrite Forall_forall in Q. apply (dget_In text_eqb text_eqb_spec) in Pr. specialize (Q _ Pr). rewrite Forall_forall in Q.
    eapply unset_ok; eauto. 
Qed.
Lemma Forall_filter {A} (Q : A -> Prop) f l : Forall Q l -> Forall Q (filter f l).
Proof. induction 1; cbn; [constructor|]. destruct (f x); auto. Qed.
Lemma std_fields_ok P S : sane P -> 
  (forall n nd, s_node S n = Some nd -> exists fs, proto std_but_font (n_gi nd) = Some fs /\
    forall f v, In f fs -> dget text_eqb (n_vals nd) (f_name f) = Some v -> ok_value S f v) ->
  forall n nd, s_node S n = Some nd -> exists fs, proto std_but_font (n_gi nd) = Some fs /\
    forall f, In f fs -> exists v, fget P S n f = Ok v /\ ok_value S f v.
Proof. intros SP. exact (set_fields_ok P std_but_font S SP (std_wf P) (Forall_filter _ _ _ std_plain)). Qed.
Ltac set_goal := cbn [ok_value f_kind]; match goal with
  | |- _ \/ _ => right; eexists; reflexivity
  | |- Forall _ _ => repeat (apply Forall_cons; [eexists; reflexivity|]); apply Forall_nil
  | |- stored _ _ /\ _ => split; [|split; [repeat constructor|intros E; discriminate E]]; cbn [stored fbase];
     first [right; reflexivity|eexists; repeat split; repeat constructor]
  end.
Ltac set_field := intros v E; vm_compute in E; first [discriminate E | injection E as <-; set_goal].
Ltac set_fields := match goal with |- forall f v, In f ?l -> @?R f v => assert (Q : Forall (fun f => forall v, R f v) l);
  [repeat (apply Forall_cons; [set_field|]); apply Forall_nil|rewrite Forall_forall in Q; intros f v Hf; exact (Q f Hf v)] end.
Lemma demo_wf P : sane P -> wf_scene P std_but_font demo.
Proof.
  intros SP.
  assert (Cases : forall n nd, s_node demo n = Some nd -> n < 6).
  { intros n nd H. apply (nth_error_Some demo_nodes n). cbn [demo s_node] in H. congruence. }
  split.
  - exact Cases.
  - split; [discriminate|]. repeat constructor; eexists; reflexivity.
  - apply (std_fields_ok P demo SP). intros n nd H. pose proof (Cases n nd H) as L.
    do 6 (destruct n as [|n]; [injection H as <-; eexists; split; [vm_compute; reflexivity|set_fields]|]).
    exfalso. clear - L. lia.
  - intros n nd H Hn. pose proof (Cases n nd H) as L. do 6 (destruct n as [|n]; [first [exfalso; apply Hn; reflexivity|split; reflexivity]|]). exfalso. clear - L. lia.
  - cbn. repeat constructor; cbn; intuition discriminate.
  - intros n. assert (E : all_refs P std_but_font demo = [4; 5; 0; 1; 2; 3; 3; 4; 0]) by (vm_compute; reflexivity).
    rewrite E. do 6 (destruct n as [|n]; [first [right; left; discriminate|left; vm_compute; lia]|]). left. vm_compute. lia.
  - intros r [<-|[]]. split; [apply reach_kid; cbn; auto|]. split; [apply reach_kid; cbn; auto|]. split; reflexivity.
Qed.

(** C27 for the standard node types other than FontStyle: only the fields that
    have been set need to be looked at *)
Theorem C27_standard_nodes : forall P fstr st S, sane P -> ok_settings st -> faithful fstr ->
  (forall n nd, s_node S n = Some nd -> n < s_next S) ->
  s_kids S <> [] /\ Forall (is_node S) (s_kids S) ->
  (forall n nd, s_node S n = Some nd -> exists fs, proto std_but_font (n_gi nd) = Some fs /\
    forall f v, In f fs -> dget text_eqb (n_vals nd) (f_name f) = Some v -> ok_value S f v) ->
  (forall n nd, s_node S n = Some nd -> node_def S n <> [] ->
    is_name (node_def S n) = true /\ getDEF (s_defs S) (node_def S n) = Some n) ->
  NoDup (map fst (defs (s_defs S))) ->
  (forall n, count_occ Nat.eq_dec (all_refs P std_but_font S) n <= 1 \/ node_def S n <> [] \/ routed S n) ->
  (forall r, In r (s_routes S) -> reach P std_but_font S (fst (fst r)) /\ reach P std_but_font S (fst (snd r)) /\
    is_name (snd (fst r)) = true /\ is_name (snd (snd r)) = true) ->
  exists text c trees S', linearise P fstr std_but_font st S = Some text /\
    parses (rule G_vrmlFile) text (POk c [] trees) /\
    build_file P std_but_font trees = Ok ([], S') /\ same_scene P std_but_font S S'.
Proof.
  intros P fstr st S SP ST FS H1 H2 H3 H4 H5 H6 H7. apply C27_written_scene_reads_back; auto; [apply std_wf|].
  split; auto. apply std_fields_ok; auto.
Qed.
Print Assumptions C27_standard_nodes.
Lemma sane_ex : sane P_ex.
Proof. split; [reflexivity|discriminate]. Qed.
Lemma st_default : ok_settings set_defaults.
Proof.
  split; [split; [repeat constructor|split; [discriminate|discriminate]]|]. split; [apply sep_blank; [reflexivity|constructor]|].
  exists []. split; [reflexivity|constructor].
Qed.
Lemma st_minimal : ok_settings set_minimal1.
Proof.
  split; [split; [repeat constructor|split; [discriminate|discriminate]]|]. split; [constructor|].
  exists []. split; [reflexivity|constructor].
Qed.
(** not vacuous: the scene above, with the default and the minimal settings *)
Example C27_demo : exists text c trees S', linearise P_ex exact_str std_but_font set_defaults demo = Some text /\
  parses (rule G_vrmlFile) text (POk c [] trees) /\ build_file P_ex std_but_font trees = Ok ([], S') /\ same_scene P_ex std_but_font demo S'.
Proof.
  apply C27_written_scene_reads_back; [apply std_wf|apply demo_wf; exact sane_ex|exact st_default|exact exact_faithful].
Qed.
Example C29_demo : exists text d, linearise P_ex exact_str std_but_font set_minimal1 demo = Some text /\ text = show_doc d /\ ok_doc d /\
  defined_once (flat_map occs_root (sk_doc d)) /\ defined_before_use (flat_map occs_root (sk_doc d)).
Proof.
  apply C29_defined_once_before_use; [apply std_wf|apply demo_wf; exact sane_ex|exact st_minimal|exact exact_faithful].
Qed.

(** C28, refuted.  Every scene -- of any node types, with string lists as
    anywhere in Python they may be -- in which a node that is reached holds a
    string list that is neither empty nor equal to the default: writing it
    succeeds, and the text is a syntax error. *)
Theorem C28_string_lists_readable_refuted : forall P fstr protos st S n,
  wf_protos_with held_decl protos -> wf_scene_with held P protos S -> ok_settings st -> faithful fstr ->
  reach P protos S n -> holds_strings P protos S n ->
  exists text, linearise P fstr protos st S = Some text /\ parses (rule G_vrmlFile) text PErr.
Proof.
  intros P fstr protos st S n WP WS ST FS Rn Hs.
  destruct (named_ok P protos S _ _ WP WS) as (dn & En & H1 & H2 & H3 & H4). set (N := with_defs S dn) in *.
  pose proof (scene_ends P fstr protos st N no_maps (wf_ids _ _ _ WS) []) as E. destruct (fes_eq st ST) as (fw & Fe & Sf). unfold scene_body in E.
  destruct (kids_write P fstr protos st N FS ST WP (wf_ids _ _ _ WS) (wf_nodes _ _ _ WS)) with (fuel := depth N) (l := s_kids S)
    (s := mklst [] [] 0) (D := @nil nat) (R := @nil nat) (fw := fw) as (s1 & ts & is & t & E1 & B & F & Nn & C).
  - intros m nd Nd Hm. exact (proj1 (H2 m nd Nd Hm)).
  - exact Fe.
  - intros m. split; [intros []|]. intros H. unfold seen in H. cbn in H. congruence.
  - exact (proj2 (wf_kids _ _ _ WS)).
  - intros m U. rewrite app_nil_r. destruct (H3 m U) as (U1 & U2).
    assert (Q : count_occ Nat.eq_dec (all_refs P protos S) m <= 1) by (destruct (wf_shared _ _ _ WS m) as [H|[H|H]]; [exact H|contradiction|contradiction]).
    unfold all_refs in Q. rewrite count_occ_app in Q. change (memb m []) with false. cbn iota. unfold pend.
    assert (filter (fun n => negb (memb n [])) (seq 0 (s_next N)) = seq 0 (s_next N)) as ->.
    { generalize (seq 0 (s_next N)). clear. induction l as [|x l IH]; [reflexivity|]. cbn. f_equal. exact IH. }
    exact Q.
  - eapply lbind_fuel. exact E.
  - assert (Bad : exists b rest, t = b ++ rest /\ bad_item b).
    { destruct C as [C|(D' & Wk & Cl)]; [exact C|exfalso]. apply (Cl n); [|intros []|exact Hs].
      apply (reached P protos N no_maps D' is Wk). clear - Rn.
      induction Rn as [n H|m n _ IH H]; [apply reach_kid; exact H|eapply reach_field; [exact IH|exact H]]. }
    destruct Bad as (b & rest & -> & Bb).
    eexists. split.
    { unfold linearise, lin_scene, finish. rewrite En. unfold scene_body. change (depth S) with (depth N). change (s_kids N) with (s_kids S).
      rewrite E1. cbn [lbind]. reflexivity. }
    cbn [emit l_buf] in *. rewrite B. cbn [app].
    assert (Hh : ~ In 10%N header). { unfold header. cbn. intros H. repeat destruct H as [H|H]; try discriminate. exact H. }
    pose proof (bad_file ts is fw b (rest ++ List.concat (map (route_text st N) (s_routes N))) Sf F Nn Bb header Hh) as Q.
    rewrite <- !app_assoc. exact Q.
Qed.
Print Assumptions C28_string_lists_readable_refuted.

(** the standard node types, with FontStyle *)
Lemma ok_held P f : ok_decl P f -> held_decl f.
Proof. intros (A & B). split; [exact A|]. destruct (f_kind f); auto. destruct B as (B & C & _). auto. Qed.
Lemma FontStyle_held : Forall held_decl FontStyle_decl.
Proof.
  unfold FontStyle_decl.
  repeat (apply Forall_cons; [split; [vm_compute; reflexivity|cbn [f_kind]; split; [reflexivity|]; first
    [left; cbv [ok_default fbase]; first [eexists; reflexivity | exists (@nil text); reflexivity | eexists [_]; reflexivity]
    |right; split; [reflexivity|eexists; reflexivity]]]|]). apply Forall_nil.
Qed.
Lemma held_wf P l f : forallb (fun p => safe_name (fst p) && negb (text_eqb (fst p) (lit "sceneGraph")) &&
  nodupb (map f_name (snd p))) l = true ->
  Forall (fun p => f p = false -> Forall (ok_decl P) (snd p)) l ->
  Forall (fun p => f p = true -> Forall held_decl (snd p)) l -> wf_protos_with held_decl l.
Proof.
  intros C Q Q2 gi fs H. apply (dget_In text_eqb text_eqb_spec) in H.
  rewrite forallb_forall in C. specialize (C _ H). cbn [fst snd] in C. apply andb_true_iff in C as [C C3]. apply andb_true_iff in C as [C1 C2].
  split; [exact C1|]. split; [intros E; rewrite (proj2 (text_eqb_spec _ _) E) in C2; discriminate|].
  split; [apply nodupb_ok; exact C3|]. rewrite Forall_forall in Q, Q2. specialize (Q _ H). specialize (Q2 _ H). cbn [snd] in Q, Q2.
  destruct (f (gi, fs)); [apply Q2; reflexivity|]. eapply Forall_impl; [|apply Q; reflexivity]. intros x. apply ok_held.
Qed.
Lemma std_all_checked : forallb (fun p => safe_name (fst p) && negb (text_eqb (fst p) (lit "sceneGraph")) &&
  nodupb (map f_name (snd p))) std_protos = true.
Proof. vm_compute. reflexivity. Qed.
Lemma std_fonts : Forall (fun p => text_eqb (fst p) (lit "FontStyle") = true -> Forall held_decl (snd p)) std_protos.
Proof. unfold std_protos. repeat (apply Forall_cons; [cbn [fst snd]; first [intros _; exact FontStyle_held|intros E; discriminate E]|]). apply Forall_nil. Qed.
Lemma std_held : wf_protos_with held_decl std_protos.
Proof. exact (held_wf P_ex std_protos (fun p => text_eqb (fst p) (lit "FontStyle")) std_all_checked (std_decls P_ex) std_fonts). Qed.
Lemma font_proto : proto std_protos (lit "FontStyle") = Some FontStyle_decl.
Proof. vm_compute. reflexivity. Qed.
(** no scene in which a FontStyle is reached can be read, unless the family has
    been set to an empty list *)
Theorem C28_font_style_refuted : forall P fstr st S n nd,
  wf_scene_with held P std_protos S -> ok_settings st -> faithful fstr ->
  reach P std_protos S n -> s_node S n = Some nd -> n_gi nd = lit "FontStyle" ->
  dget text_eqb (n_vals nd) (lit "family") <> Some (VPv (PSeq KList [])) ->
  exists text, linearise P fstr std_protos st S = Some text /\ parses (rule G_vrmlFile) text PErr.
Proof.
  intros P fstr st S n nd WS ST FS Rn Nd Gi Fam.
  apply (C28_string_lists_readable_refuted P fstr std_protos st S n std_held WS ST FS Rn).
  set (f := mkfd (lit "family") (KVal MFString (PStr (lit "SERIF")))).
  assert (If : In f FontStyle_decl) by (right; right; left; reflexivity).
  assert (exists x l, fget P S n f = Ok (VPv (PSeq KList (x :: l)))) as (x & l & G).
  { unfold fget. rewrite Nd. change (f_name f) with (lit "family"). destruct (dget text_eqb (n_vals nd) (lit "family")) as [v|] eqn:E.
    - destruct (wf_nodes _ _ _ WS n nd Nd) as (fs & Pr & V). rewrite Gi, font_proto in Pr. injection Pr as <-.
      destruct (V f If) as (v' & G & H). unfold fget in G. rewrite Nd in G. change (f_name f) with (lit "family") in G. rewrite E in G. injection G as <-.
      unfold held in H. change (f_kind f) with (KVal MFString (PStr (lit "SERIF"))) in H. destruct v as [v|r|l]; try contradiction.
      destruct H as ((l & ->) & _). destruct l as [|x l]; [exfalso; apply Fam; reflexivity|]. exists (PStr x), (map PStr l). reflexivity.
    - eexists _, _. reflexivity. }
  exists nd, FontStyle_decl, f, x, l. split; [exact Nd|]. split; [rewrite Gi; exact font_proto|]. split; [exact If|]. split; [exact G|]. reflexivity.
Qed.
Print Assumptions C28_font_style_refuted.
(** a Text node, alone *)
Definition hello : scene :=
  mkscene 1 (nth_error [mksn (lit "Text") [(lit "string", VPv (PSeq KList [PStr (lit "Hello"); PStr (lit "world")]))] []])
    {| defs := []; ndef := fun _ => [] |} [RNode 0] [] [].
Example C28_hello : exists text, linearise P_ex exact_str std_protos set_defaults hello = Some text /\ parses (rule G_vrmlFile) text PErr.
Proof.
  apply (C28_string_lists_readable_refuted P_ex exact_str std_protos set_defaults hello 0 std_held).
  - split.
    + intros [|[|n]] nd [=]; cbn; lia.
    + split; [discriminate|]. repeat constructor. eexists. reflexivity.
    + intros [|[|n]] nd [=]. subst nd. eexists. split; [vm_compute; reflexivity|].
      match goal with |- forall f, In f ?l -> @?R f => assert (Q : Forall R l); [|rewrite Forall_forall in Q; exact Q] end.
      repeat (apply Forall_cons; [eexists; split; [vm_compute; reflexivity|]|]); [..|apply Forall_nil]; cbn [held f_kind];
        first [left; reflexivity | split; [|repeat constructor]; cbn;
          first [exists (@nil text); reflexivity | eexists [_; _]; reflexivity | exists (@nil num); repeat split; constructor | eexists; repeat split; repeat constructor]].
    + intros [|[|n]] nd [=]. contradiction.
    + constructor.
    + intros n. left. vm_compute all_refs. cbn. destruct n; cbn; lia.
    + intros r [].
  - exact st_default.
  - exact exact_faithful.
  - apply reach_kid. left. reflexivity.
  - exists (mksn (lit "Text") [(lit "string", VPv (PSeq KList [PStr (lit "Hello"); PStr (lit "world")]))] []), Text_decl, (mkfd (lit "string") (KVal MFString (PSeq KList []))), (PStr (lit "Hello")), [PStr (lit "world")].
    split; [reflexivity|]. split; [vm_compute; reflexivity|]. split; [cbn; auto 10|]. split; reflexivity.
Qed.

(** C29 does not hold for shared nodes without name: they are written once
    more, with the definitions inside *)
Definition twice : scene :=
  mkscene 2 (nth_error [mksn (lit "Group") [(lit "children", VRefs [RNode 1])] []; mksn (lit "Sphere") [] []])
    {| defs := [(lit "Ball", 1)]; ndef := fun n => match n with 1 => lit "Ball" | _ => [] end |} [RNode 0; RNode 0] [] [].
Theorem C29_unnamed_sharing_refuted : exists text,
  linearise P_ex exact_str std_protos set_defaults twice = Some text /\
  exists a b c, text = a ++ lit "DEF Ball Sphere { }" ++ b ++ lit "DEF Ball Sphere { }" ++ c.
Proof.
  destruct (linearise P_ex exact_str std_protos set_defaults twice) as [t|] eqn:E; [|vm_compute in E; discriminate E].
  exists t. split; [reflexivity|]. exists (firstn 41 t), (firstn 207 (skipn 60 t)), (skipn 286 t).
  vm_compute in E. injection E as <-. vm_compute. reflexivity.
Qed.
Print Assumptions C29_unnamed_sharing_refuted.
