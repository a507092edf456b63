(** C95: values must fit the fields they are written for. *)
From Coq Require Import Reals SpecFloat.
From Flocq Require Import Core.Core IEEE754.BinarySingleNaN.
From Verif Require Import Base Text PyDict PyDict_Proofs Float Coerce_Model Coerce_Spec Grammar_Model Grammar_Proofs Lex_Spec Lex_Proofs
  Doc_Spec Doc_Proofs SceneGraph_Model VrmlStr_Model VrmlStr_Values Scene_Model Scene_Spec Build_Model Reading_Spec Reading_Proofs Reading_Facts
  StdNodes Std_Proofs Values_Spec Values_Proofs P_VrmlStr P_Grammar P_Linearise P_Scene P_Reading.
Local Open Scope nat_scope.
Local Open Scope list_scope.

(** C95.  In a document that can be read, at any depth and also in the bodies of
    PROTOs, each value is written for a field of the node's type, and fits it. *)
Theorem C95_values_fit : forall P base sfn d f gi nm its fs, ok_doc d -> tidy_doc d ->
  (forall gi fs g, In (gi, fs) base -> In g fs -> f_kind g = KNode -> sfn (f_name g) = true) ->
  forallb (lone_root sfn) (sk_doc d) = true ->
  loads P base (show_doc d) (Ok f) ->
  assigned (sk_doc d) (gi, nm, its) -> proto base gi = Some fs ->
  exists g, In g fs /\ f_name g = nm /\ forall t v, f_kind g = KVal t v -> fits t its.
Proof.
  intros P base sfn d [tab S0] gi nm its fs Ok Ti Sf Lo L W Pr. destruct (C66_reading_is_faithful P base d tab S0 Ok Ti L) as (st & R & _).
  destruct (proj2 (roots_fit P base sfn) _ _ _ _ _ R) as (_ & _ & _ & F); auto; [intros gi' fs' H; exact H|constructor|].
  destruct (F _ W) as (fs' & g & Pr' & Hg & En & V); [exists fs; exact Pr|]. cbn [fst snd] in *. rewrite Pr in Pr'. injection Pr' as <-.
  exists g. split; [exact Hg|]. split; [exact En|]. intros t v K. destruct (V t v K) as (Pl & x & E). exact (read_fits P t its x Pl E).
Qed.
Print Assumptions C95_values_fit.

(** C95.  So a document in which one value, anywhere, is for an attribute that
    the node's type does not have, or does not fit the field, is refused as a
    whole: reading it raises. *)
Theorem C95_misfits_are_refused : forall P base sfn d gi nm its fs, ok_doc d -> tidy_doc d ->
  (forall gi fs g, In (gi, fs) base -> In g fs -> f_kind g = KNode -> sfn (f_name g) = true) ->
  forallb (lone_root sfn) (sk_doc d) = true ->
  assigned (sk_doc d) (gi, nm, its) -> proto base gi = Some fs ->
  (forall g, In g fs -> f_name g = nm -> exists t v, f_kind g = KVal t v /\ ~ fits t its) ->
  (exists e, loads P base (show_doc d) (Exc e)) /\ forall f, ~ loads P base (show_doc d) (Ok f).
Proof.
  intros P base sfn d gi nm its fs Ok Ti Sf Lo W Pr Bad.
  assert (No : forall f, ~ loads P base (show_doc d) (Base.Ok f)).
  { intros f L. destruct (C95_values_fit P base sfn d f gi nm its fs Ok Ti Sf Lo L W Pr) as (g & Hg & En & V).
    destruct (Bad g Hg En) as (t & v & K & N). exact (N (V t v K)). }
  split; [|exact No]. destruct (loads_doc P base d Ok) as (ch & _ & L). destruct (build_scene P base ctx0 ch file0) as [f|e]; [destruct (No f L)|eauto].
Qed.
Print Assumptions C95_misfits_are_refused.

(** C95.  No document can give a value to a field of one of the types for which
    the reader has no method. *)
Theorem C95_types_without_values_refuted : forall P base sfn d f gi nm its fs t v, ok_doc d -> tidy_doc d ->
  (forall gi fs g, In (gi, fs) base -> In g fs -> f_kind g = KNode -> sfn (f_name g) = true) ->
  forallb (lone_root sfn) (sk_doc d) = true ->
  loads P base (show_doc d) (Ok f) ->
  proto base gi = Some fs -> NoDup (map f_name fs) -> In (mkfd nm (KVal t v)) fs ->
  In t [SFUInt32; SFVec4f; SFVec2d; SFVec3d; SFVec4d; MFVec4f; MFVec2d; MFVec3d; MFVec4d] ->
  ~ assigned (sk_doc d) (gi, nm, its).
Proof.
  intros P base sfn d f gi nm its fs t v Ok Ti Sf Lo L Pr ND Hf Ht W.
  destruct (C95_values_fit P base sfn d f gi nm its fs Ok Ti Sf Lo L W Pr) as (g & Hg & En & V).
  assert (g = mkfd nm (KVal t v)) as ->.
  { clear - ND Hg Hf En. induction fs as [|h fs IH]; [destruct Hg|]. cbn [map] in ND. inversion ND as [|? ? N ND']; subst.
    destruct Hg as [->|Hg], Hf as [E|Hf]; auto.
    - exfalso. apply N. apply in_map_iff. eexists. split; [|exact Hf]. reflexivity.
    - exfalso. apply N. apply in_map_iff. exists g. split; [|exact Hg]. subst h. reflexivity. }
  specialize (V t v eq_refl). cbn [In] in Ht. repeat (destruct Ht as [<-|Ht]; [exact V|]). destruct Ht.
Qed.
Print Assumptions C95_types_without_values_refuted.

(** *** concrete documents *)
Definition shape_of (n : Doc_Spec.node) : doc := Doc (lit "#VRML V2.0 utf8") [10%N]
  (RCons (Doc_Spec.RNode (Nd None (lit "Group") (lit " ") (lit " ")
     (ACons (lit "children") (lit " ") (FBr (lit " ")
       (SCons (INode (Nd None (lit "Shape") (lit " ") (lit " ") (ACons (lit "geometry") (lit " ") (FPl (SCons (INode n) (lit " ") SNil)) ANil))) (lit " ") SNil)
       (lit " ")) ANil))) (lit " ") RNil).
Definition ball (l : items) : Doc_Spec.node := Nd None (lit "Sphere") (lit " ") (lit " ") (ACons (lit "radius") (lit " ") (FPl l) ANil).
Ltac doc_ok := split; [|reflexivity]; cbn [ok_doc shape_of]; split; [dnin|]; split; [dsep|]; split; [|eauto];
  cbn -[ok_type is_name safe_name]; repeat split; try discriminate; try reflexivity; try dsep; try (left; eexists; split; reflexivity);
  try (apply (num_plain [] (lit "1")); reflexivity); try (apply (num_plain [] (lit "2")); reflexivity); try (repeat constructor; dsep).
Definition ball1 := shape_of (ball (num "2")).
(** Sphere { radius 1 2 } *)
Definition ball2 := shape_of (ball (SCons (INum (lit "1")) (lit " ") (num "2"))).
(** Sphere { color 1 } *)
Definition ball3 := shape_of (Nd None (lit "Sphere") (lit " ") (lit " ") (ACons (lit "color") (lit " ") (FPl (num "1")) ANil)).
Lemma in_shape n w : In w (writings (sk_node n)) -> assigned (sk_doc (shape_of n)) w.
Proof.
  intros H. unfold assigned. cbn [sk_doc shape_of sk_roots sk_root]. eexists _, _. split; [constructor|]. split; [left; reflexivity|].
  cbn. right. right. rewrite !app_nil_r. exact H.
Qed.
(** the hypotheses of C95_values_fit hold of a Sphere inside a Shape inside a Group *)
Example C95_fits_ex : exists f, ok_doc ball1 /\ tidy_doc ball1 /\ forallb (lone_root std_sfn) (sk_doc ball1) = true /\
  loads P_ex std_protos (show_doc ball1) (Ok f) /\ assigned (sk_doc ball1) (lit "Sphere", lit "radius", [SNum (lit "2")]) /\
  proto std_protos (lit "Sphere") = Some Sphere_decl /\ fits SFFloat [SNum (lit "2")].
Proof.
  destruct (file_of (show_doc ball1)) as [f|] eqn:E; [|exfalso; apply (f_equal (fun r => match r with Ok _ => true | _ => false end)) in E; vm_compute in E; discriminate E].
  assert (OT : ok_doc ball1 /\ tidy_doc ball1) by doc_ok. destruct OT as [Ok Ti].
  assert (Lo : forallb (lone_root std_sfn) (sk_doc ball1) = true) by (vm_compute; reflexivity).
  assert (W : assigned (sk_doc ball1) (lit "Sphere", lit "radius", [SNum (lit "2")])) by (apply in_shape; left; reflexivity).
  assert (Pr : proto std_protos (lit "Sphere") = Some Sphere_decl) by reflexivity.
  exists f. repeat (split; [first [assumption | exact (file_of_loads _ _ E)]|]).
  split; [repeat constructor; eexists; reflexivity|reflexivity].
Qed.
(** two radii; an attribute that a Sphere does not have *)
Example C95_refused_ex : (exists e, loads P_ex std_protos (show_doc ball2) (Exc e)) /\ (exists e, loads P_ex std_protos (show_doc ball3) (Exc e)).
Proof.
  assert (OT2 : ok_doc ball2 /\ tidy_doc ball2) by doc_ok. assert (OT3 : ok_doc ball3 /\ tidy_doc ball3) by doc_ok. split.
  - apply (C95_misfits_are_refused P_ex std_protos std_sfn ball2 (lit "Sphere") (lit "radius") [SNum (lit "1"); SNum (lit "2")] Sphere_decl (proj1 OT2) (proj2 OT2) std_sfn_all).
    + vm_compute; reflexivity.
    + apply in_shape; left; reflexivity.
    + reflexivity.
    + intros g Hg En. repeat (destruct Hg as [<-|Hg]; [try discriminate En|]); [|destruct Hg]. eexists _, _. split; [reflexivity|]. intros [_ L]. discriminate L.
  - apply (C95_misfits_are_refused P_ex std_protos std_sfn ball3 (lit "Sphere") (lit "color") [SNum (lit "1")] Sphere_decl (proj1 OT3) (proj2 OT3) std_sfn_all).
    + vm_compute; reflexivity.
    + apply in_shape; left; reflexivity.
    + reflexivity.
    + intros g Hg En. repeat (destruct Hg as [<-|Hg]; [discriminate En|]). destruct Hg.
Qed.

(** C95.  But the kind of a value is not looked at where a truth value is
    expected: [solid 1] reads as FALSE. *)
Definition sham : doc := shape_of (Nd None (lit "IndexedFaceSet") (lit " ") (lit " ") (ACons (lit "solid") (lit " ") (FPl (num "1")) ANil)).
Theorem C95_wrong_kind_refuted :
  exists tab S0 n, ok_doc sham /\ tidy_doc sham /\ loads P_ex std_protos (show_doc sham) (Ok (tab, S0)) /\
     assigned (sk_doc sham) (lit "IndexedFaceSet", lit "solid", [SNum (lit "1")]) /\ value_of S0 n (lit "solid") = Some (VPv (PInt 0)).
Proof.
  assert (OT2 : ok_doc sham /\ tidy_doc sham) by doc_ok.
  destruct (file_of (show_doc sham)) as [[tab S0]|] eqn:E; [|exfalso; apply (f_equal (fun r => match r with Ok _ => true | _ => false end)) in E; vm_compute in E; discriminate E].
  exists tab, S0, 2. split; [apply OT2|]. split; [apply OT2|]. split; [exact (file_of_loads _ _ E)|]. split; [apply in_shape; left; reflexivity|].
  assert (V : match file_of (show_doc sham) with Base.Ok (_, S0) => value_of S0 2 (lit "solid") | _ => None end = Some (VPv (PInt 0))) by (vm_compute; reflexivity).
  rewrite E in V. exact V.
Qed.
Print Assumptions C95_wrong_kind_refuted.
