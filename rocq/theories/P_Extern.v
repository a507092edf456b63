(** C92: scenes with EXTERNPROTOs, written and read again. *)
From Coq Require Import Reals Permutation SpecFloat.
From Flocq Require Import Core.Core IEEE754.BinarySingleNaN.
From Verif Require Import Base Text PyDict PyDict_Proofs Float Coerce_Model Coerce_Spec Grammar_Model Grammar_Proofs Lex_Spec Lex_Proofs
  Doc_Spec Doc_Proofs SceneGraph_Model VrmlStr_Model VrmlStr_Spec VrmlStr_Proofs VrmlStr_Values Scene_Model Linearise_Model
  Build_Model Proto_Model Scene_Spec Proto_Spec Linearise_Proofs Drop_Proofs Layout_Proofs Written Rebuilt Reading_Spec Reading_Proofs
  ProtoText ProtoTable ProtoBody ProtoFile Garbled ScriptText ScriptGarbled ExternGarbled P_Reading.
Local Open Scope nat_scope.
Local Open Scope list_scope.

(** *** what is written is added at the end *)
Lemma table_adds P fstr base st env l : Forall (fun x => forall env nm s s', write_proto P fstr base st env nm (snd x) s = Some s' -> exists t, snd s' = snd s ++ t) l ->
  forall before s s', w_table P base fstr st env before l s = Some s' -> exists t, snd s' = snd s ++ t.
Proof.
  induction 1 as [|x l Hx F IH]; intros before s s' H; [injection H as <-; exists []; symmetry; apply app_nil_r|].
  cbn [w_table] in H. destruct (write_proto _ _ _ _ _ _ _ _) as [s1|] eqn:E; [|discriminate].
  destruct (Hx _ _ _ _ E) as (a & Ha). destruct (IH _ _ _ H) as (b & Hb). exists (a ++ b). rewrite Hb, Ha, <- app_assoc. reflexivity.
Qed.
Lemma proto_adds P fstr base st p : forall env nm s s', write_proto P fstr base st env nm p s = Some s' -> exists t, snd s' = snd s ++ t.
Proof.
  induction p as [m inner b IH|m u] using pdef_nest; intros env nm s s' H; rewrite write_proto_eq in H;
    (destruct (among nm (fst s)); [injection H as <-; exists []; symmetry; apply app_nil_r|]).
  - cbn [p_inner] in H. destruct (w_table _ _ _ _ _ _ _ _) as [s1|] eqn:E; [|discriminate]. destruct (proto_text _ _ _ _ _ _ _) as [t|]; [|discriminate]. injection H as <-.
    destruct (table_adds P fstr base st env inner IH _ _ _ E) as (a & Ha). cbn [snd] in *. exists (a ++ t). rewrite Ha, <- app_assoc. reflexivity.
  - cbn [p_inner w_table] in H. destruct (proto_text _ _ _ _ _ _ _) as [t|]; [|discriminate]. injection H as <-. exists t. reflexivity.
Qed.
Lemma w_table_app P fstr base st env l2 : forall l1 before s, w_table P base fstr st env before (l1 ++ l2) s =
  match w_table P base fstr st env before l1 s with Some s1 => w_table P base fstr st env (before ++ l1) l2 s1 | None => None end.
Proof.
  induction l1 as [|x l1 IH]; intros before s; [cbn; rewrite app_nil_r; reflexivity|]. cbn [app w_table].
  destruct (write_proto _ _ _ _ _ _ _ _) as [s1|]; [|reflexivity]. rewrite IH, <- app_assoc. reflexivity.
Qed.

(** *** the declarations of an EXTERNPROTO *)
Section Extern.
Variable P : prims.
Variable fstr : tcode -> fl -> text.
Variable st : settings.
Hypothesis FS : faithful fstr.
Hypothesis ST : ok_settings st.
Lemma members_ok mem url : Forall (ok_member P) mem ->
  Forall edecl_ok (sort_by (p_events (PExt mem url))) /\ Forall (fdecl_ok P) (sort_by (p_fields (PExt mem url))) /\ owns_url (PExt mem url) = false.
Proof.
  intros F. rewrite Forall_forall in F.
  assert (Ow : owns_url (PExt mem url) = false).
  { unfold owns_url. cbn [p_mem]. destruct (existsb _ _) eqn:E; [|reflexivity]. apply existsb_exists in E as (x & Hx & Q). apply text_eqb_spec in Q.
    destruct (F x Hx) as (_ & _ & H & _). contradiction. }
  split; [|split; [|exact Ow]].
  - apply Forall_forall; intros [n [o ty]] H; (eapply Permutation_in in H; [|apply sort_by_perm]).
    unfold p_events in H. apply in_flat_map in H as ([n' m] & Hm & H). cbn [p_mem fst snd] in *. destruct m; [destruct H|]. destruct H as [H|[]]. injection H as <- <- <-.
    destruct (F _ Hm) as (_ & _ & _ & H4). exact H4.
  - apply Forall_forall; intros [n [x k]] H; (eapply Permutation_in in H; [|apply sort_by_perm]).
    unfold p_fields in H. rewrite Ow in H. apply in_app_iff in H as [H|[H|[]]].
    + apply in_flat_map in H as ([n' m] & Hm & H). cbn [p_mem fst snd] in *. destruct m; [|destruct H]. destruct H as [H|[]]. injection H as <- <- <-.
      destruct (F _ Hm) as (_ & _ & _ & (H4 & H5) & H6). cbn [fst snd f_name f_kind] in *.
      split; [apply safe_is_name; exact H4|]. cbn [fst snd]. unfold ok_kind. destruct k0 as [t d| |]; auto. destruct H5 as (R1 & R2 & v & R3 & R4).
      split; [exact R1|]. exists v. split; [exact R3|]. split; [exact (H6 v R3)|exact R4].
    + injection H as <- <- <-. split; [reflexivity|]. cbn. split; [reflexivity|]. exists (PSeq KList []). split; [reflexivity|]. split; [|repeat constructor].
      exists []. reflexivity.
Qed.
Lemma sorted_some {A} (l : list (text * A)) x : In x l -> exists y r, sort_by l = y :: r.
Proof.
  intros H. destruct (sort_by l) as [|y r] eqn:E; [|eauto]. exfalso. apply (Permutation_in _ (Permutation_sym (sort_by_perm l))) in H. rewrite E in H. destruct H.
Qed.
Lemma events_x ld Y : sep_text ld -> decl_lead st = 10%N :: ld -> forall xs, Forall edecl_ok xs ->
  exists l, List.concat (map (event_text st) xs) ++ (10%N :: ld) ++ Y = (10%N :: ld) ++ show_xdecls l ++ Y /\ forall k, ok_xdecls l k.
Proof.
  intros Hl El. induction xs as [|[nm [o ty]] xs IH]; intros F; [exists []; split; [reflexivity|intros; exact Logic.I]|].
  inversion F as [|? ? (Hn & Hk) F']; subst. cbn [fst snd] in *. destruct (IH F') as (l & E & Ok).
  exists (XEvent o [32%N] ty [32%N] nm (10%N :: ld) :: l). pose proof (sep_nl_ _ Hl) as Hl'. split.
  - cbn [map List.concat]. rewrite <- app_assoc, E. unfold event_text. cbn [fst snd]. rewrite El. unfold show_xdecls. cbn [map List.concat show_xdecl].
    rewrite <- !app_assoc. cbn [app]. destruct o; reflexivity.
  - intros k. cbn [ok_xdecls]. split; [|split; [|apply Ok]].
    + split; [exact sep1|]. split; [discriminate|]. split; [apply event_type; exact Hk|]. split; [exact sep1|]. split; [discriminate|]. split; [exact Hn|exact Hl'].
    + apply sep_ends; [exact Hl'|discriminate].
Qed.
Lemma ok_xdecls_app a b k : (forall k, ok_xdecls a k) -> ok_xdecls b k -> ok_xdecls (a ++ b) k.
Proof.
  induction a as [|d a IH]; intros Ha Hb; [exact Hb|]. cbn [app]. pose proof (Ha (show_xdecls b ++ k)) as H.
  assert (E : show_xdecls (a ++ b) ++ k = show_xdecls a ++ show_xdecls b ++ k) by (unfold show_xdecls; rewrite map_app, concat_app, <- app_assoc; reflexivity).
  destruct d as [ex w ty w1 nm w2|out w ty w1 nm w2]; cbn [ok_xdecls] in *; rewrite E; destruct H as (H1 & H2 & H3);
    (split; [exact H1|split; [exact H2|apply IH; [intros k'; destruct (Ha k') as (_ & _ & Q); exact Q|exact Hb]]]).
Qed.
Lemma extern_bad nm mem url tx : is_name nm = true -> Forall (ok_member P) mem -> extern_text P fstr st nm (PExt mem url) url = Some tx ->
  forall more, bad_start (tx ++ more).
Proof.
  intros Hn F E more. destruct (members_ok mem url F) as (E1 & D1 & Ow). unfold extern_text in E.
  destruct (sorted_some (p_fields (PExt mem url)) (lit "externalURL", (true, f_kind url_field))) as ([fn [ex k]] & r & Es).
  { unfold p_fields. rewrite Ow. apply in_or_app. right. left. reflexivity. }
  rewrite Es in *. inversion D1 as [|? ? (Hfn & Hk) D1']; subst. cbn [fst snd] in *.
  destruct (decl_lead_eq st ST) as (ld & El & Hl).
  destruct (default_starts P fstr st FS ST k Hk) as (dt & Ed & Hd).
  destruct (fields_text P fstr st FS ST ld El r D1') as (dts & sds & T2 & _ & _).
  cbn [all_text] in E. unfold field_text at 1 in E. cbn [fst snd] in E. rewrite Ed, T2, El in E.
  destruct (vrmlstr _ _ _ _) as [v|]; [|discriminate]. injection E as <-.
  set (R := List.concat (map (fun a : text => (10%N :: ld) ++ a) dts) ++ 10%N :: lit "] " ++ v ++ [10%N]).
  assert (exists rest, R ++ more = 10%N :: rest) as (rest & ER).
  { unfold R. destruct dts; cbn; eauto. }
  destruct (Hd rest) as (pre & t' & -> & Hp & Ht & Ha).
  destruct (events_x ld (exposure ex ++ [32%N] ++ class_name k ++ [32%N] ++ fn ++ (32%N :: pre) ++ t' ++ 10%N :: rest) Hl El _ E1) as (l & EE & Ok).
  match goal with |- bad_start ?x => assert (Ex : x = lit "EXTERNPROTO " ++ nm ++ lit " [" ++ (10%N :: ld) ++
     show_xdecls (l ++ [XField ex [32%N] (class_name k) [32%N] fn (32%N :: pre)]) ++ t' ++ 10%N :: rest) end.
  { unfold show_xdecls. rewrite map_app, concat_app. cbn [map List.concat show_xdecl]. rewrite app_nil_r.
    match goal with |- _ = ?a ++ ?b ++ ?c ++ ?d => transitivity (a ++ b ++ c ++ (List.concat (map (event_text st) (sort_by (p_events (PExt mem url)))) ++
      (10%N :: ld) ++ exposure ex ++ [32%N] ++ class_name k ++ [32%N] ++ fn ++ (32%N :: pre) ++ t' ++ 10%N :: rest)); [|apply (f_equal (fun z => a ++ b ++ c ++ z))] end.
    - rewrite <- ER. unfold R. destruct ex; repeat (rewrite <- !app_assoc || rewrite <- !app_comm_cons); reflexivity.
    - unfold show_xdecls in EE. etransitivity; [exact EE|]. repeat (rewrite <- !app_assoc || rewrite <- !app_comm_cons). reflexivity. }
  rewrite Ex. apply bad_extern; [exact Hn|apply sep_nl_; exact Hl| |exact Ha].
  apply ok_xdecls_app; [exact Ok|]. cbn [ok_xdecls]. split; [|split; [|exact Logic.I]].
  - split; [exact sep1|]. split; [discriminate|]. split; [apply class_type|]. split; [exact sep1|]. split; [discriminate|]. split; [exact Hfn|].
    apply sep_blank; [reflexivity|exact Hp].
  - apply sep_ends; [apply sep_blank; [reflexivity|exact Hp]|discriminate].
Qed.
End Extern.

(** C92.  A file that declares an EXTERNPROTO -- with whatever URLs, fields and
    events, after whatever PROTOs of C73 and before whatever else -- is never
    saved as something that can be loaded: if saving it gives a text, that text is
    a syntax error. *)
Theorem C92_extern_protos_refuted : forall P fstr base st F prs nm mem url rest text,
  wf_protos P base -> ok_settings st -> faithful fstr ->
  fst F = prs ++ (nm, PExt mem url) :: rest ->
  NoDup (map fst (flat prs)) -> (forall n p e, sees [] prs n p e -> ok_proto P base (flat prs) n p e) ->
  is_name nm = true -> ~ In nm (map fst (flat prs)) -> Forall (ok_member P) mem ->
  write_file P fstr base st F = Some text ->
  parses (rule G_vrmlFile) text PErr /\ forall r, ~ loads P base text r.
Proof.
  intros P fstr base st F prs nm mem url rest text WB ST FS EF ND OP Hn Nn Fm H.
  assert (Er : parses (rule G_vrmlFile) text PErr).
  2: { split; [exact Er|]. intros r (c & tr & A & _). pose proof (parses_det _ _ _ _ Er A). discriminate. }
  unfold write_file in H. destruct (write_table P fstr base st [] (fst F) ([], header ++ [10%N])) as [s|] eqn:Ew; [|discriminate].
  rewrite (write_table_eq P base fstr st), EF, w_table_app in Ew.
  destruct (table_ok P base fstr st (flat prs) [] prs [] [] (header ++ [10%N]) []) as (dn1 & b1 & E1 & I1 & Dn1).
  { apply Forall_forall. intros x _ env n Sn. apply proto_writes; assumption. }
  { exact OP. }
  { split; [intros g p Q; discriminate|]. exists []. split; [reflexivity|]. split; [constructor|]. split; [intros Q; contradiction|].
    intros ch Ech. destruct ch; [|discriminate]. exists []. split; [reflexivity|constructor]. }
  { intros g p Q. discriminate. }
  { exact ND. }
  { intros x Q. exact Q. }
  { intros g _ Q. destruct Q. }
  cbn [app] in I1. destruct I1 as (_ & l & Eb & Wh & _). match type of Ew with context [w_table ?a ?b ?c ?d ?e [] prs ?h] => assert (Q3 : w_table a b c d e [] prs h = Some (dn1, b1)) by exact E1 end.
  rewrite Q3 in Ew. cbn [w_table fst snd] in Ew.
  destruct (write_proto P fstr base st _ nm (PExt mem url) (dn1, b1)) as [s1|] eqn:E2; [|discriminate].
  rewrite write_proto_eq in E2. cbn [fst snd p_inner w_table] in E2.
  destruct (among nm dn1) eqn:Am.
  { exfalso. apply existsb_exists in Am as (g & Hg & Q). apply text_eqb_spec in Q. subst g. destruct (Dn1 nm Hg) as [[]|Q]. exact (Nn Q). }
  destruct (proto_text _ _ _ _ _ _ _) as [t|] eqn:E3; [|discriminate]. injection E2 as <-.
  unfold proto_text in E3. destruct (owns_url _); [discriminate|]. cbn [p_url] in E3.
  assert (E4 : extern_text P fstr st nm (PExt mem url) url = Some t).
  { destruct url; try exact E3. destruct l0; [discriminate E3|exact E3]. }
  destruct (table_adds P fstr base st [] rest) with (before := prs ++ [(nm, PExt mem url)]) (s := (nm :: dn1, b1 ++ t)) (s' := s) as (more & Em).
  { apply Forall_forall. intros x _. apply proto_adds. }
  { exact Ew. }
  cbn [snd] in Em.
  assert (exists more2, text = snd s ++ more2) as (more2 & ->).
  { destruct (Linearise_Model.named (snd F)) as [N|]; [|discriminate]. destruct (scene_body _ _ _ _ _ _ _ _); try discriminate. injection H as <-. eauto. }
  rewrite Em, Eb, <- !app_assoc. cbn [app].
  replace (header ++ 10%N :: show_protos l ++ t ++ more ++ more2) with (header ++ 10%N :: show_protos l ++ (t ++ more ++ more2)) by reflexivity.
  apply bad_after; [exact Wh| |vm_compute; intuition discriminate].
  apply (extern_bad P fstr st FS ST nm mem url t Hn Fm E4).
Qed.
Print Assumptions C92_extern_protos_refuted.

(** *** examples *)
From Verif Require Import FloatStr StdNodes Std_Proofs P_VrmlStr P_Linearise P_Scene P_Proto Reload P_Reload P_Resaved.
(** an EXTERNPROTO, as it is read, after a PROTO, is saved, but not loaded again *)
Definition outside : text := header ++ [10%N] ++
  lit "PROTO Dot [ field SFFloat size 1 ] { Sphere { radius IS size } } EXTERNPROTO Door [ eventIn SFBool open field SFVec3f hinge exposedField SFString label ] ""doors.wrl#Door"" Dot { } Door { }".
Example an_extern_proto : exists F t, loads P_ex bstd outside (Base.Ok F) /\
  write_file P_ex exact_str bstd set_defaults F = Some t /\ parses (rule G_vrmlFile) t PErr.
Proof.
  destruct (file_on bstd outside) as [F|] eqn:E; [|vm_compute in E; discriminate E].
  destruct (write_file P_ex exact_str bstd set_defaults F) as [t|] eqn:W; [|vm_compute in E; injection E as <-; vm_compute in W; discriminate W].
  exists F, t. split; [exact (file_on_loads _ _ _ E)|]. split; [exact W|].
  assert (run 3000 (rule G_vrmlFile) t = Some PErr).
  { vm_compute in E. injection E as <-. vm_compute in W. injection W as <-. vm_compute. reflexivity. }
  eexists. eassumption.
Qed.
(** the theorem applied to a file with an EXTERNPROTO *)
Definition door : list (text * member) :=
  [(lit "open", MEvent false (lit "SFBool")); (lit "hinge", MField true (KVal SFVec3f (PSeq KTuple [PInt 0; PInt 0; PInt 0])))].
Definition doors : file := (fst pfile ++ [(lit "Door", PExt door (PSeq KList [PStr (lit "doors.wrl")]))], snd pfile).
Example door_saved : exists t, write_file P_ex exact_str bstd set_defaults doors = Some t /\ forall r, ~ loads P_ex bstd t r.
Proof.
  destruct (write_file P_ex exact_str bstd set_defaults doors) as [t|] eqn:W; [|vm_compute in W; discriminate W].
  exists t. split; [reflexivity|].
  apply (C92_extern_protos_refuted P_ex exact_str bstd set_defaults doors (fst pfile) (lit "Door") door (PSeq KList [PStr (lit "doors.wrl")]) []).
  - apply std_wf.
  - exact st_default.
  - exact exact_faithful.
  - reflexivity.
  - exact (of_names _ _ _ pfile_ok).
  - exact (of_protos _ _ _ pfile_ok).
  - reflexivity.
  - cbn. intuition discriminate.
  - constructor; [|constructor; [|constructor]].
    + split; [reflexivity|]. split; [reflexivity|]. split; [discriminate|]. split; [reflexivity|]. right. right. exists SFBool. reflexivity.
    + member.
  - exact W.
Qed.
