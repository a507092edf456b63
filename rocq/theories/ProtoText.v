(** The declaration of a PROTO as text, and read again. *)
From Coq Require Import Reals Permutation SpecFloat.
From Flocq Require Import Core.Core IEEE754.BinarySingleNaN.
From Verif Require Import Base Text PyDict PyDict_Proofs Float Coerce_Model Coerce_Spec Grammar_Model Lex_Spec Lex_Proofs
  Doc_Spec Doc_Proofs SceneGraph_Model VrmlStr_Model VrmlStr_Spec VrmlStr_Proofs VrmlStr_Values Scene_Model Linearise_Model
  Build_Model Proto_Model Scene_Spec Proto_Spec Linearise_Proofs Drop_Proofs Layout_Proofs Written Rebuilt Reading_Spec Reading_Proofs.
Local Open Scope nat_scope.
Local Open Scope list_scope.

Lemma insert_by_perm {A} (x : text * A) l : Permutation (insert_by x l) (x :: l).
Proof.
  induction l as [|y l IH]; cbn; [constructor; constructor|]. destruct (text_lt (fst y) (fst x)); [|constructor; apply Permutation_refl].
  rewrite IH. apply perm_swap.
Qed.
Lemma sort_by_perm {A} (l : list (text * A)) : Permutation (sort_by l) l.
Proof. induction l as [|f l IH]; cbn; [constructor|]. rewrite insert_by_perm. constructor. exact IH. Qed.

(** *** declarations, each on a new line *)
Definition decl_ok (t : text) (d : sdecl) : Prop :=
  match d with
  | SDEvent o ty nm => ok_type ty /\ is_name nm = true /\ t = direction o ++ [32%N] ++ ty ++ [32%N] ++ nm
  | SDField ex ty nm l => ok_type ty /\ is_name nm = true /\
      exists t', t = exposure ex ++ [32%N] ++ ty ++ [32%N] ++ nm ++ [32%N] ++ t' /\ fld_text t' l
  end.
Lemma sep1 : sep_text [32%N].
Proof. apply sep_blank; [reflexivity|constructor]. Qed.
Lemma decls_text k ld ew dts sds : sep_text ld -> sep_text ew -> Forall2 decl_ok dts sds ->
  exists w ds, List.concat (map (fun a => (10%N :: ld) ++ a) dts) ++ 10%N :: ew =
    (10%N :: w) ++ show_decls ds /\ sep_text w /\ ok_decls ds k /\ map sk_decl ds = sds.
Proof.
  intros Hl He F. induction F as [|t d dts sds Hd F IH].
  - exists ew, []. cbn. rewrite app_nil_r. auto.
  - destruct IH as (w & ds & E & Hw & Ok & Sk). destruct d as [ex ty nm l|o ty nm]; cbn [decl_ok] in Hd.
    + destruct Hd as (Ht & Hn & t0 & -> & pre & t' & -> & Hp & Hf).
      destruct (Hf w (show_decls ds ++ k) Hw) as (fv & E2 & Hok & Hsk).
      exists ld, (DField ex [32%N] ty [32%N] nm (32%N :: pre) fv :: ds). cbn [map sk_decl ok_decls]. split.
      * unfold show_decls in *. cbn [map List.concat show_decl]. rewrite E2. rewrite <- !app_assoc, E.
        change (32%N :: pre) with ([32%N] ++ pre). change (10%N :: w) with ([10%N] ++ w). rewrite <- !app_assoc. reflexivity.
      * split; [exact Hl|]. split; [|congruence]. split; [|split; [reflexivity|split; [exact Hok|exact Ok]]].
        pose proof sep1. repeat split; auto; try discriminate. apply sep_blank; [reflexivity|exact Hp].
    + destruct Hd as (Ht & Hn & ->). exists ld, (DEvent o [32%N] ty [32%N] nm (10%N :: w) :: ds). cbn [map sk_decl ok_decls]. split.
      * unfold show_decls in *. cbn [map List.concat show_decl]. rewrite <- !app_assoc, E. reflexivity.
      * split; [exact Hl|]. split; [|congruence]. split; [|split; [reflexivity|exact Ok]].
        pose proof sep1. repeat split; auto; try discriminate. apply sep_nl_. exact Hw.
Qed.

Lemma class_type k : ok_type (class_name k).
Proof.
  destruct k as [t d| |o]; [|left; exists (lit "Node"); split; reflexivity|right; exists (lit "Node"); split; reflexivity].
  cbn [class_name]. unfold ok_type. destruct t; match goal with |- context [fty_name ?x] => first
    [left; exists (skipn 2 (fty_name x)); split; reflexivity|right; exists (skipn 2 (fty_name x)); split; reflexivity] end.
Qed.
Lemma event_type ty : ty = lit "SFNode" \/ ty = lit "MFNode" \/ (exists t, ty = fty_name t) -> ok_type ty.
Proof.
  intros [->|[->|[t ->]]]; [exact (class_type KNode)|exact (class_type (KNodes true))|exact (class_type (KVal t PNone))].
Qed.
Lemma fty_of_name t : fty_of (fty_name t) = Some t.
Proof. destruct t; reflexivity. Qed.
Lemma fty_not_node t : text_eqb (fty_name t) (lit "SFNode") = false /\ text_eqb (fty_name t) (lit "MFNode") = false.
Proof. destruct t; split; reflexivity. Qed.

Section Decls.
Variable P : prims.
Variable fstr : tcode -> fl -> text.
Variable st : settings.
Hypothesis FS : faithful fstr.
Hypothesis ST : ok_settings st.

Lemma decl_lv_ok : ok_lv (decl_lv st).
Proof. exact (st_lv st ST (mklst [] [] 1)). Qed.
Lemma decl_lead_eq : exists w, decl_lead st = 10%N :: w /\ sep_text w.
Proof.
  destruct (fes_eq st ST) as (w & E & H). exists (w ++ times 1 (indent (l_lv st))). unfold decl_lead. rewrite E. split; [reflexivity|].
  apply sep_app; [exact H|]. apply times_sep. apply (ind_sep st ST).
Qed.
(** the default of a field *)
Definition ok_kind (k : kind) : Prop :=
  match k with KVal t d => readable t = true /\ exists v, coerce P t d = Ok v /\ stored t v /\ finite v | _ => True end.
Lemma default_read k : ok_kind k -> exists t its, default_text P fstr st k = Some t /\ fld_text t its /\
  forall l, map erase l = map et_item its -> exists k', decl_kind (class_name k) l = Ok k' /\ alike_kind P k k'.
Proof.
  destruct k as [t d| |o]; cbn [ok_kind default_text].
  - intros (Rd & v & C & St & Fi). rewrite C.
    destruct (value_survives P fstr FS (decl_lv st) decl_lv_ok t v St Fi) as (tx & its & E & (Fo & Pl) & Rv).
    exists tx, its. split; [exact E|]. split; [apply field_text_of; exact Fo|].
    intros l El. specialize (Rv Rd l El). unfold read_value in Rv. destruct (handler t l) as [d'|] eqn:H; [|discriminate]. cbn [bind] in Rv.
    exists (KVal t d'). split; [|split; [reflexivity|congruence]].
    unfold decl_kind. cbn [class_name]. destruct (fty_not_node t) as [-> ->]. rewrite fty_of_name.
    destruct l as [|x l]; [rewrite H; reflexivity|]. destruct its as [|i its]; [discriminate|]. injection El as Ex _.
    cbn in Pl. apply andb_true_iff in Pl as [Pi _].
    assert (node_entry x = false) as ->.
    { destruct i; try discriminate Pi; apply erase_inv in Ex as (s' & l' & -> & _); reflexivity. }
    rewrite H. reflexivity.
  - intros _. exists (lit "NULL"), [SNull]. split; [reflexivity|]. split; [apply single_text; apply null_text|].
    intros l El. destruct l as [|x [|]]; try discriminate. injection El as Ex. apply erase_inv in Ex as (s' & l' & -> & _).
    exists KNode. split; [reflexivity|exact I].
  - intros _. exists (lit " [" ++ l_courtesy st ++ lit "]"), []. split; [reflexivity|]. split; [apply empty_text; apply ST|].
    intros l El. destruct l; [|discriminate]. exists (KNodes false). split; [reflexivity|exact I].
Qed.

(** the declarations of a PROTO *)
Definition fdecl_ok (x : text * (bool * kind)) : Prop := is_name (fst x) = true /\ ok_kind (snd (snd x)).
Definition reads_kind (x : text * (bool * kind)) (d : sdecl) : Prop :=
  exists its, d = SDField (fst (snd x)) (class_name (snd (snd x))) (fst x) its /\
  forall l, map erase l = map et_item its -> exists k', decl_kind (class_name (snd (snd x))) l = Ok k' /\ alike_kind P (snd (snd x)) k'.
Lemma fields_text ld : decl_lead st = 10%N :: ld -> forall xs, Forall fdecl_ok xs ->
  exists dts sds, all_text (field_text P fstr st) xs = Some (List.concat (map (fun a => (10%N :: ld) ++ a) dts)) /\
    Forall2 decl_ok dts sds /\ Forall2 reads_kind xs sds.
Proof.
  intros El. induction xs as [|[nm [ex k]] xs IH]; intros F; [exists [], []; repeat split; constructor|].
  inversion F as [|? ? (Hn & Hk) F']; subst. cbn [fst snd] in *. destruct (IH F') as (dts & sds & E & D & R).
  destruct (default_read k Hk) as (t & its & Et & Ft & Rk).
  exists ((exposure ex ++ [32%N] ++ class_name k ++ [32%N] ++ nm ++ [32%N] ++ t) :: dts), (SDField ex (class_name k) nm its :: sds).
  split; [|split].
  - cbn [all_text]. unfold field_text at 1. cbn [fst snd]. rewrite Et, E, El. cbn [map List.concat]. f_equal. f_equal.
    rewrite <- app_comm_cons. f_equal. f_equal. unfold exposure. destruct ex; reflexivity.
  - constructor; [|exact D]. cbn. split; [apply class_type|]. split; [exact Hn|]. exists t. auto.
  - constructor; [|exact R]. exists its. split; [reflexivity|exact Rk].
Qed.
Definition edecl_ok (x : text * (bool * text)) : Prop :=
  is_name (fst x) = true /\ (snd (snd x) = lit "SFNode" \/ snd (snd x) = lit "MFNode" \/ exists t, snd (snd x) = fty_name t).
Definition event_sd (x : text * (bool * text)) : sdecl := SDEvent (fst (snd x)) (snd (snd x)) (fst x).
Lemma events_text ld : decl_lead st = 10%N :: ld -> forall xs, Forall edecl_ok xs ->
  exists dts, List.concat (map (event_text st) xs) = List.concat (map (fun a => (10%N :: ld) ++ a) dts) /\
    Forall2 decl_ok dts (map event_sd xs).
Proof.
  intros El. induction xs as [|[nm [o ty]] xs IH]; intros F; [exists []; repeat split; constructor|].
  inversion F as [|? ? (Hn & Hk) F']; subst. cbn [fst snd] in *. destruct (IH F') as (dts & E & D).
  exists ((direction o ++ [32%N] ++ ty ++ [32%N] ++ nm) :: dts). split.
  - cbn [map List.concat]. rewrite E. f_equal. unfold event_text. cbn [fst snd]. rewrite El, <- app_comm_cons. f_equal. f_equal. destruct o; reflexivity.
  - constructor; [|exact D]. cbn. split; [apply event_type; exact Hk|]. auto.
Qed.

(** *** read again *)
Lemma decl_field t mem x d : erase t = et_decl d -> reads_kind x d ->
  starts_with (lit "__") (fst x) = false -> among (fst x) reserved = false ->
  exists k', decl t mem = Ok (dset text_eqb mem (fst x) (MField (fst (snd x)) k')) /\ alike_kind P (snd (snd x)) k' /\
    exists s ch, t = T G_fieldDecl s ch.
Proof.
  destruct x as [nm [ex k]]. cbn [fst snd]. intros E (its & -> & K) H1 H2. cbn [fst snd] in *. apply erase_inv in E as (s & ch & -> & _ & E).
  destruct ch as [|a [|b [|c0 [|d [|]]]]]; try discriminate. injection E as Ea Eb Ec Ed.
  apply erase_inv in Ea as (s1 & l1 & -> & S1 & _). rewrite (S1 eq_refl). apply erase_inv in Eb as (s2 & l2 & -> & S2 & _). rewrite (S2 eq_refl).
  apply erase_inv in Ec as (s3 & l3 & -> & S3 & _). rewrite (S3 eq_refl). apply erase_inv in Ed as (s4 & l4 & -> & _ & E4).
  destruct (K _ E4) as (k' & Ek & Al). exists k'. split; [|split; [exact Al|eauto]]. cbn [decl]. rewrite Ek. cbn [bind]. rewrite H1, H2. cbn [orb].
  do 3 f_equal. destruct ex; reflexivity.
Qed.
Lemma decl_event t mem x : erase t = et_decl (event_sd x) -> edecl_ok x ->
  starts_with (lit "__") (fst x) = false -> among (fst x) reserved = false -> fst x <> lit "externalURL" ->
  decl t mem = Ok (dset text_eqb mem (fst x) (MEvent (fst (snd x)) (snd (snd x)))) /\ exists s ch, t = T G_eventDecl s ch.
Proof.
  destruct x as [nm [o ty]]. cbn [fst snd event_sd]. intros E (_ & Ty) H1 H2 H3. apply erase_inv in E as (s & ch & -> & _ & E).
  destruct ch as [|a [|b [|c0 [|]]]]; try discriminate. injection E as Ea Eb Ec.
  apply erase_inv in Ea as (s1 & l1 & -> & S1 & _). rewrite (S1 eq_refl). apply erase_inv in Eb as (s2 & l2 & -> & S2 & _). rewrite (S2 eq_refl).
  apply erase_inv in Ec as (s3 & l3 & -> & S3 & _). rewrite (S3 eq_refl). split; [|eauto]. cbn [decl]. rewrite H1, H2.
  assert (text_eqb nm (lit "externalURL") = false) as ->.
  { destruct (text_eqb nm (lit "externalURL")) eqn:Q; [|reflexivity]. apply text_eqb_spec in Q. contradiction. }
  cbn [orb fst snd] in *.
  assert (text_eqb ty (lit "SFNode") || text_eqb ty (lit "MFNode") || (match fty_of ty with Some _ => true | None => false end) = true) as ->.
  { destruct Ty as [->|[->|[t ->]]]; [reflexivity|reflexivity|]. rewrite fty_of_name, !orb_true_r. reflexivity. }
  do 3 f_equal. destruct o; reflexivity.
Qed.

Variable base : list (text * list fdecl).
Definition ev_mem (x : text * (bool * text)) : text * member := (fst x, MEvent (fst (snd x)) (snd (snd x))).
Definition fd_mem (x : text * (bool * kind)) : text * member := (fst x, MField (fst (snd x)) (snd (snd x))).
Definition free_name (nm : text) : Prop := starts_with (lit "__") nm = false /\ among nm reserved = false.
Definition alike_field (x x' : text * (bool * kind)) : Prop :=
  fst x' = fst x /\ fst (snd x') = fst (snd x) /\ alike_kind P (snd (snd x)) (snd (snd x')).
Lemma dset_fresh (mem : list (text * member)) nm m : ~ In nm (map fst mem) -> dset text_eqb mem nm m = mem ++ [(nm, m)].
Proof.
  induction mem as [|[k v] mem IH]; intros H; [reflexivity|]. cbn [dset app]. destruct (text_eqb k nm) eqn:E.
  - apply text_eqb_spec in E. subst. exfalso. apply H. left. reflexivity.
  - f_equal. apply IH. intros I. apply H. right. exact I.
Qed.
Lemma fields_read c sp ch : forall fds sds ts mem, Forall2 reads_kind fds sds -> map erase ts = map et_decl sds ->
  Forall (fun x => free_name (fst x)) fds -> NoDup (map fst mem ++ map fst fds) ->
  exists fds', Forall2 alike_field fds fds' /\
    b_declared P base c (ts ++ [T G_vrmlScene sp ch]) mem =
    bind (build_scene P base c ch file0) (fun q => Ok (PDef (mem ++ map fd_mem fds') (fst q) (snd q))).
Proof.
  intros fds sds ts mem F. revert ts mem. induction F as [|x d fds sds R F IH]; intros ts mem E Fr ND.
  - destruct ts; [|discriminate]. exists []. split; [constructor|]. cbn [map app b_declared]. rewrite app_nil_r. reflexivity.
  - destruct ts as [|t ts]; [discriminate|]. injection E as Et E. inversion Fr as [|? ? [H1 H2] Fr']; subst. cbn [map] in ND.
    destruct (decl_field t mem x d Et R H1 H2) as (k' & Ed & Al & s & ch0 & ->).
    assert (Nm : ~ In (fst x) (map fst mem)).
    { intros I. apply NoDup_remove_2 in ND. apply ND. apply in_or_app. left. exact I. }
    rewrite dset_fresh in Ed by exact Nm.
    destruct (IH ts (mem ++ [(fst x, MField (fst (snd x)) k')]) E Fr') as (fds' & A & B).
    { rewrite map_app, <- app_assoc. exact ND. }
    exists ((fst x, (fst (snd x), k')) :: fds'). split; [constructor; [repeat split; exact Al|exact A]|].
    cbn [app b_declared]. rewrite Ed. cbn [bind]. rewrite B. cbn [map fd_mem fst snd]. rewrite <- app_assoc. reflexivity.
Qed.
Lemma events_read c : forall evs ts rest mem, map erase ts = map et_decl (map event_sd evs) -> Forall edecl_ok evs ->
  Forall (fun x => free_name (fst x) /\ fst x <> lit "externalURL") evs -> NoDup (map fst mem ++ map fst evs) ->
  b_declared P base c (ts ++ rest) mem = b_declared P base c rest (mem ++ map ev_mem evs).
Proof.
  induction evs as [|x evs IH]; intros ts rest mem E Ok Fr ND.
  - destruct ts; [|discriminate]. cbn [map]. rewrite app_nil_r. reflexivity.
  - destruct ts as [|t ts]; [discriminate|]. injection E as Et E. inversion Fr as [|? ? ((H1 & H2) & H3) Fr']; subst. inversion Ok as [|? ? Ox Ok']; subst.
    cbn [map] in ND. destruct (decl_event t mem x Et Ox H1 H2 H3) as (Ed & s & ch0 & ->).
    assert (Nm : ~ In (fst x) (map fst mem)).
    { intros I. apply NoDup_remove_2 in ND. apply ND. apply in_or_app. left. exact I. }
    rewrite dset_fresh in Ed by exact Nm. cbn [app b_declared]. rewrite Ed. cbn [bind]. rewrite (IH ts rest); auto.
    + cbn [map]. rewrite <- app_assoc. reflexivity.
    + rewrite map_app, <- app_assoc. exact ND.
Qed.
End Decls.
