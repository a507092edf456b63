(** Saving Scripts: what is written, and how it is read. *)
From Coq Require Import Reals Permutation SpecFloat.
From Flocq Require Import Core.Core IEEE754.BinarySingleNaN.
From Verif Require Import Base Text PyDict PyDict_Proofs Float Coerce_Model Coerce_Spec Grammar_Model Lex_Spec Lex_Proofs
  Doc_Spec Doc_Proofs SceneGraph_Model VrmlStr_Model VrmlStr_Spec VrmlStr_Proofs VrmlStr_Values Scene_Model Linearise_Model
  Build_Model Proto_Model Scene_Spec Proto_Spec Linearise_Proofs Drop_Proofs Layout_Proofs Written Rebuilt Reading_Spec Reading_Proofs ProtoText
  ScriptText ScriptSave_Spec.
Local Open Scope nat_scope.
Local Open Scope list_scope.

Lemma emit_nil s : emit [] s = s.
Proof. destruct s. unfold emit. cbn. rewrite app_nil_r. reflexivity. Qed.
Lemma emit_emit a b s : emit b (emit a s) = emit (a ++ b) s.
Proof. unfold emit. cbn. rewrite app_assoc. reflexivity. Qed.
Lemma lbind_ok s f : lbind (LOk s) f = f s.
Proof. reflexivity. Qed.

Section Save.
Variable P : prims.
Variable fstr : tcode -> fl -> text.
Variable st : settings.
Variable S : scene.
Hypothesis FS : faithful fstr.
Hypothesis ST : ok_settings st.
Variable rec : nref -> lst -> lres.
Hypothesis REC : forall s, rec RNull s = LOk (emit (lit "NULL") s).

Definition at_level (lv : nat) : lst := mklst [] [] lv.
Lemma cur_at s : cur st s = cur st (at_level (l_level s)).
Proof. reflexivity. Qed.
Lemma lv_at_at s : lv_at st s = lv_at st (at_level (l_level s)).
Proof. reflexivity. Qed.
Lemma decl_lead lv : exists w, sep_text w /\ l_fes st ++ cur st (at_level lv) = 10%N :: w.
Proof.
  destruct (fes_eq st ST) as (w & E & H). exists (w ++ cur st (at_level lv)). split; [apply sep_app; [exact H|apply cur_sep; exact ST]|].
  rewrite E. reflexivity.
Qed.

(** *** events *)
Definition event_sel (x : text * (bool * text)) : ssel := SSEvent (fst (snd x)) (snd (snd x)) (fst x) None.
Lemma kind_type ty : kind_of ty <> None -> ok_type ty.
Proof.
  intros H. apply event_type. unfold kind_of in H. destruct (text_eqb ty (lit "SFNode")) eqn:E1; [left; apply text_eqb_spec; exact E1|].
  destruct (text_eqb ty (lit "MFNode")) eqn:E2; [right; left; apply text_eqb_spec; exact E2|].
  destruct (fty_of ty) as [t|] eqn:F; [|contradiction H; reflexivity]. right. right. exists t. unfold fty_of in F. apply find_some in F as [_ F].
  apply text_eqb_spec in F. symmetry. exact F.
Qed.
Lemma events_write lv ld : l_fes st ++ cur st (at_level lv) = 10%N :: ld -> sep_text ld ->
  forall xs, Forall (fun x => is_name (fst x) = true /\ kind_of (snd (snd x)) <> None) xs ->
  exists ls, Forall2 (fun x s => sep_text (fst x) /\ sel_ok (snd x) s) ls (map event_sel xs) /\
  forall s, l_level s = lv -> each (script_event st) xs s = LOk (emit (List.concat (map line ls)) s).
Proof.
  intros El Hl. induction xs as [|[nm [o ty]] xs IH]; intros F; [exists []; split; [constructor|intros; cbn; rewrite emit_nil; reflexivity]|].
  inversion F as [|? ? (Hn & Hk) F']; subst. cbn [fst snd] in *. destruct (IH F') as (ls & D & E).
  exists ((ld, direction o ++ [32%N] ++ ty ++ [32%N] ++ nm) :: ls). split.
  - constructor; [|exact D]. cbn. split; [exact Hl|]. split; [apply kind_type; exact Hk|]. auto.
  - intros s L. cbn [each]. unfold script_event at 1. cbn [lbind fst snd]. rewrite E by exact L. rewrite emit_emit. do 2 f_equal.
    cbn [map List.concat]. f_equal. unfold line. cbn [fst snd]. rewrite cur_at, L, app_assoc, El, <- !app_comm_cons. f_equal. f_equal. destruct o; reflexivity.
Qed.

(** *** fields *)
Definition reads_field (x : text * (bool * kind * list nref)) (s : ssel) : Prop :=
  let '(nm, (ex, k, _)) := x in
  exists its, s = SSField ex (class_name k) nm (SVal its) /\
  match k with
  | KVal t d => forallb plain its = true /\ exists v, coerce P t d = Ok v /\ read_value P t (map et_item its) = Ok v
  | KNode => its = [SNull]
  | KNodes _ => its = []
  end.
Definition ok_sfield (x : text * (bool * kind * list nref)) : Prop :=
  let '(nm, (_, k, l)) := x in
  is_name nm = true /\
  match k with
  | KVal t d => readable t = true /\ exists v, coerce P t d = Ok v /\ stored t v /\ finite v
  | KNode => l = [RNull]
  | KNodes _ => l = []
  end.
Lemma plain_erase l : forallb plain l = true -> map erase (map et_item l) = map et_item l.
Proof.
  induction l as [|i l IH]; [reflexivity|]. cbn [forallb map]. intros H. apply andb_true_iff in H as [H1 H2]. rewrite IH by exact H2. f_equal.
  destruct i; try discriminate; try reflexivity. cbn [et_item erase]. rewrite pieces_erase. reflexivity.
Qed.
Lemma default_write k l lv : match k with
  | KVal t d => readable t = true /\ exists v, coerce P t d = Ok v /\ stored t v /\ finite v
  | KNode => l = [RNull] | KNodes _ => l = [] end ->
  exists t its, fld_text t its /\ (forall s, l_level s = lv -> script_default P fstr st rec k l s = LOk (emit t s)) /\
    match k with
    | KVal t d => forallb plain its = true /\ exists v, coerce P t d = Ok v /\ read_value P t (map et_item its) = Ok v
    | KNode => its = [SNull]
    | KNodes _ => its = []
    end.
Proof.
  destruct k as [t d| |o].
  - intros (Rd & v & C & Sd & Fi). destruct (value_survives P fstr FS (lv_at st (at_level lv)) (st_lv st ST _) t v Sd Fi) as (tx & its & E & (Fo & Pl) & Rv).
    exists tx, its. split; [apply field_text_of; exact Fo|]. split; [|split; [exact Pl|exists v; split; [exact C|]]].
    + intros s L. cbn [script_default]. rewrite C, lv_at_at, L, E. reflexivity.
    + apply (Rv Rd). apply plain_erase. exact Pl.
  - intros ->. exists (lit "NULL"), [SNull]. split; [apply single_text; apply null_text|]. split; [|reflexivity]. intros s _. apply REC.
  - intros ->. exists (lit " [" ++ l_courtesy st ++ lit "]"), []. split; [apply empty_text; apply ST|]. split; [|reflexivity]. intros s _. reflexivity.
Qed.
Lemma fields_write lv ld : l_fes st ++ cur st (at_level lv) = 10%N :: ld -> sep_text ld -> forall xs, Forall ok_sfield xs ->
  exists ls sks, Forall2 (fun x s => sep_text (fst x) /\ sel_ok (snd x) s) ls sks /\ Forall2 reads_field xs sks /\
  forall s, l_level s = lv -> each (Linearise_Model.script_field P fstr st rec) xs s = LOk (emit (List.concat (map line ls)) s).
Proof.
  intros El Hl. induction xs as [|[nm [[ex k] l]] xs IH]; intros F; [exists [], []; split; [constructor|split; [constructor|]]; intros; cbn; rewrite emit_nil; reflexivity|].
  inversion F as [|? ? H0 F']; subst. cbn [ok_sfield] in H0. destruct H0 as (Hn & Hk). cbn [fst snd] in *. destruct (IH F') as (ls & sks & D & R & E).
  destruct (default_write k l lv Hk) as (t & its & Ft & Et & Rk).
  exists ((ld, exposure ex ++ [32%N] ++ class_name k ++ [32%N] ++ nm ++ [32%N] ++ t) :: ls), (SSField ex (class_name k) nm (SVal its) :: sks).
  split; [|split].
  - constructor; [|exact D]. cbn. split; [exact Hl|]. split; [apply class_type|]. split; [exact Hn|]. exists t. auto.
  - constructor; [|exact R]. exists its. split; [reflexivity|exact Rk].
  - intros s L. cbn [each]. unfold Linearise_Model.script_field at 1. rewrite Et by exact L. rewrite lbind_ok, E by exact L. rewrite !emit_emit. do 2 f_equal.
    cbn [map List.concat]. rewrite app_assoc. f_equal. unfold line. cbn [fst snd]. rewrite cur_at, L. rewrite <- !app_assoc, app_assoc, El, <- !app_comm_cons. f_equal. f_equal. destruct ex; reflexivity.
Qed.

(** *** attributes *)
Definition flag_sel (x : text * bool) : list ssel := if snd x then [SSAttr (fst x) (SVal [SBool true])] else [].
Lemma flag_write n nd nm b lv ld : s_node S n = Some nd -> script_fget P nd (flag nm) = Ok (truth b) -> In nm flags ->
  lead st (at_level lv) = 10%N :: ld -> sep_text ld ->
  exists ls, Forall2 (fun x s => sep_text (fst x) /\ sel_ok (snd x) s) ls (flag_sel (nm, b)) /\
  forall s, l_level s = lv -> script_attr P fstr st S no_maps rec n (flag nm) s = LOk (emit (List.concat (map line ls)) s).
Proof.
  intros Nn G Hn El Hl. assert (Fg : fget P S n (flag nm) = Ok (truth b)).
  { unfold fget. rewrite Nn. unfold script_fget in G. destruct (dget text_eqb (n_vals nd) (f_name (flag nm))); exact G. }
  destruct b.
  - exists [(ld, nm ++ 9%N :: lit "TRUE")]. split.
    + constructor; [|constructor]. cbn [fst snd sel_ok]. split; [exact Hl|].
      split; [destruct Hn as [<-|[<-|[]]]; reflexivity|]. split; [destruct Hn as [<-|[<-|[]]]; reflexivity|]. exists (lit "TRUE"). split; [reflexivity|].
      apply single_text. intros w Hw. exists (IBool true), (10%N :: w). split; [reflexivity|]. split; [apply sep_nl_; exact Hw|]. split; [exact (fun _ => Logic.I)|reflexivity].
    + intros s L. unfold script_attr, attr. rewrite Fg. cbn [flag f_kind f_name no_maps]. unfold no_maps. cbn [map List.concat]. rewrite app_nil_r. unfold line. cbn [fst snd].
      rewrite <- El, <- (lead_level st (at_level lv) s) by exact L. change (dropped (flag nm) (truth true)) with (@Ok bool false).
      transitivity (LOk (emit (lit "TRUE") (emit (lead st s ++ nm ++ [9%N]) s))); [reflexivity|].
      rewrite emit_emit, <- !app_assoc. reflexivity.
  - exists []. split; [constructor|]. intros s L. unfold script_attr, attr. rewrite Fg. cbn [flag f_kind f_name no_maps]. unfold no_maps.
    change (dropped (flag nm) (truth false)) with (@Ok bool true). cbn. rewrite emit_nil. reflexivity.
Qed.
Lemma url_write n nd : s_node S n = Some nd -> script_fget P nd url_attr = Ok (VPv (PSeq KList [])) ->
  forall s, script_attr P fstr st S no_maps rec n url_attr s = LOk s.
Proof.
  intros Nn G s. assert (Fg : fget P S n url_attr = Ok (VPv (PSeq KList []))).
  { unfold fget. rewrite Nn. unfold script_fget in G. destruct (dget text_eqb (n_vals nd) (f_name url_attr)); exact G. }
  unfold script_attr, attr. rewrite Fg. cbn [no_maps url_attr f_kind]. reflexivity.
Qed.

(** *** the whole Script *)
Lemma flat_In {A B} (f : A -> list B) l y : In y (flat_map f l) <-> exists x, In x l /\ In y (f x).
Proof. exact (in_flat_map f l y). Qed.
Lemma events_ok mem : Forall (ok_member P) mem ->
  Forall (fun x => is_name (fst x) = true /\ kind_of (snd (snd x)) <> None) (sort_by (script_events mem)).
Proof.
  intros F. rewrite Forall_forall in F. apply (Permutation_Forall (Permutation_sym (sort_by_perm _))). apply Forall_forall. intros x Hx. apply in_flat_map in Hx as ([nm m] & Hm & Hx).
  cbn [fst snd] in Hx. destruct m as [|o ty]; [destruct Hx|]. destruct Hx as [<-|[]]. destruct (F _ Hm) as (A & _ & C). cbn in *. auto.
Qed.
Lemma url_ok : ok_sfield (lit "externalURL", (true, f_kind url_field, [])).
Proof.
  cbn [ok_sfield url_field f_kind]. split; [reflexivity|]. split; [reflexivity|]. exists (PSeq KList []). split; [reflexivity|]. split; [exists []; reflexivity|exact Logic.I].
Qed.
Lemma fields_ok mem : Forall (ok_member P) mem -> Forall ok_sfield (sort_by (script_decls mem)).
Proof.
  intros F. rewrite Forall_forall in F. apply (Permutation_Forall (Permutation_sym (sort_by_perm _))). apply Forall_forall. intros x Hx. apply filter_In in Hx as [Hx _]. apply in_app_or in Hx as [Hx|Hx].
  - apply in_flat_map in Hx as ([nm m] & Hm & Hx). cbn [fst snd] in Hx. destruct m as [ex k l|]; [|destruct Hx]. destruct Hx as [<-|[]]. destruct (F _ Hm) as (A & _ & C). cbn in *. split; [exact A|exact C].
  - destruct (existsb (fun x => text_eqb (fst x) (lit "externalURL")) mem); [destruct Hx|]. destruct Hx as [<-|[]]. exact url_ok.
Qed.
Lemma script_attributes mem : Forall (ok_member P) mem ->
  sort (filter (fun f => existsb (text_eqb (f_name f)) script_attrs) (script_fields mem)) = url_attr :: map flag flags.
Proof.
  intros F. assert (E : filter (fun f => existsb (text_eqb (f_name f)) script_attrs) (script_fields mem) =
    filter (fun f => existsb (text_eqb (f_name f)) script_attrs) script_base).
  { assert (Fr : forall nm, In nm (map f_name script_base) -> existsb (fun x : text * smember => text_eqb (fst x) nm) mem = false).
    { intros nm Hn. destruct (existsb _ mem) eqn:X; [|reflexivity]. apply existsb_exists in X as (x & Hx & X). apply text_eqb_spec in X. rewrite Forall_forall in F.
      destruct (F _ Hx) as (_ & (_ & Q) & _). rewrite X in Q. contradiction. }
    unfold script_fields. rewrite filter_app.
    assert (filter (fun f => negb (existsb (fun x : text * smember => text_eqb (fst x) (f_name f)) mem)) script_base = script_base) as ->.
    { assert (Q : forall l, incl l script_base -> filter (fun f => negb (existsb (fun x : text * smember => text_eqb (fst x) (f_name f)) mem)) l = l).
      { induction l as [|f l IH]; intros Hi; [reflexivity|]. cbn [filter]. rewrite Fr by (apply in_map; apply Hi; left; reflexivity). cbn [negb]. f_equal. apply IH. intros y Hy. apply Hi. right. exact Hy. }
      apply Q. intros y Hy. exact Hy. }
    match goal with |- ?a ++ _ = _ => assert (a = []) as -> end; [|reflexivity].
    clear Fr. induction F as [|[nm m] mem (_ & (_ & H) & _) F IH]; [reflexivity|]. cbn [flat_map snd fst]. rewrite filter_app, IH, app_nil_r. destruct m as [ex k l|]; [|reflexivity].
    cbn [filter f_name]. cbn [fst] in H. destruct (existsb (text_eqb nm) script_attrs) eqn:X; [|reflexivity]. exfalso. apply existsb_exists in X as (y & Hy & X). apply text_eqb_spec in X. subst y.
    apply H. cbn in Hy |- *. intuition. }
  rewrite E. vm_compute. reflexivity.
Qed.
(** the contents of the Script as written *)
Inductive saved_sels (nd : snode) : list ssel -> Prop :=
| saved_ (bs : list (text * bool)) fs :
    Forall2 reads_field (sort_by (script_decls (n_mem nd))) fs ->
    map fst bs = flags -> (forall nm b, In (nm, b) bs -> script_fget P nd (flag nm) = Ok (truth b)) ->
    saved_sels nd (map event_sel (sort_by (script_events (n_mem nd))) ++ fs ++ flat_map flag_sel bs).
Lemma script_write n nd : ok_script P S n nd [] -> forall s, dget Nat.eqb (l_done s) n = None ->
  exists pre t sels, Linearise_Model.script_body P fstr st S no_maps rec n (n_mem nd) s =
      LOk (mark n (tell s, Some (tell s + List.length (pre ++ t))) (emit (pre ++ t) (mark n (tell s, None) s))) /\
    sep_text pre /\ item_text t (SScript (def_opt (node_def S n)) sels) /\ saved_sels nd sels.
Proof.
  intros [Nn Gi Df On Mm Fl Ur] s Nd. unfold Linearise_Model.script_body, can_use. rewrite Nd.
  set (s1 := mark n (tell s, None) s). set (lv := l_level s).
  destruct (decl_lead (Datatypes.S (Datatypes.S lv))) as (ld & Hld & Eld).
  destruct (events_write _ ld Eld Hld _ (events_ok _ Mm)) as (ls1 & F1 & E1).
  destruct (fields_write _ ld Eld Hld _ (fields_ok _ Mm)) as (ls2 & sks2 & F2 & R2 & E2).
  destruct (lead_eq st ST (at_level (Datatypes.S lv))) as (la & Ela & Hla).
  destruct (Fl _ (or_introl eq_refl)) as (b1 & G1). destruct (Fl _ (or_intror (or_introl eq_refl))) as (b2 & G2).
  destruct (flag_write n nd _ b1 _ la Nn G1 (or_introl eq_refl) Ela Hla) as (ls3 & F3 & E3).
  destruct (flag_write n nd _ b2 _ la Nn G2 (or_intror (or_introl eq_refl)) Ela Hla) as (ls4 & F4 & E4).
  destruct (decl_lead (Datatypes.S lv)) as (le & Hle & Ele).
  set (tl := match def_text S n with [] => script_gi | d => d end).
  assert (Ht : ~ In 10%N tl).
  { unfold tl, def_text. destruct Df as [->|Df]; [cbn; intuition discriminate|]. apply is_name_nl in Df. destruct (node_def S n) as [|c d]; [cbn; intuition discriminate|].
    intros I. change (lit "DEF " ++ (c :: d) ++ lit " ") with ([68%N; 69%N; 70%N; 32%N] ++ (c :: d) ++ [32%N]) in I. cbn [app] in I. destruct I as [I|[I|[I|[I|I]]]]; try discriminate.
    change (In 10%N ((c :: d) ++ [32%N])) in I. apply in_app_or in I as [I|[I|[]]]; [auto|discriminate]. }
  destruct (script_text (node_def S n) (ls1 ++ ls2 ++ ls3 ++ ls4) (map event_sel (sort_by (script_events (n_mem nd))) ++ sks2 ++ flat_map flag_sel [(lit "directOutput", b1); (lit "mustEvaluate", b2)]) le tl Df Hle Ht)
    as (pre & t & Et & Hp & It).
  { apply Forall2_app; [exact F1|]. apply Forall2_app; [exact F2|]. cbn [flat_map]. rewrite app_nil_r. apply Forall2_app; [exact F3|exact F4]. }
  exists pre, t, (map event_sel (sort_by (script_events (n_mem nd))) ++ sks2 ++ flat_map flag_sel [(lit "directOutput", b1); (lit "mustEvaluate", b2)]).
  split; [|split; [exact Hp|split; [exact It|]]].
  - rewrite E1 by reflexivity. rewrite lbind_ok, E2 by reflexivity. rewrite lbind_ok, script_attributes by exact Mm. cbn [map app flags each].
    rewrite (url_write n nd Nn Ur), lbind_ok, E3 by reflexivity. rewrite lbind_ok, E4 by reflexivity. rewrite lbind_ok, lbind_ok. fold tl.
    rewrite <- Et. clear Et It. rewrite !map_app, !concat_app.
    match goal with |- context [cur st ?x] => change (cur st x) with (cur st (at_level (Datatypes.S lv))) end.
    rewrite (app_assoc (l_fes st)), Ele. unfold tl. assert (def_text S n = def_part (node_def S n)) as -> by (unfold def_text, def_part; destruct (node_def S n); reflexivity).
    unfold emit, more, less, mark, tell. cbn [l_buf l_done l_level pred]. rewrite <- !app_assoc. f_equal. f_equal. f_equal. f_equal. rewrite app_length. reflexivity.
  - constructor; [exact R2|reflexivity|]. intros nm b [H|[H|[]]]; injection H as <- <-; assumption.
Qed.
End Save.
