(** C87: saving Scripts. *)
From Coq Require Import Reals Permutation SpecFloat.
From Flocq Require Import Core.Core IEEE754.BinarySingleNaN.
From Verif Require Import Base Text PyDict PyDict_Proofs Float Coerce_Model Coerce_Spec Grammar_Model Grammar_Proofs Lex_Spec Lex_Proofs
  Doc_Spec Doc_Proofs SceneGraph_Model VrmlStr_Model VrmlStr_Spec VrmlStr_Proofs VrmlStr_Values Scene_Model Linearise_Model
  Build_Model Proto_Model Scene_Spec Proto_Spec Linearise_Proofs Drop_Proofs Layout_Proofs Written Rebuilt Scene_Proofs Reading_Spec Reading_Proofs Reading_Facts
  ProtoText FloatStr StdNodes Std_Proofs P_VrmlStr P_Grammar P_Linearise P_Scene P_Reading Script_Spec Script_Proofs P_Script ScriptText ScriptSave_Spec ScriptSave Garbled ScriptGarbled.
Local Open Scope nat_scope.
Local Open Scope list_scope.
Notation RNode := Scene_Model.RNode.

(** *** writing *)
Section Write.
Variable P : prims.
Variable fstr : tcode -> fl -> text.
Variable protos : list (text * list fdecl).
Variable st : settings.
Variable S : scene.
Hypothesis FS : faithful fstr.
Hypothesis ST : ok_settings st.

Definition saved_item (n : nat) (i : sitem) : Prop :=
  exists nd sels, s_node S n = Some nd /\ i = SScript (def_opt (node_def S n)) sels /\ saved_sels P nd sels.
Lemma kids_write k ns : Forall (fun n => exists nd, ok_script P S n nd []) ns -> NoDup ns ->
  forall s, (forall n, In n ns -> dget Nat.eqb (l_done s) n = None) ->
  exists ts is s', Forall2 (fun t i => exists pre t', t = pre ++ t' /\ sep_text pre /\ item_text t' i) ts is /\
    Forall2 saved_item ns is /\ l_buf s' = l_buf s ++ List.concat (map (fun t => t ++ l_fes st) ts) /\
    each (fun c s => lbind (lin P fstr protos st S no_maps (Datatypes.S (Datatypes.S k)) c s) (fun s => LOk (emit (l_fes st) s))) (map RNode ns) s = LOk s'.
Proof.
  induction ns as [|n ns IH]; intros F ND s Hs.
  - exists [], [], s. repeat split; try constructor. cbn. rewrite app_nil_r. reflexivity.
  - inversion F as [|? ? (nd & Hn) F']; subst. inversion ND as [|? ? Nn ND']; subst.
    destruct (script_write P fstr st S FS ST (lin P fstr protos st S no_maps (Datatypes.S k)) (fun s => eq_refl) n nd Hn s (Hs n (or_introl eq_refl)))
      as (pre & t & sels & E & Hp & It & Sv).
    set (s1 := mark n (tell s, Some (tell s + List.length (pre ++ t))) (emit (pre ++ t) (mark n (tell s, None) s))) in *.
    destruct (IH F' ND' (emit (l_fes st) s1)) as (ts & is & s' & A & B & C & D).
    { intros m Hm. unfold s1. cbn [emit mark l_done].
      rewrite !(dget_dset_other Nat.eqb Nat.eqb_eq) by (intros ->; contradiction). apply Hs. right. exact Hm. }
    exists ((pre ++ t) :: ts), (SScript (def_opt (node_def S n)) sels :: is), s'. split; [|split; [|split]].
    + constructor; [|exact A]. exists pre, t. auto.
    + constructor; [|exact B]. exists nd, sels. split; [apply Hn|]. auto.
    + rewrite C. unfold s1. cbn [emit mark l_buf map List.concat]. rewrite <- !app_assoc. reflexivity.
    + cbn [map each]. change (lin P fstr protos st S no_maps (Datatypes.S (Datatypes.S k)) (RNode n) s) with (linear P fstr protos st S no_maps (lin P fstr protos st S no_maps (Datatypes.S k)) (RNode n) s).
      unfold linear. rewrite (sc_node _ _ _ _ _ Hn), (sc_gi _ _ _ _ _ Hn). change (text_eqb (lit "Script") script_gi) with true. cbn match.
      rewrite E. cbn [lbind]. exact D.
Qed.
Lemma scripts_written ns : s_kids S = map RNode ns -> ns <> [] -> NoDup ns -> s_routes S = [] ->
  Forall (fun n => n < s_next S /\ exists nd, ok_script P S n nd []) ns ->
  exists d is, linearise P fstr protos st S = Some (show_doc d) /\ ok_doc d /\ sk_doc d = map SRItem is /\ Forall2 saved_item ns is.
Proof.
  intros Hk Ne ND Hr F.
  assert (F' : Forall (fun n => exists nd, ok_script P S n nd []) ns) by (eapply Forall_impl; [|exact F]; intros n H; apply H).
  assert (Dp : exists k, depth S = Datatypes.S (Datatypes.S k)).
  { destruct ns as [|n ns]; [congruence|]. inversion F as [|? ? (L & _) _]; subst. unfold depth. destruct (s_next S) as [|k]; [lia|]. exists k. reflexivity. }
  destruct Dp as (k & Dp).
  destruct (kids_write k ns F' ND (mklst [] [] 0) (fun _ _ => eq_refl)) as (ts & is & s' & A & B & C & D).
  destruct (fes_eq st ST) as (fw & Fe & Hf). rewrite Fe in C. cbn [l_buf app] in C.
  assert (Ni : Forall (fun i => match i with SNode _ _ _ | SScript _ _ | SUse _ => True | _ => False end) is).
  { clear - B. induction B as [|n i ns is (nd & sels & _ & -> & _) B IH]; constructor; auto. }
  destruct (kids_text_sep fw [] ts is [] [] RNil Hf A Ni eq_refl sep_nil Logic.I) as (w & rl & E & Hw & Ok & Sk).
  rewrite app_nil_r in E. cbn [sk_roots] in Sk. rewrite app_nil_r in Sk.
  exists (Doc header (10%N :: w) rl), is. split; [|split; [|split; [exact Sk|exact B]]].
  - unfold linearise, lin_scene, Linearise_Model.named. rewrite Hr. cbn [map preroutes].
    assert (with_defs S (s_defs S) = S) as -> by (unfold with_defs; destruct S; reflexivity).
    unfold scene_body. rewrite Dp, Hk, D, Hr. cbn [lbind map List.concat finish]. rewrite emit_nil, C, E. cbn [show_doc]. rewrite <- app_comm_cons. reflexivity.
  - cbn [ok_doc]. split; [exact header_line|]. split; [apply sep_nl_; exact Hw|]. split; [exact Ok|].
    destruct rl; [|eauto]. exfalso. cbn [sk_roots] in Sk. destruct is; [|discriminate]. inversion B; subst. congruence.
Qed.
End Write.

(** *** reading *)
Lemma last_decl_app a b x : last_decl (a ++ b) x = match last_decl b x with Some y => Some y | None => last_decl a x end.
Proof.
  induction a as [|s a IH]; [cbn [app last_decl]; destruct (last_decl b x); reflexivity|]. cbn [app last_decl]. rewrite IH. destruct (last_decl b x); reflexivity.
Qed.
Lemma last_attr_app a b x : last_attr (a ++ b) x = match last_attr b x with Some y => Some y | None => last_attr a x end.
Proof.
  induction a as [|s a IH]; [cbn [app last_attr]; destruct (last_attr b x); reflexivity|]. cbn [app last_attr]. rewrite IH. destruct (last_attr b x); reflexivity.
Qed.
Lemma last_events evs x : match last_decl (map event_sel evs) x with
  | Some s => exists y, In y evs /\ fst y = x /\ s = event_sel y
  | None => ~ In x (map fst evs)
  end.
Proof.
  induction evs as [|e evs IH]; [intros []|]. cbn [map last_decl]. destruct (last_decl (map event_sel evs) x) as [s|].
  - destruct IH as (y & A & B & C). exists y. split; [right; exact A|auto].
  - cbn [declares event_sel]. destruct (text_eqb (fst e) x) eqn:E; [apply text_eqb_spec in E; exists e; split; [left; reflexivity|auto]|].
    intros [H|H]; [|contradiction]. rewrite H, text_eqb_refl in E. discriminate.
Qed.
Lemma last_fields P xs fs x : Forall2 (reads_field P) xs fs -> match last_decl fs x with
  | Some s => exists y, In y xs /\ fst y = x /\ reads_field P y s
  | None => ~ In x (map fst xs)
  end.
Proof.
  induction 1 as [|[nm [[ex k] l]] s xs fs R F IH]; [intros []|]. cbn [map last_decl]. destruct (last_decl fs x) as [s'|].
  - destruct IH as (y & A & B & C). exists y. split; [right; exact A|auto].
  - pose proof R as (its & -> & _). cbn [declares]. destruct (text_eqb nm x) eqn:E; [apply text_eqb_spec in E; eexists; split; [left; reflexivity|]; split; [exact E|exact R]|].
    intros [H|H]; [|contradiction]. cbn [fst] in H. rewrite H, text_eqb_refl in E. discriminate.
Qed.
Lemma last_flags bs x : last_decl (flat_map flag_sel bs) x = None.
Proof. induction bs as [|[nm b] bs IH]; [reflexivity|]. destruct b; cbn [flat_map flag_sel snd fst app last_decl declares]; rewrite ?IH; reflexivity. Qed.
Lemma no_attr_events evs x : last_attr (map event_sel evs) x = None.
Proof. induction evs as [|e evs IH]; [reflexivity|]. cbn [map last_attr event_sel]. rewrite IH. reflexivity. Qed.
Lemma no_attr_fields P xs fs x : Forall2 (reads_field P) xs fs -> last_attr fs x = None.
Proof. induction 1 as [|[nm [[ex k] l]] s xs fs (its & -> & _) F IH]; [reflexivity|]. cbn [last_attr]. rewrite IH. reflexivity. Qed.

Section Saved.
Variable P : prims.
Variable S : scene.
Variable n : nat.
Variable nd : snode.
Hypothesis OK : ok_script P S n nd [].
Lemma mem_in x m : In (x, m) (n_mem nd) <-> dget text_eqb (n_mem nd) x = Some m.
Proof.
  split; [apply (In_dget text_eqb text_eqb_spec); exact (sc_once _ _ _ _ _ OK)|apply (dget_In text_eqb text_eqb_spec)].
Qed.
Lemma mem_ok x m : In (x, m) (n_mem nd) -> ok_member P (x, m).
Proof. intros H. pose proof (sc_mem _ _ _ _ _ OK) as F. rewrite Forall_forall in F. exact (F _ H). Qed.
Lemma in_events x o ty : In (x, (o, ty)) (sort_by (script_events (n_mem nd))) <-> In (x, SMEvent o ty) (n_mem nd).
Proof.
  split.
  - intros H. apply (Permutation_in _ (sort_by_perm _)) in H. apply in_flat_map in H as ([y m] & Hm & H). cbn [fst snd] in H. destruct m; [destruct H|]. destruct H as [H|[]]. injection H as -> -> ->. exact Hm.
  - intros H. apply (Permutation_in _ (Permutation_sym (sort_by_perm _))). apply in_flat_map. eexists. split; [exact H|]. left. reflexivity.
Qed.
Lemma base_name x : In x (map f_name script_base) <-> In x (script_attrs ++ [lit "externalURL"]).
Proof. reflexivity. Qed.
Lemma in_decls x ex k l : In (x, (ex, k, l)) (sort_by (script_decls (n_mem nd))) <->
  In (x, SMField ex k l) (n_mem nd) \/ (x, (ex, k, l)) = (lit "externalURL", (true, f_kind url_field, [])).
Proof.
  assert (Nu : existsb (fun x => text_eqb (fst x) (lit "externalURL")) (n_mem nd) = false).
  { destruct (existsb _ (n_mem nd)) eqn:X; [|reflexivity]. apply existsb_exists in X as ([y m] & Hy & X). apply text_eqb_spec in X. cbn [fst] in X. subst y.
    destruct (mem_ok _ _ Hy) as (_ & (_ & Q) & _). exfalso. apply Q. apply base_name. apply in_or_app. right. left. reflexivity. }
  unfold script_decls. rewrite Nu. split.
  - intros H. apply (Permutation_in _ (sort_by_perm _)) in H. apply filter_In in H as [H _]. apply in_app_or in H as [H|[H|[]]]; [|right; symmetry; exact H].
    left. apply in_flat_map in H as ([y m] & Hm & H). cbn [fst snd] in H. destruct m; [|destruct H]. destruct H as [H|[]]. injection H as -> -> -> ->. exact Hm.
  - intros H. apply (Permutation_in _ (Permutation_sym (sort_by_perm _))). apply filter_In. destruct H as [H|H].
    + split; [apply in_or_app; left; apply in_flat_map; eexists; split; [exact H|]; left; reflexivity|]. cbn [fst].
      destruct (existsb (text_eqb x) script_attrs) eqn:X; [|reflexivity]. apply existsb_exists in X as (y & Hy & X). apply text_eqb_spec in X. subst y.
      destruct (mem_ok _ _ H) as (_ & (_ & Q) & _). exfalso. apply Q. apply base_name. apply in_or_app. left. exact Hy.
    + injection H as -> -> -> ->. split; [apply in_or_app; right; left; reflexivity|reflexivity].
Qed.
(** the last declaration of each name *)
Lemma last_saved sels x : saved_sels P nd sels ->
  match dget text_eqb (n_mem nd) x with
  | Some (SMEvent o ty) => last_decl sels x = Some (SSEvent o ty x None)
  | Some (SMField ex k l) => exists s, last_decl sels x = Some s /\ reads_field P (x, (ex, k, l)) s
  | None => (x = lit "externalURL" /\ exists s, last_decl sels x = Some s /\ reads_field P (x, (true, f_kind url_field, [])) s) \/
            (x <> lit "externalURL" /\ last_decl sels x = None)
  end.
Proof.
  intros [bs fs R Eb Gb]. rewrite !last_decl_app, last_flags. pose proof (last_fields P _ _ x R) as Lf. pose proof (last_events (sort_by (script_events (n_mem nd))) x) as Le.
  assert (NoU : forall m, ~ In (lit "externalURL", m) (n_mem nd)).
  { intros m H. destruct (mem_ok _ _ H) as (_ & (_ & Q) & _). apply Q. apply base_name. apply in_or_app. right. left. reflexivity. }
  destruct (last_decl fs x) as [s|].
  - destruct Lf as ([y [[ex k] l]] & Hy & Fy & Rs). cbn [fst] in Fy. subst y. apply in_decls in Hy as [Hy|Hy].
    + apply mem_in in Hy. rewrite Hy. eauto.
    + assert (Ex : x = lit "externalURL") by congruence. assert (Ey : (ex, k, l) = (true, f_kind url_field, [])) by congruence.
      destruct (dget text_eqb (n_mem nd) x) as [m|] eqn:G; [apply mem_in in G; rewrite Ex in G; destruct (NoU _ G)|]. left. split; [exact Ex|]. exists s. rewrite <- Ey. auto.
  - assert (Nf : forall ex k l, ~ In (x, SMField ex k l) (n_mem nd)).
    { intros ex k l H. apply Lf. apply (in_map fst) with (x := (x, (ex, k, l))). apply in_decls. left. exact H. }
    destruct (last_decl (map event_sel (sort_by (script_events (n_mem nd)))) x) as [s|].
    + destruct Le as ([y [o ty]] & Hy & Fy & ->). cbn [fst] in Fy. subst y. apply in_events in Hy. apply mem_in in Hy. rewrite Hy. reflexivity.
    + destruct (dget text_eqb (n_mem nd) x) as [[ex k l|o ty]|] eqn:G; [apply mem_in in G; destruct (Nf _ _ _ G)| |].
      * apply mem_in in G. exfalso. apply Le. apply (in_map fst) with (x := (x, (o, ty))). apply in_events. exact G.
      * right. split; [|reflexivity]. intros ->. apply Lf. apply (in_map fst) with (x := (lit "externalURL", (true, f_kind url_field, @nil nref))). apply in_decls. right. reflexivity.
Qed.
(** the attributes *)
Lemma attr_saved sels x : saved_sels P nd sels -> last_attr sels x = None \/
  (In x flags /\ last_attr sels x = Some (SVal [SBool true]) /\ script_fget P nd (flag x) = Ok (truth true)).
Proof.
  intros [bs fs R Eb Gb]. rewrite !last_attr_app, (no_attr_fields P _ _ x R), no_attr_events.
  assert (Q : last_attr (flat_map flag_sel bs) x = None \/ (last_attr (flat_map flag_sel bs) x = Some (SVal [SBool true]) /\ In (x, true) bs)).
  { clear. induction bs as [|[nm b] bs IH]; [left; reflexivity|]. destruct b; cbn [flat_map flag_sel snd fst app last_attr].
    - destruct IH as [->|[-> H]]; [|right; split; [reflexivity|right; exact H]]. destruct (text_eqb nm x) eqn:E; [|left; reflexivity]. apply text_eqb_spec in E. subst. right. split; [reflexivity|left; reflexivity].
    - destruct IH as [->|[-> H]]; [left; reflexivity|right; split; [reflexivity|right; exact H]]. }
  destruct Q as [->|[-> H]]; [left; reflexivity|right]. split; [rewrite <- Eb; apply (in_map fst) in H; exact H|]. split; [reflexivity|exact (Gb _ _ H)].
Qed.
Lemma flag_saved sels x : saved_sels P nd sels -> In x flags -> script_fget P nd (flag x) = Ok (truth true) -> last_attr sels x = Some (SVal [SBool true]).
Proof.
  intros [bs fs R Eb Gb] Hx G. rewrite !last_attr_app.
  rewrite <- Eb in Hx. apply in_map_iff in Hx as ([y b] & Ey & Hb). cbn [fst] in Ey. subst y. pose proof (Gb _ _ Hb) as G'. rewrite G in G'. destruct b; [|discriminate].
  assert (Q : last_attr (flat_map flag_sel bs) x = Some (SVal [SBool true])).
  { clear - Hb. induction bs as [|[nm b] bs IH]; [destruct Hb|]. destruct Hb as [Hb|Hb].
    - injection Hb as -> ->. cbn [flat_map flag_sel snd fst app last_attr]. destruct (last_attr (flat_map flag_sel bs) x) eqn:E; [|rewrite text_eqb_refl; reflexivity].
      assert (Q : forall v, last_attr (flat_map flag_sel bs) x = Some v -> v = SVal [SBool true]).
      { clear. induction bs as [|[nm b] bs IH]; [discriminate|]. intros v. destruct b; cbn [flat_map flag_sel snd fst app last_attr]; [|exact (IH v)].
        destruct (last_attr (flat_map flag_sel bs) x); [exact (IH v)|]. destruct (text_eqb nm x); [congruence|discriminate]. }
      rewrite (Q _ E). reflexivity.
    - specialize (IH Hb). destruct b; cbn [flat_map flag_sel snd fst app last_attr]; rewrite IH; reflexivity. }
  rewrite Q. reflexivity.
Qed.
End Saved.
Section Readable.
Variable P : prims.
Variable base : list (text * list fdecl).
Variable e : list (text * pdef).
Definition declarable (s : ssel) : Prop :=
  match s with
  | SSField ex ty nm (SVal its) => Reading_Spec.free_name nm /\ forall st, exists m, member_reads P base false e st ex ty its st m
  | SSEvent _ ty nm None => free_event nm /\ kind_of ty <> None
  | SSAttr nm v => In nm flags /\ v = SVal [SBool true]
  | _ => False
  end.
Lemma decls_readable n l : Forall declarable l -> forall st ms, exists st', sdecls_read P base false e n st ms l st' ms.
Proof.
  induction 1 as [|s l H F IH]; intros st ms; [eexists; constructor|]. destruct s as [ex ty nm [its|]|o ty nm [|]|nm v]; cbn [declarable] in H; try contradiction.
  - destruct H as [Fr H]. destruct (H st) as (m & Hm). destruct (IH (with_member n nm m st) ms) as (st' & Hs). exists st'. eapply sd_value; eassumption.
  - destruct H as [Fr H]. destruct (IH (with_member n nm (SMEvent o ty) st) ms) as (st' & Hs). exists st'. eapply sd_event; [exact Fr|exact H|]. rewrite app_nil_r. exact Hs.
  - destruct (IH st ms) as (st' & Hs). exists st'. constructor. exact Hs.
Qed.
Lemma attrs_readable n l : Forall declarable l -> forall st, (forall nm, In nm flags -> member_of st n nm = None) -> exists st', sattrs_read P base false e n st l st'.
Proof.
  induction 1 as [|s l H F IH]; intros st Hm; [eexists; constructor|]. destruct s as [ex ty nm v|o ty nm v|nm v]; cbn [declarable] in H.
  - destruct (IH st Hm) as (st' & Hs). exists st'. apply sa_decl; [exact Logic.I|exact Hs].
  - destruct (IH st Hm) as (st' & Hs). exists st'. apply sa_decl; [exact Logic.I|exact Hs].
  - destruct H as [Hn ->]. destruct (IH (with_sets [(n, nm, truth true)] st) Hm) as (st' & Hs). exists st'.
    change nm with (f_name (flag nm)) at 1. eapply sa_value; [| |exact Hs].
    + unfold Reading_Spec.script_field. rewrite Hm by exact Hn. destruct Hn as [<-|[<-|[]]]; cbn; auto.
    + apply (vr_plain P base false e st (flag nm) SFBool (PInt 0)); reflexivity.
Qed.
Lemma saved_declarable S n nd sels : ok_script P S n nd [] -> saved_sels P nd sels -> Forall declarable sels.
Proof.
  intros OK [bs fs R Eb Gb]. apply Forall_app. split; [|apply Forall_app; split].
  - apply Forall_forall. intros s Hs. apply in_map_iff in Hs as ([x [o ty]] & <- & Hx). apply (in_events nd) in Hx. destruct (mem_ok P S n nd OK _ _ Hx) as (_ & Fe & K). split; assumption.
  - assert (Q : forall x, In x (sort_by (script_decls (n_mem nd))) -> Reading_Spec.free_name (fst x)).
    { intros [x [[ex k] l]] Hx. apply (in_decls P S n nd OK) in Hx as [Hx|Hx]; [destruct (mem_ok P S n nd OK _ _ Hx) as (_ & (Fn & _) & _); exact Fn|]. injection Hx as -> _ _ _. reflexivity. }
    clear - R Q. revert Q. induction R as [|[nm [[ex k] l]] s xs fs (its & -> & Rk) R IH]; intros Q; constructor; [|apply IH; intros y Hy; apply Q; right; exact Hy].
    cbn [declarable]. split; [exact (Q _ (or_introl eq_refl))|]. intros st. destruct k as [t d| |o].
    + destruct Rk as (Pl & v & Cv & Rv). unfold read_value in Rv. destruct (handler t (map et_item its)) as [w|] eqn:Hh; [|discriminate]. eexists. cbn [class_name].
      apply (mr_value P base false e st ex (fty_name t) t its w); [apply fty_of_name|exact Pl|exact Hh].
    + subst its. eexists. apply (mr_node P base false e). constructor.
    + subst its. eexists. apply (mr_nodes P base false e). constructor.
  - apply Forall_forall. intros s Hs. apply in_flat_map in Hs as ([nm b] & Hb & Hs). destruct b; [|destruct Hs]. destruct Hs as [<-|[]]. cbn [declarable fst]. split; [|reflexivity].
    rewrite <- Eb. apply (in_map fst) in Hb. exact Hb.
Qed.
Lemma saved_typed S n nd sels : ok_script P S n nd [] -> saved_sels P nd sels -> forallb typed_sel sels = true /\ tidy (SScript None sels) = true.
Proof.
  intros OK [bs fs R Eb Gb].
  assert (Pt : forall its, forallb plain its = true -> forallb typed_item its = true /\ tidy_value its && forallb tidy its = true).
  { intros its H. assert (A : forallb typed_item its = true /\ forallb tidy its = true).
    { induction its as [|i its IH]; [split; reflexivity|]. cbn [forallb] in H |- *. apply andb_true_iff in H as [H1 H2]. destruct (IH H2) as [-> ->]. destruct i; try discriminate; split; reflexivity. }
    destruct A as [A B]. split; [exact A|]. rewrite B, andb_true_r. unfold tidy_value. destruct its as [|i its]; [reflexivity|]. rewrite H. apply orb_true_r. }
  cbn [tidy]. rewrite !forallb_app.
  assert (E1 : forall evs, forallb typed_sel (map event_sel evs) = true /\ forallb (fun x => match x with SSField _ _ _ (SVal its) | SSAttr _ (SVal its) => tidy_value its && forallb tidy its | _ => true end) (map event_sel evs) = true).
  { induction evs as [|x evs [IH1 IH2]]; [split; reflexivity|]. split; [exact IH1|exact IH2]. }
  destruct (E1 (sort_by (script_events (n_mem nd)))) as [-> ->].
  assert (E2 : forallb typed_sel fs = true /\ forallb (fun x => match x with SSField _ _ _ (SVal its) | SSAttr _ (SVal its) => tidy_value its && forallb tidy its | _ => true end) fs = true).
  { clear - R Pt. induction R as [|[nm [[ex k] l]] s xs fs (its & -> & Rk) R [IH1 IH2]]; [split; reflexivity|]. cbn [forallb typed_sel]. rewrite IH1, IH2.
    destruct k as [t d| |o]; [destruct Rk as (Pl & _); destruct (Pt _ Pl) as [-> ->]; split; reflexivity| |]; subst its; split; reflexivity. }
  destruct E2 as [-> ->].
  assert (E3 : forall bs, forallb typed_sel (flat_map flag_sel bs) = true /\ forallb (fun x => match x with SSField _ _ _ (SVal its) | SSAttr _ (SVal its) => tidy_value its && forallb tidy its | _ => true end) (flat_map flag_sel bs) = true).
  { clear. induction bs as [|[nm b] bs [IH1 IH2]]; [split; reflexivity|]. destruct b; [|exact (conj IH1 IH2)]. split; [exact IH1|exact IH2]. }
  destruct (E3 bs) as [-> ->]. split; reflexivity.
Qed.
Lemma script_readable S n nd sels dn st : ok_script P S n nd [] -> saved_sels P nd sels -> fresh st ->
  exists st', item_reads P base false e st (SScript dn sels) st' (RNode (r_next st)) /\ fresh st'.
Proof.
  intros OK Sv Fr. pose proof (saved_declarable S n nd sels OK Sv) as Dc. destruct (saved_typed S n nd sels OK Sv) as [Ty _].
  destruct (decls_readable (r_next st) sels Dc (enter_node dn script_gi st) []) as (st1 & H1).
  assert (Sc : is_script (enter_node dn script_gi st) (r_next st)) by (eexists; apply entered).
  destruct (decls_give _ _ _ _ _ _ _ _ _ _ H1 Ty Sc) as (_ & D1 & _).
  destruct (attrs_readable (r_next st) sels Dc st1) as (st' & H2).
  { intros nm Hn. specialize (D1 nm). unfold declared in D1. pose proof (last_saved P S n nd OK sels nm Sv) as L.
    assert (Nm : forall m, ~ In (nm, m) (n_mem nd)).
    { intros m H. destruct (mem_ok P S n nd OK _ _ H) as (_ & (_ & Q) & _). apply Q. destruct Hn as [<-|[<-|[]]]; cbn; auto. }
    destruct (dget text_eqb (n_mem nd) nm) as [m|] eqn:G; [apply (mem_in P S n nd OK) in G; destruct (Nm _ G)|].
    destruct L as [[-> _]|[_ L]]; [destruct Hn as [H|[H|[]]]; vm_compute in H; discriminate H|]. rewrite L in D1. rewrite D1. exact (member_of_next st nm (proj2 Fr)). }
  exists st'. assert (I : item_reads P base false e st (SScript dn sels) st' (RNode (r_next st))) by (eapply ir_script; [exact H1|left; reflexivity|exact H2]).
  split; [exact I|]. exact (proj1 (proj1 (all_tended P base false e) _ _ _ _ I Fr)).
Qed.
Lemma scripts_readable S : forall ns is, Forall (fun n => exists nd, ok_script P S n nd []) ns -> Forall2 (saved_item P S) ns is ->
  forall st, fresh st -> exists st', roots_read P base false e ([], st) (map SRItem is) ([], st').
Proof.
  intros ns is F H. revert F. induction H as [|n i ns is (nd & sels & Nn & -> & Sv) H IH]; intros F st Fr; [eexists; constructor|].
  inversion F as [|? ? (nd' & OK) F']; subst. assert (nd' = nd) as -> by (pose proof (sc_node _ _ _ _ _ OK); congruence).
  destruct (script_readable S n nd sels (def_opt (node_def S n)) st OK Sv Fr) as (st1 & I & Fr1).
  destruct (IH F' (with_kid (RNode (r_next st)) st1) Fr1) as (st' & R). exists st'. cbn [map]. eapply rs_cons; [|exact R]. apply rr_item. exact I.
Qed.
End Readable.

(** C87.  Scripts that are saved -- with any settings, rendering of numbers, and values
    set on their declared fields -- are read back, in order: with their names, their
    events and fields, of the same types and classes, and with their flags.  The
    declared fields hold their defaults. *)
Theorem C87_saved_scripts_read_back : forall P fstr protos base st S ns, faithful fstr -> ok_settings st ->
  (forall gi fs, proto base gi = Some fs -> ~ In gi not_types /\ NoDup (map f_name fs)) ->
  s_kids S = map RNode ns -> ns <> [] -> NoDup ns -> s_routes S = [] ->
  Forall (fun n => n < s_next S /\ exists nd, ok_script P S n nd []) ns ->
  exists text S', linearise P fstr protos st S = Some text /\ loads P base text (Ok ([], S')) /\
    List.length (s_kids S') = List.length ns /\
    forall i n, nth_error ns i = Some n -> exists m nd nd', nth_error (s_kids S') i = Some (RNode m) /\
      s_node S n = Some nd /\ s_node S' m = Some nd' /\ n_gi nd' = lit "Script" /\ node_def S' m = node_def S n /\ same_script P nd nd'.
Proof.
  intros P fstr protos base st S ns FS ST Fine Hk Ne ND Hr F.
  destruct (scripts_written P fstr protos st S FS ST ns Hk Ne ND Hr F) as (d & is & El & Okd & Sk & Sv).
  assert (F' : Forall (fun n => exists nd, ok_script P S n nd []) ns) by (eapply Forall_impl; [|exact F]; intros n H; apply H).
  destruct (scripts_readable P base [] S ns is F' Sv rs0 (conj (Forall_nil _) (Forall_nil _))) as (r & R).
  assert (Np : forallb no_proto (sk_doc d) = true) by (rewrite Sk; clear; induction is as [|i is IH]; [reflexivity|exact IH]).
  pose proof R as R0. rewrite <- Sk in R. destruct (C66_meaningful_documents_are_read P base d r Okd Np Fine R) as (S' & L & D).
  assert (Ti : tidy_doc d).
  { unfold tidy_doc. rewrite Sk. clear - Sv F'. induction Sv as [|n i ns is (nd & sels & Nn & -> & Sv) H IH]; [reflexivity|]. inversion F' as [|? ? (nd' & OK) F'']; subst.
    assert (nd' = nd) as -> by (pose proof (sc_node _ _ _ _ _ OK); congruence). cbn [map forallb tidy_root]. rewrite (IH F''), andb_true_r. exact (proj2 (saved_typed P S n nd sels OK Sv)). }
  exists (show_doc d), S'. split; [exact El|]. split; [exact L|]. split.
  { destruct (roots_kids _ _ _ _ _ _ _ R0) as (ks & K & Lk). cbn [snd r_kids rs0 app] in K. rewrite (ds_kids _ _ D), K, Lk.
    assert (filter is_child (map SRItem is) = map SRItem is) as -> by (clear; induction is as [|i is IH]; [reflexivity|cbn; f_equal; exact IH]).
    rewrite map_length. clear - Sv. induction Sv; cbn; congruence. }
  intros i n Hi. assert (Q : exists is1 it is2, is = is1 ++ it :: is2 /\ List.length is1 = i /\ saved_item P S n it).
  { clear - Sv Hi. revert i Hi. induction Sv as [|x it ns is Hx H IH]; intros i Hi; [destruct i; discriminate|]. destruct i as [|i].
    - injection Hi as ->. exists [], it, is. auto.
    - destruct (IH i Hi) as (is1 & it' & is2 & -> & <- & Q). exists (it :: is1), it', is2. auto. }
  destruct Q as (is1 & it & is2 & Ei & Li & nd & sels & Nn & -> & Ss).
  assert (OK : ok_script P S n nd []).
  { apply nth_error_In in Hi. rewrite Forall_forall in F'. destruct (F' _ Hi) as (nd' & OK). assert (nd' = nd) as <- by (pose proof (sc_node _ _ _ _ _ OK); congruence). exact OK. }
  assert (E : sk_doc d = map SRItem is1 ++ SRItem (SScript (def_opt (node_def S n)) sels) :: map SRItem is2) by (rewrite Sk, Ei, map_app; reflexivity).
  destruct (C85_scripts_are_read_as_written P base d [] S' _ _ _ _ Okd Ti E L) as (m & nd' & ks & ks' & K1 & K2 & K3 & K4 & K5 & K6 & K7 & K8 & K9 & K10 & K11 & K12).
  exists m, nd, nd'. split; [|split; [exact Nn|split; [exact K3|split; [exact K4|split]]]].
  - rewrite K1, nth_error_app2; rewrite K2.
    + assert (List.length (filter is_child (map SRItem is1)) = i) as ->; [|rewrite Nat.sub_diag; reflexivity].
      rewrite <- Li. clear. induction is1 as [|x is IH]; [reflexivity|cbn; f_equal; exact IH].
    + rewrite <- Li. clear. induction is1 as [|x is IH]; [apply le_n|cbn; apply le_n_S; exact IH].
  - rewrite K5. unfold def_opt. destruct (node_def S n); reflexivity.
  - pose proof (last_saved P S n nd OK sels) as LS. pose proof (attr_saved P nd sels) as AS. split; [|split].
    + intros x. specialize (LS x Ss). specialize (K6 x). assert (AN : dget text_eqb (n_mem nd) x <> None -> last_attr sels x = None).
      { intros G. destruct (AS x Ss) as [A|(A & _)]; [exact A|]. exfalso. destruct (dget text_eqb (n_mem nd) x) as [mm|] eqn:Gm; [|congruence]. apply (mem_in P S n nd OK) in Gm.
        destruct (mem_ok P S n nd OK _ _ Gm) as (_ & (_ & Q) & _). apply Q. destruct A as [<-|[<-|[]]]; cbn; auto. }
      destruct (dget text_eqb (n_mem nd) x) as [[ex [t dv| |o] l|o ty]|].
      * destruct LS as (s & Ls & its & -> & Pl & v & Cv & Rv). rewrite Ls in K6. destruct K6 as (k & dn & G & Ck). cbn [class_name] in *.
        destruct k as [t' d'| |o]; [|exfalso; destruct (ProtoText.fty_not_node t) as [Q _]; rewrite <- Ck in Q; vm_compute in Q; discriminate Q|exfalso; destruct (ProtoText.fty_not_node t) as [_ Q]; rewrite <- Ck in Q; vm_compute in Q; discriminate Q].
        cbn [class_name] in Ck. assert (t' = t) as -> by (pose proof (fty_of_name t') as Q; rewrite Ck, fty_of_name in Q; congruence).
        exists d', dn. split; [exact G|]. exists v. split; [exact Cv|]. rewrite (K7 x ex (fty_name t) t its (KVal t d') dn Ls (fty_of_name t) G).
        rewrite AN by discriminate. unfold given_value. rewrite Rv. reflexivity.
      * destruct LS as (s & Ls & its & -> & ->). exact (K11 _ _ Ls).
      * destruct LS as (s & Ls & its & -> & ->). exact (K12 _ _ Ls).
      * rewrite LS in K6. exact K6.
      * intros Nx. destruct LS as [[Q _]|[_ Ls]]; [contradiction|]. rewrite Ls in K6. exact K6.
    + intros nm Hn. destruct (sc_flags _ _ _ _ _ OK nm Hn) as (b & G). rewrite G.
      assert (Hb : In (flag nm) script_base) by (destruct Hn as [<-|[<-|[]]]; cbn; auto).
      assert (Ln : last_decl sels nm = None).
      { specialize (LS nm Ss). destruct (dget text_eqb (n_mem nd) nm) as [mm|] eqn:Gm.
        - exfalso. apply (mem_in P S n nd OK) in Gm. destruct (mem_ok P S n nd OK _ _ Gm) as (_ & (_ & Q) & _). apply Q. destruct Hn as [<-|[<-|[]]]; cbn; auto.
        - destruct LS as [[-> _]|[_ Ls]]; [|exact Ls]. destruct Hn as [H|[H|[]]]; vm_compute in H; discriminate H. }
      rewrite (K8 (flag nm) SFBool (PInt 0) Hb eq_refl Ln). cbn [flag f_name].
      destruct b; [rewrite (flag_saved P nd sels nm Ss Hn G); reflexivity|]. destruct (AS nm Ss) as [->|(_ & _ & G')]; [reflexivity|]. rewrite G in G'. discriminate.
    + rewrite (sc_url _ _ _ _ _ OK). assert (Hb : In url_attr script_base) by (cbn; auto).
      assert (Ln : last_decl sels (lit "url") = None).
      { specialize (LS (lit "url") Ss). destruct (dget text_eqb (n_mem nd) (lit "url")) as [mm|] eqn:Gm.
        - exfalso. apply (mem_in P S n nd OK) in Gm. destruct (mem_ok P S n nd OK _ _ Gm) as (_ & (_ & Q) & _). apply Q. cbn; auto.
        - destruct LS as [[H _]|[_ Ls]]; [vm_compute in H; discriminate H|exact Ls]. }
      rewrite (K8 url_attr MFString (PSeq KList []) Hb eq_refl Ln). cbn [url_attr f_name].
      destruct (AS (lit "url") Ss) as [->|(H & _)]; [reflexivity|]. destruct H as [H|[H|[]]]; vm_compute in H; discriminate H.
Qed.
Print Assumptions C87_saved_scripts_read_back.

Lemma loads_det P base t r r' : loads P base t r -> loads P base t r' -> r = r'.
Proof.
  intros (c & tr & A & <-) (c' & tr' & B & <-). pose proof (parses_det _ _ _ _ A B) as Q. injection Q as -> ->. reflexivity.
Qed.
(** the value set on a field a Script declares is not in the file: what is written is the
    default of the declaration (linearise.py 330-337, 409-421), so a field that holds something
    else does not hold it in the scene read back *)
Theorem C87_values_refuted : forall P fstr protos base st S ns, faithful fstr -> ok_settings st ->
  (forall gi fs, proto base gi = Some fs -> ~ In gi not_types /\ NoDup (map f_name fs)) ->
  s_kids S = map RNode ns -> ns <> [] -> NoDup ns -> s_routes S = [] ->
  Forall (fun n => n < s_next S /\ exists nd, ok_script P S n nd []) ns ->
  forall i n nd x ex t d l v, nth_error ns i = Some n -> s_node S n = Some nd ->
  dget text_eqb (n_mem nd) x = Some (SMField ex (KVal t d) l) ->
  script_fget P nd (mkfd x (KVal t d)) = Ok (VPv v) -> coerce P t d <> Ok v ->
  forall text tab S', linearise P fstr protos st S = Some text -> loads P base text (Ok (tab, S')) ->
  exists m nd' d' dn, nth_error (s_kids S') i = Some (RNode m) /\ s_node S' m = Some nd' /\
    dget text_eqb (n_mem nd') x = Some (SMField ex (KVal t d') dn) /\ script_fget P nd' (mkfd x (KVal t d')) <> Ok (VPv v).
Proof.
  intros P fstr protos base st S ns FS ST Fine Hk Ne ND Hr F i n nd x ex t d l v Hi Hn Hx Hv Hc text tab S' Hl L.
  destruct (C87_saved_scripts_read_back P fstr protos base st S ns FS ST Fine Hk Ne ND Hr F) as (text' & S1 & Hl' & L' & _ & A).
  assert (text' = text) as -> by congruence. pose proof (loads_det _ _ _ _ _ L L') as Q. injection Q as -> ->.
  destruct (A i n Hi) as (m & nd0 & nd' & K1 & K2 & K3 & _ & _ & Q & _). assert (nd0 = nd) as -> by congruence.
  specialize (Q x). rewrite Hx in Q. destruct Q as (d' & dn & G & v' & C & E). exists m, nd', d', dn. repeat split; auto.
  rewrite E. intros [= ->]. contradiction.
Qed.
Print Assumptions C87_values_refuted.

(** a scene with two Scripts.  The first, DEF A, declares two events, a field speed, 0 by
    default, that holds 5, a list of strings, a node and a list of nodes, and must be
    evaluated. *)
Definition five : fl := S754_finite false 5629499534213120 (-50).
Definition script_a : snode := mksn (lit "Script") [(lit "speed", VPv (PFloat five)); (lit "mustEvaluate", VPv (PInt 1))]
  [(lit "go", SMEvent false (lit "SFTime")); (lit "speed", SMField false (KVal SFFloat (PFloat fzero)) []);
   (lit "names", SMField true (KVal MFString (PSeq KList [PStr (lit "x"); PStr (lit "a b")])) []);
   (lit "target", SMField false KNode [RNull]); (lit "parts", SMField false (KNodes false) []);
   (lit "done", SMEvent true (lit "SFNode"))].
Definition script_b : snode := mksn (lit "Script") [(lit "directOutput", VPv (PInt 1))] [].
Definition two_scripts : scene := mkscene 2 (fun n => match n with 0 => Some script_a | 1 => Some script_b | _ => None end)
  {| defs := [(lit "A", 0)]; ndef := fun n => match n with 0 => lit "A" | _ => [] end |} [RNode 0; RNode 1] [] [].
Example two_scripts_ok : Forall (fun n => n < s_next two_scripts /\ exists nd, ok_script P_ex two_scripts n nd []) [0; 1].
Proof.
  constructor; [|constructor; [|constructor]]; (split; [cbn; lia|]).
  - exists script_a. split; try reflexivity.
    + right. reflexivity.
    + cbn. repeat constructor; cbn; intuition discriminate.
    + repeat apply Forall_cons; try apply Forall_nil; (split; [reflexivity|split; [vm_compute; intuition discriminate|cbn]]);
        try discriminate; try reflexivity.
      * split; [reflexivity|]. exists (PFloat fzero). split; [reflexivity|]. split; [eexists; split; reflexivity|reflexivity].
      * split; [reflexivity|]. eexists. split; [reflexivity|]. split; [exists [lit "x"; lit "a b"]; reflexivity|]. cbn. auto.
    + intros nm [<-|[<-|[]]]; [exists false|exists true]; reflexivity.
  - exists script_b. split; try reflexivity.
    + left. reflexivity.
    + constructor.
    + constructor.
    + intros nm [<-|[<-|[]]]; [exists true|exists false]; reflexivity.
Qed.
Example two_scripts_back : exists text S' m0 m1 nd0 nd1, linearise P_ex exact_str std_protos set_defaults two_scripts = Some text /\
  loads P_ex std_protos text (Ok ([], S')) /\ s_kids S' = [RNode m0; RNode m1] /\ node_def S' m0 = lit "A" /\
  s_node S' m0 = Some nd0 /\ s_node S' m1 = Some nd1 /\
  dget text_eqb (n_mem nd0) (lit "done") = Some (SMEvent true (lit "SFNode")) /\
  dget text_eqb (n_mem nd0) (lit "target") = Some (SMField false KNode [RNull]) /\
  script_fget P_ex nd0 (flag (lit "mustEvaluate")) = Ok (truth true) /\
  script_fget P_ex nd1 (flag (lit "directOutput")) = Ok (truth true) /\
  exists d' dn, dget text_eqb (n_mem nd0) (lit "speed") = Some (SMField false (KVal SFFloat d') dn) /\
    script_fget P_ex nd0 (mkfd (lit "speed") (KVal SFFloat d')) <> Ok (VPv (PFloat five)).
Proof.
  assert (ND : NoDup [0; 1]) by (repeat constructor; cbn; intuition discriminate).
  destruct (C87_saved_scripts_read_back P_ex exact_str std_protos std_protos set_defaults two_scripts [0; 1] exact_faithful st_default C66_std_fine eq_refl ltac:(discriminate) ND eq_refl two_scripts_ok)
    as (text & S' & A & B & C & D).
  destruct (D 0 0 eq_refl) as (m0 & x0 & nd0 & K0 & N0 & M0 & _ & Df & (Q0 & F0 & _)). destruct (D 1 1 eq_refl) as (m1 & x1 & nd1 & K1 & N1 & M1 & _ & _ & (Q1 & F1 & _)).
  injection N0 as <-. injection N1 as <-.
  exists text, S', m0, m1, nd0, nd1. split; [exact A|]. split; [exact B|]. split.
  { destruct (s_kids S') as [|a [|b [|]]]; try discriminate C. injection K0 as ->. injection K1 as ->. reflexivity. }
  split; [exact Df|]. split; [exact M0|]. split; [exact M1|]. split; [exact (Q0 (lit "done"))|]. split; [exact (Q0 (lit "target"))|].
  split; [rewrite (F0 (lit "mustEvaluate")) by (cbn; auto); reflexivity|]. split; [rewrite (F1 (lit "directOutput")) by (cbn; auto); reflexivity|].
  destruct (C87_values_refuted P_ex exact_str std_protos std_protos set_defaults two_scripts [0; 1] exact_faithful st_default C66_std_fine eq_refl ltac:(discriminate) ND eq_refl two_scripts_ok
    0 0 script_a (lit "speed") false SFFloat (PFloat fzero) [] (PFloat five) eq_refl eq_refl eq_refl eq_refl ltac:(vm_compute; discriminate) text [] S' A B) as (m & nd' & d' & dn & E1 & E2 & E3 & E4).
  assert (m = m0) as -> by congruence. assert (nd' = nd0) as -> by congruence. eauto.
Qed.

(** *** Scripts with sources *)
Section Sources.
Variable P : prims.
Variable fstr : tcode -> fl -> text.
Variable protos : list (text * list fdecl).
Variable st : settings.
Variable S : scene.
Hypothesis FS : faithful fstr.
Hypothesis ST : ok_settings st.
Variable k : nat.
Notation kid := (fun c s => lbind (lin P fstr protos st S no_maps (Datatypes.S (Datatypes.S k)) c s) (fun s => LOk (emit (l_fes st) s))).

Lemma kid_script n nd urls s : ok_script P S n nd urls -> kid (RNode n) s =
  lbind (Linearise_Model.script_body P fstr st S no_maps (lin P fstr protos st S no_maps (Datatypes.S k)) n (n_mem nd) s) (fun s => LOk (emit (l_fes st) s)).
Proof.
  intros OK. cbv beta. f_equal. change (lin P fstr protos st S no_maps (Datatypes.S (Datatypes.S k)) (RNode n) s) with (linear P fstr protos st S no_maps (lin P fstr protos st S no_maps (Datatypes.S k)) (RNode n) s).
  unfold linear. rewrite (sc_node _ _ _ _ _ OK), (sc_gi _ _ _ _ _ OK). reflexivity.
Qed.
Lemma rec_null s : lin P fstr protos st S no_maps (Datatypes.S k) RNull s = LOk (emit (lit "NULL") s).
Proof. reflexivity. Qed.
Lemma script_any n nd urls s : ok_script P S n nd urls -> dget Nat.eqb (l_done s) n = None ->
  exists t s', kid (RNode n) s = LOk s' /\ l_buf s' = l_buf s ++ t /\ (forall m, m <> n -> dget Nat.eqb (l_done s') m = dget Nat.eqb (l_done s) m) /\
  exists pre t', t = pre ++ t' ++ l_fes st /\ sep_text pre /\
    ((urls = [] /\ exists sels, item_text t' (SScript (def_opt (node_def S n)) sels)) \/ forall k, bad_start (t' ++ k)).
Proof.
  intros OK Nd. cbv beta. rewrite (kid_script n nd urls s OK). destruct urls as [|u urls].
  - destruct (script_write P fstr st S FS ST _ rec_null n nd OK s Nd) as (pre & t & sels & E & Hp & It & _). rewrite E. cbn [lbind].
    exists (pre ++ t ++ l_fes st). eexists. split; [reflexivity|]. split; [cbn [emit mark l_buf]; rewrite <- !app_assoc; reflexivity|]. split.
    + intros m Hm. cbn [emit mark l_done]. rewrite !(dget_dset_other Nat.eqb Nat.eqb_eq) by congruence. reflexivity.
    + exists pre, t. split; [reflexivity|]. split; [exact Hp|]. left. split; [reflexivity|]. exists sels. exact It.
  - destruct (script_write_bad P fstr st S FS ST _ rec_null n nd (u :: urls) OK ltac:(discriminate) s Nd) as (pre & t & s' & E & B & Hp & Bd & Dn). rewrite E. cbn [lbind].
    exists (pre ++ t ++ l_fes st). eexists. split; [reflexivity|]. split; [cbn [emit l_buf]; rewrite B, <- !app_assoc; reflexivity|]. split; [exact Dn|].
    exists pre, t. split; [reflexivity|]. split; [exact Hp|]. right. exact Bd.
Qed.
Lemma scripts_any ns : Forall (fun n => exists nd urls, ok_script P S n nd urls) ns -> NoDup ns ->
  forall s, (forall n, In n ns -> dget Nat.eqb (l_done s) n = None) -> exists t s', each kid (map RNode ns) s = LOk s' /\ l_buf s' = l_buf s ++ t.
Proof.
  induction ns as [|n ns IH]; intros F ND s Hs; [exists [], s; split; [reflexivity|symmetry; apply app_nil_r]|].
  inversion F as [|? ? (nd & urls & OK) F']; subst. inversion ND as [|? ? Nn ND']; subst.
  destruct (script_any n nd urls s OK (Hs n (or_introl eq_refl))) as (t & s1 & E & B & D & _).
  destruct (IH F' ND' s1) as (t2 & s2 & E2 & B2).
  { intros m Hm. rewrite D by (intros ->; contradiction). apply Hs. right. exact Hm. }
  exists (t ++ t2), s2. cbn [map each]. cbv beta in E. rewrite E. cbn [lbind]. split; [exact E2|]. rewrite B2, B, app_assoc. reflexivity.
Qed.
Lemma scripts_bad ns : Forall (fun n => exists nd urls, ok_script P S n nd urls) ns -> NoDup ns ->
  (exists n nd u urls, In n ns /\ ok_script P S n nd (u :: urls)) ->
  forall s, (forall n, In n ns -> dget Nat.eqb (l_done s) n = None) -> exists ts is pre t s', each kid (map RNode ns) s = LOk s' /\
    l_buf s' = l_buf s ++ List.concat (map (fun t => t ++ l_fes st) ts) ++ pre ++ t /\ sep_text pre /\ bad_start t /\
    Forall2 (fun t i => exists pre t', t = pre ++ t' /\ sep_text pre /\ item_text t' i) ts is /\
    Forall (fun i => match i with SNode _ _ _ | SScript _ _ | SUse _ => True | _ => False end) is.
Proof.
  induction ns as [|n ns IH]; intros F ND Ex s Hs; [destruct Ex as (n & _ & _ & _ & [] & _)|].
  inversion F as [|? ? (nd & urls & OK) F']; subst. inversion ND as [|? ? Nn ND']; subst.
  destruct (script_any n nd urls s OK (Hs n (or_introl eq_refl))) as (t & s1 & E & B & D & pre & t' & -> & Hp & C). cbv beta in E.
  assert (Hs1 : forall m, In m ns -> dget Nat.eqb (l_done s1) m = None).
  { intros m Hm. rewrite D by (intros ->; contradiction). apply Hs. right. exact Hm. }
  cbn [map each]. rewrite E. cbn [lbind]. destruct C as [(-> & sels & It)|C].
  - destruct (IH F' ND') with (s := s1) as (ts & is & pr & tb & s2 & E2 & B2 & Hpr & Bt & Fi & Ni); [|exact Hs1|].
    { destruct Ex as (m & md & u & us & [<-|Hm] & OKm); [|exists m, md, u, us; auto]. exfalso.
      assert (md = nd) as -> by (pose proof (sc_node _ _ _ _ _ OK); pose proof (sc_node _ _ _ _ _ OKm); congruence).
      pose proof (sc_url _ _ _ _ _ OK) as Q1. rewrite (sc_url _ _ _ _ _ OKm) in Q1. discriminate. }
    exists ((pre ++ t') :: ts), (SScript (def_opt (node_def S n)) sels :: is), pr, tb, s2. split; [exact E2|]. split; [|split; [exact Hpr|split; [exact Bt|split]]].
    + rewrite B2, B. cbn [map List.concat]. rewrite <- !app_assoc. reflexivity.
    + constructor; [|exact Fi]. exists pre, t'. auto.
    + constructor; [exact Logic.I|exact Ni].
  - destruct (scripts_any ns F' ND' s1 Hs1) as (t2 & s2 & E2 & B2). exists [], [], pre, (t' ++ l_fes st ++ t2), s2. split; [exact E2|].
    split; [rewrite B2, B; cbn [map List.concat app]; rewrite <- !app_assoc; reflexivity|]. split; [exact Hp|]. split; [apply C|]. split; constructor.
Qed.
End Sources.
(** C88.  A Script with sources -- with a url -- is written as text that is not VRML: the
    scene is saved without complaint, and the file cannot be read. *)
Theorem C88_sources_refuted : forall P fstr protos st S ns, faithful fstr -> ok_settings st ->
  s_kids S = map RNode ns -> NoDup ns -> s_routes S = [] ->
  Forall (fun n => n < s_next S /\ exists nd urls, ok_script P S n nd urls) ns ->
  (exists n nd u urls, In n ns /\ ok_script P S n nd (u :: urls)) ->
  exists text, linearise P fstr protos st S = Some text /\ parses (rule G_vrmlFile) text PErr /\
    forall base r, ~ loads P base text r.
Proof.
  intros P fstr protos st S ns FS ST Hk ND Hr F Ex.
  assert (Dp : exists k, depth S = Datatypes.S (Datatypes.S k)).
  { destruct Ex as (n & _ & _ & _ & Hn & _). rewrite Forall_forall in F. destruct (F n Hn) as (L & _). unfold depth. destruct (s_next S) as [|k]; [lia|]. exists k. reflexivity. }
  destruct Dp as (k & Dp).
  assert (F' : Forall (fun n => exists nd urls, ok_script P S n nd urls) ns) by (eapply Forall_impl; [|exact F]; intros n H; apply H).
  destruct (scripts_bad P fstr protos st S FS ST k ns F' ND Ex (mklst [] [] 0) (fun _ _ => eq_refl)) as (ts & is & pre & t & s' & E & B & Hp & Bt & Fi & Ni).
  destruct (fes_eq st ST) as (fw & Fe & Hf). rewrite Fe in B. cbn [l_buf app] in B.
  exists (header ++ [10%N] ++ l_buf s').
  assert (Er : parses (rule G_vrmlFile) (header ++ [10%N] ++ l_buf s') PErr).
  { rewrite B. apply (bad_file_sep ts is fw pre t Hf Fi Ni Hp Bt). vm_compute. intuition discriminate. }
  split; [|split; [exact Er|]].
  - unfold linearise, lin_scene, Linearise_Model.named. rewrite Hr. cbn [map preroutes].
    assert (with_defs S (s_defs S) = S) as -> by (unfold with_defs; destruct S; reflexivity).
    unfold scene_body. rewrite Dp, Hk, E, Hr. cbn [lbind map List.concat finish]. rewrite emit_nil. reflexivity.
  - intros base r (c & tr & A & _). pose proof (parses_det _ _ _ _ Er A). discriminate.
Qed.
Print Assumptions C88_sources_refuted.
Example sourced_refuted : exists text, linearise P_ex exact_str std_protos set_defaults
    (mkscene 2 (fun n => match n with 0 => Some script_a | 1 => Some (mksn (lit "Script") [(lit "url", VPv (PSeq KList [PStr (lit "x.js")]))] []) | _ => None end)
      {| defs := [(lit "A", 0)]; ndef := fun n => match n with 0 => lit "A" | _ => [] end |} [RNode 0; RNode 1] [] []) = Some text /\
  parses (rule G_vrmlFile) text PErr.
Proof.
  match goal with |- exists _, linearise _ _ _ _ ?s = _ /\ _ => set (S := s) end.
  assert (OK : ok_script P_ex S 1 (mksn (lit "Script") [(lit "url", VPv (PSeq KList [PStr (lit "x.js")]))] []) [lit "x.js"]).
  { split; try reflexivity; [left; reflexivity|constructor|constructor|]. intros nm [<-|[<-|[]]]; exists false; reflexivity. }
  destruct (C88_sources_refuted P_ex exact_str std_protos set_defaults S [0; 1] exact_faithful st_default eq_refl) as (text & A & B & _); eauto.
  - repeat constructor; cbn; intuition discriminate.
  - pose proof two_scripts_ok as Q. inversion Q as [|? ? (L & nd & [N1 N2 N3 N4 N5 N6 N7]) _]; subst. constructor; [|constructor; [|constructor]].
    + split; [exact L|]. exists nd, []. split; auto.
    + split; [cbn; lia|eauto].
  - exists 1. eexists _, (lit "x.js"), []. split; [right; left; reflexivity|exact OK].
Qed.
