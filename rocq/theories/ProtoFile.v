(** PROTOs written one after the other, and read again. *)
From Coq Require Import Reals Permutation SpecFloat.
From Flocq Require Import Core.Core IEEE754.BinarySingleNaN.
From Verif Require Import Base Text PyDict PyDict_Proofs Float Coerce_Model Coerce_Spec Grammar_Model Lex_Spec Lex_Proofs
  Doc_Spec Doc_Proofs SceneGraph_Model SceneGraph_Proofs VrmlStr_Model VrmlStr_Spec VrmlStr_Proofs VrmlStr_Values Scene_Model Linearise_Model
  Build_Model Proto_Model Scene_Spec Proto_Spec Linearise_Proofs Drop_Proofs Layout_Proofs Written Rebuilt Scene_Proofs Whole Reading_Spec Reading_Proofs
  ProtoText ProtoTable ProtoBody.
Local Open Scope nat_scope.
Local Open Scope list_scope.
Notation RNode := Scene_Model.RNode.

Definition agree (e pre : list (text * pdef)) : Prop := forall g p, dget text_eqb e g = Some p -> dget text_eqb pre g = Some p.
Lemma dget_map {A B} (f : A -> B) l g : dget text_eqb (map (fun p => (fst p, f (snd p))) l) g = option_map f (dget text_eqb l g).
Proof. induction l as [|[k v] l IH]; [reflexivity|]. cbn [map dget fst snd]. destruct (text_eqb k g); [reflexivity|exact IH]. Qed.
Lemma dget_app {A} (a b : list (text * A)) g :
  dget text_eqb (a ++ b) g = match dget text_eqb a g with Some v => Some v | None => dget text_eqb b g end.
Proof. induction a as [|[k v] l IH]; [reflexivity|]. cbn [app dget]. destruct (text_eqb k g); [reflexivity|exact IH]. Qed.
Lemma types_get base e g : proto (types base e) g = match dget text_eqb e g with Some p => Some (pfields p) | None => dget text_eqb base g end.
Proof. unfold proto, types. rewrite dget_app, dget_map. destruct (dget text_eqb e g); reflexivity. Qed.
Lemma dget_in {A} (l : list (text * A)) g v : dget text_eqb l g = Some v -> In (g, v) l.
Proof. apply (dget_In text_eqb text_eqb_spec). Qed.
Lemma dget_no {A} (l : list (text * A)) g : dget text_eqb l g = None <-> ~ In g (map fst l).
Proof. apply (dget_None_notin text_eqb text_eqb_spec). Qed.
Lemma safe_is_name nm : safe_name nm = true -> is_name nm = true.
Proof. unfold safe_name. rewrite !andb_true_iff. tauto. Qed.

Section Flat.
Variable P : prims.
Variable base : list (text * list fdecl).
Variable fstr : tcode -> fl -> text.
Variable st : settings.
Variable all : list (text * pdef).
Hypothesis WB : wf_protos P base.
Hypothesis ST : ok_settings st.
Hypothesis FS : faithful fstr.

(** a PROTO and what was read back *)
Record like (e : list (text * pdef)) (p p' : pdef) : Prop := {
  lk_inner : p_inner p' = [];
  lk_face : same_interface P p p';
  lk_url : exists k, dget text_eqb (p_mem p') url = Some (MField true k) /\ alike_kind P (f_kind url_field) k;
  lk_fields : fields_ok P (pfields p) (pfields p');
  lk_body : exists N dn rho, built P (types base e) (p_body p) (is_of (p_body p)) N dn (p_body p') rho
}.
Inductive back : list (text * pdef) -> list (text * pdef) -> Prop :=
| back_nil : back [] []
| back_snoc pre tab nm p p' e : back pre tab -> ok_proto P base all nm p e -> agree e pre -> ~ In nm (map fst pre) ->
    like e p p' -> back (pre ++ [(nm, p)]) (tab ++ [(nm, p')]).

Lemma back_names pre tab : back pre tab -> map fst tab = map fst pre.
Proof. induction 1 as [|pre tab nm p p' e _ IH]; [reflexivity|]. rewrite !map_app, IH. reflexivity. Qed.
Lemma agree_snoc e pre x : agree e pre -> agree e (pre ++ x).
Proof. intros A g p H. rewrite dget_app, (A g p H). reflexivity. Qed.
Lemma back_get pre tab g p : back pre tab -> dget text_eqb pre g = Some p ->
  exists p' e, dget text_eqb tab g = Some p' /\ ok_proto P base all g p e /\ agree e pre /\ like e p p'.
Proof.
  intros B. revert g p. induction B as [|pre tab nm q q' e B IH Ok A Nn L]; intros g p H; [discriminate|].
  rewrite dget_app in H. destruct (dget text_eqb pre g) as [p0|] eqn:E.
  - injection H as <-. destruct (IH g p0 E) as (p' & e' & H1 & H2 & H3 & H4). exists p', e'. rewrite dget_app, H1.
    split; [reflexivity|]. split; [exact H2|]. split; [apply agree_snoc; exact H3|exact H4].
  - cbn [dget] in H. destruct (text_eqb nm g) eqn:G; [|discriminate]. apply text_eqb_spec in G. subst g. injection H as <-.
    exists q', e. rewrite dget_app. assert (dget text_eqb tab nm = None) as ->.
    { apply dget_no. rewrite (back_names _ _ B). exact Nn. }
    cbn [dget]. rewrite text_eqb_refl. split; [reflexivity|]. split; [exact Ok|]. split; [apply agree_snoc; exact A|exact L].
Qed.
Lemma back_none pre tab g : back pre tab -> dget text_eqb pre g = None -> dget text_eqb tab g = None.
Proof. intros B H. apply dget_no. rewrite (back_names _ _ B). apply dget_no. exact H. Qed.
Lemma back_in pre tab nm p' : back pre tab -> In (nm, p') tab -> exists p e, In (nm, p) pre /\ like e p p'.
Proof.
  intros B H. induction B as [|pre tab n q q' e B IH Ok A Nn L]; [destruct H|]. apply in_app_or in H as [H|[H|[]]].
  - destruct (IH H) as (p & e' & H1 & H2). exists p, e'. split; [apply in_or_app; left; exact H1|exact H2].
  - injection H as <- <-. exists q, e. split; [apply in_or_app; right; left; reflexivity|exact L].
Qed.
Lemma back_base pre tab g p : back pre tab -> dget text_eqb pre g = Some p -> dget text_eqb base g = None.
Proof. intros B H. destruct (back_get _ _ _ _ B H) as (p' & e & _ & O & _). apply (op_name _ _ _ _ _ _ O). Qed.

(** types seen by the writer are known to the reader *)
Lemma type_back pre tab e g fs : back pre tab -> agree e pre -> proto (types base e) g = Some fs ->
  exists fs', proto (types base tab) g = Some fs' /\ fields_ok P fs fs' .
Proof.
  intros B A H. rewrite types_get in H. destruct (dget text_eqb e g) as [p|] eqn:E.
  - injection H as <-. destruct (back_get _ _ _ _ B (A g p E)) as (p' & e' & H1 & _ & _ & L). exists (pfields p').
    rewrite types_get, H1. split; [reflexivity|apply L].
  - exists fs. rewrite types_get. assert (dget text_eqb tab g = None) as ->.
    { apply (back_none _ _ _ B). destruct (dget text_eqb pre g) as [p|] eqn:Q; [|reflexivity]. rewrite (back_base _ _ _ _ B Q) in H. discriminate. }
    split; [exact H|]. intros f Hf. exists f. split; [apply (Rebuilt.find_field_in fs f); [apply (WB _ _ H)|exact Hf]|apply alike_refl].
Qed.
Lemma ok_mem_url all' nm p e : ok_proto P base all' nm p e -> NoDup (map fst (p_mem p)) /\ Forall (fun x : text * member => fst x <> url) (p_mem p).
Proof.
  intros O. destruct (op_mem _ _ _ _ _ _ O) as (N & F). split; [exact N|]. eapply Forall_impl; [|exact F]. intros x H. apply H.
Qed.
Lemma url_coerce : coerce P MFString (PSeq KList []) = Ok (PSeq KList []).
Proof. reflexivity. Qed.
Lemma url_ok : ok_decl P url_field.
Proof.
  split; [reflexivity|]. cbn [url_field f_kind]. split; [reflexivity|]. split; [exists []; reflexivity|].
  exists (PSeq KList []). split; [apply url_coerce|]. repeat constructor.
Qed.
Definition fine (pre : list (text * pdef)) : Prop := forall g p, dget text_eqb pre g = Some p -> exists e, ok_proto P base all g p e.
Lemma types_wf pre e : fine pre -> agree e pre -> wf_protos P (types base e).
Proof.
  intros B A g fs H. rewrite types_get in H. destruct (dget text_eqb e g) as [p|] eqn:E; [|exact (WB g fs H)].
  injection H as <-. destruct (B _ _ (A g p E)) as (e' & O).
  destruct (op_name _ _ _ _ _ _ O) as (N1 & N2 & _). destruct (ok_mem_url _ _ _ _ O) as (ND & NU).
  split; [exact N1|]. split; [exact N2|]. split; [apply pfields_names; [exact (op_url _ _ _ _ _ _ O)|assumption..]|].
  rewrite (own_fields p (op_url _ _ _ _ _ _ O) NU). apply Forall_app. split; [|constructor; [exact url_ok|constructor]].
  destruct (op_mem _ _ _ _ _ _ O) as (_ & F). rewrite Forall_forall in *. intros f Hf. apply in_flat_map in Hf as ([n m] & Hm & Hf).
  specialize (F _ Hm). destruct m as [ex k|]; cbn in Hf; [|destruct Hf]. destruct Hf as [<-|[]]. apply F.
Qed.

(** what a mapping read back comes from *)
Lemma imap_back e p p' m y pn : like e p p' -> imap (p_body p') m y pn ->
  exists a nd nd' fs, s_node (p_body p) a = Some nd /\ s_node (p_body p') m = Some nd' /\ n_gi nd' = n_gi nd /\
    proto (types base e) (n_gi nd) = Some fs /\ In y (map f_name fs) /\ imap (p_body p) a y pn /\
    (forall r', In r' (s_routes (p_body p')) -> fst (fst r') = m -> exists r, In r (s_routes (p_body p)) /\ fst (fst r) = a /\ snd (fst r') = snd (fst r)) /\
    (forall y2 pn2, imap (p_body p') m y2 pn2 -> imap (p_body p) a y2 pn2).
Proof.
  intros L H. destruct (lk_body _ _ _ L) as (N & dn & rho & [EN KP FSS BI OK SL SR]).
  destruct (bi_isin _ _ _ BI m y pn H) as (a & Ha). destruct (bi_node _ _ _ BI a m Ha) as (nd & nd' & Na & Nb & Gi & _).
  assert (NaS : s_node (p_body p) a = Some nd) by (subst N; exact Na). destruct (FSS a m nd Ha NaS) as (fs & Pr).
  rewrite Forall_forall in OK. destruct (OK _ Ha nd fs Na Pr) as (_ & O2). cbn [fst snd] in O2.
  exists a, nd, nd', fs. split; [exact NaS|]. split; [exact Nb|]. split; [exact Gi|]. split; [exact Pr|].
  split; [apply (O2 y pn); exact H|]. split; [apply is_of_some; apply (O2 y pn); exact H|]. split.
  - intros r' Hr E. destruct (rho_fun _ _ _ BI) as (_ & F2). clear - SR Hr E F2 Ha.
    induction SR as [|r r1 l l' S1 SR IH]; [destruct Hr|]. destruct Hr as [->|Hr].
    + exists r. destruct S1 as (Q1 & Q2 & _). rewrite E in Q1. split; [left; reflexivity|]. split; [exact (F2 _ _ _ Q1 Ha)|symmetry; exact Q2].
    + destruct (IH Hr) as (r0 & H1 & H2). exists r0. split; [right; exact H1|exact H2].
  - intros y2 pn2 H2. apply is_of_some. apply (O2 y2 pn2). exact H2.
Qed.
Lemma class_alike k k' : alike_kind P k k' -> class_name k = class_name k'.
Proof. destruct k, k'; cbn; try contradiction; try reflexivity. intros (-> & _). reflexivity. Qed.

(** instances can be made *)
Lemma inst_back pre tab c g : back pre tab -> c_env c = tab -> inst_ok base c g = Ok tt.
Proof.
  intros B Ec. unfold inst_ok. rewrite Ec. destruct (dget text_eqb tab g) as [p'|] eqn:E; [|reflexivity].
  destruct (dget text_eqb pre g) as [p|] eqn:Ep; [|rewrite (back_none _ _ _ B Ep) in E; discriminate].
  destruct (back_get _ _ _ _ B Ep) as (q & e & Q & O & A & L). rewrite E in Q. injection Q as <-.
  assert (G : forall l, incl l (s_is (p_body p')) -> maps_ok base c p' l = Ok tt); [|apply G; intros x H; exact H].
  induction l as [|[pn xs] l IH]; intros I; [reflexivity|]. cbn [maps_ok].
  assert (Hin : In (pn, xs) (s_is (p_body p'))) by (apply I; left; reflexivity).
  assert (Rest : maps_ok base c p' l = Ok tt) by (apply IH; intros x H; apply I; right; exact H).
  (* every entry is of a declared member, and of its type *)
  assert (M : forall m y, In (m, y) xs -> exists mm mm', dget text_eqb (p_mem p) pn = Some mm /\ dget text_eqb (p_mem p') pn = Some mm' /\
     match mm, mm' with
     | MField _ k, MField _ k' => class_name k' = class_name k /\
         match body_field base c p' (m, y) with Some f => class_name (f_kind f) = class_name k' | None => True end
     | MEvent _ _, MEvent _ _ => True
     | _, _ => False
     end).
  { intros m y Hy. assert (H : imap (p_body p') m y pn) by (exists xs; auto).
    destruct (imap_back _ _ _ _ _ _ L H) as (a & nd & nd' & fs & Na & Nb & Gi & Pr & Hy' & Hm & _).
    apply in_map_iff in Hy' as (f & Ef & Hf). destruct (op_maps _ _ _ _ _ _ O) as (_ & OM). destruct (OM a y pn Hm) as (_ & _ & OM').
    destruct (OM' nd fs f Na Pr Hf Ef) as (mm & Dm & Cm). pose proof (lk_face _ _ _ L pn) as Sf. rewrite Dm in Sf.
    assert (pn <> url).
    { destruct (ok_mem_url _ _ _ _ O) as (_ & F). rewrite Forall_forall in F. apply dget_in in Dm. exact (F _ Dm). }
    specialize (Sf H0). destruct (dget text_eqb (p_mem p') pn) as [mm'|] eqn:Dm'; [|destruct mm; contradiction].
    exists mm, mm'. split; [exact Dm|]. split; [reflexivity|]. destruct mm as [ex k|], mm' as [ex' k'|]; try contradiction; [|exact Logic.I].
    destruct Sf as (_ & Al). apply class_alike in Al. split; [symmetry; exact Al|].
    assert (Sc : text_eqb (n_gi nd) script_gi = false).
    { assert (Fi : fine pre) by (intros g0 p0 E0; destruct (back_get _ _ _ _ B E0) as (q0 & e0 & _ & O0 & _); exists e0; exact O0).
      destruct (types_wf pre e Fi A _ _ Pr) as (Sn & _). destruct (text_eqb (n_gi nd) script_gi) eqn:Q; [|reflexivity].
      apply text_eqb_spec in Q. rewrite Q in Sn. vm_compute in Sn. discriminate Sn. }
    unfold body_field. cbn [fst snd]. rewrite Nb. unfold node_field. rewrite (lk_inner _ _ _ L), Ec, Gi, Sc. cbn [app].
    destruct (type_back _ _ _ _ _ B A Pr) as (fs' & Pr' & Fo). rewrite Pr'. destruct (Fo f Hf) as (f' & Ff & Al2). rewrite <- Ef, Ff.
    apply class_alike in Al2. congruence. }
  destruct xs as [|[m y] xs']. { destruct (lk_body _ _ _ L) as (N & dn & rho & [_ _ _ BI _ _ _]). destruct (bi_isne _ _ _ BI _ _ Hin eq_refl). }
  destruct (M m y (or_introl eq_refl)) as (mm & mm' & D1 & D2 & X). unfold mem_kind. rewrite D2.
  destruct mm' as [ex' k'|]; [|exact Rest]. assert (forallb (fun x : nat * text => match body_field base c p' x with
      | Some f => text_eqb (class_name (f_kind f)) (class_name k') | None => true end) ((m, y) :: xs') = true) as ->; [|exact Rest].
  apply forallb_forall. intros [m2 y2] H2. destruct (M m2 y2 H2) as (m3 & m3' & D3 & D4 & X3). rewrite D2 in D4. injection D4 as <-.
  destruct m3 as [? k3|]; [|contradiction]. destruct X3 as (_ & X3). destruct (body_field base c p' (m2, y2)); [|reflexivity]. rewrite X3. apply text_eqb_refl.
Qed.

(** setting a field changes one node *)
Lemma sets_back pre tab c e S rest n nd fs f v : back pre tab -> agree e pre -> c_env c = tab -> c_outer c = [] -> incl pre rest ->
  ok_instances P base e rest S ->
  s_node S n = Some nd -> proto (types base e) (n_gi nd) = Some fs -> In f fs -> fget P S n f = Ok v ->
  (forall pn, ~ imap S n (f_name f) pn) -> dropped f v = Ok false -> sets_one base c S n (n_gi nd) f.
Proof.
  intros B A Ec Eo Inc OI Nd Pr Hf G Ni Dr. unfold sets_one. rewrite Ec. destruct (dget text_eqb tab (n_gi nd)) as [p'|] eqn:E; [|exact Logic.I].
  destruct (dget text_eqb pre (n_gi nd)) as [p|] eqn:Ep; [|rewrite (back_none _ _ _ B Ep) in E; discriminate].
  destruct (back_get _ _ _ _ B Ep) as (q & e' & Q & O & A' & L). rewrite E in Q. injection Q as <-.
  assert (Ee : dget text_eqb e (n_gi nd) = Some p).
  { rewrite types_get in Pr. destruct (dget text_eqb e (n_gi nd)) as [p2|] eqn:Q; [apply A in Q; congruence|].
    rewrite (back_base _ _ _ _ B Ep) in Pr. discriminate. }
  assert (fs = pfields p) as -> by (rewrite types_get, Ee in Pr; congruence).
  destruct (dget text_eqb (s_is (p_body p')) (f_name f)) as [xs|] eqn:Ex; [|destruct (f_kind f); exact Logic.I].
  apply dget_in in Ex.
  enough (Z : (forall o, f_kind f <> KNodes o) -> among (n_gi nd) (others c) = false /\ plain_map base p' (f_name f) xs = true /\
    (forall m nd0, s_node S m = Some nd0 -> n_gi nd0 = n_gi nd -> m = n)).
  { destruct (f_kind f); [apply Z; discriminate|apply Z; discriminate|exact Logic.I]. }
  intros Nk.
  assert (Ld : leads p (f_name f)).
  { destruct xs as [|[m y] xs']. { destruct (lk_body _ _ _ L) as (N & dn & rho & [_ _ _ BI _ _ _]). destruct (bi_isne _ _ _ BI _ _ Ex eq_refl). }
    destruct (imap_back _ _ _ m y (f_name f) L) as (a & nd1 & nd' & fs & _ & _ & _ & _ & _ & Hm & _); [exists ((m, y) :: xs'); split; [exact Ex|left; reflexivity]|].
    exists a, y. exact Hm. }
  destruct (OI n nd p f v Nd Ee Hf G Dr Ni Nk Ld) as ((A1 & A2) & PL). split; [|split; [|exact A2]].
  - destruct (among (n_gi nd) (others c)) eqn:X; [|reflexivity]. exfalso. unfold among, others in X. rewrite Eo, Ec in X. cbn [app] in X.
    apply existsb_exists in X as (g & Hg & X). apply text_eqb_spec in X. subst g. apply in_flat_map in Hg as ([n2 p2'] & Hp & Hg). cbn [snd] in Hg.
    destruct (back_in _ _ _ _ B Hp) as (p2 & e2 & Hp2 & L2). destruct p2' as [mm inn b2|]; [|destruct Hg]. pose proof (lk_inner _ _ _ L2) as Ei. cbn [p_inner] in Ei. subst inn.
    cbn [p_uses flat_map] in Hg. rewrite app_nil_r in Hg. unfold uses in Hg. apply in_flat_map in Hg as (m & _ & Hg).
    destruct (s_node b2 m) as [nd2|] eqn:N2; [|destruct Hg]. destruct Hg as [Hg|[]].
    destruct (lk_body _ _ _ L2) as (N & dn & rho & [EN _ _ BI _ _ _]). cbn [p_body] in BI. destruct (bi_sur _ _ _ BI m nd2 N2) as (a & Ha).
    destruct (bi_node _ _ _ BI a m Ha) as (nda & ndb & Na & Nb & Gi & _). rewrite N2 in Nb. injection Nb as <-.
    assert (NaS : s_node (p_body p2) a = Some nda) by (subst N; exact Na).
    apply (A1 (n2, p2) a nda (Inc _ Hp2) NaS). congruence.
  - unfold plain_map. apply forallb_forall. intros [m y] Hy. cbn [fst snd].
    assert (Him : imap (p_body p') m y (f_name f)) by (exists xs; auto).
    destruct (imap_back _ _ _ _ _ _ L Him) as (a & nd1 & nd' & fs & Na & Nb & Gi & Pr1 & _ & Hm & Rt & Im).
    destruct (PL a y Hm) as ((ndb & fsb & Q1 & Q2) & PR). rewrite Na in Q1. injection Q1 as <-. rewrite Nb, Gi, Q2. cbn [andb].
    apply andb_true_iff. split.
    + apply forallb_forall. intros [q zs] Hq. cbn [fst snd]. destruct (text_eqb q (f_name f)) eqn:Eq; [reflexivity|]. cbn [orb].
      apply forallb_forall. intros [m3 y3] H3. cbn [fst snd]. destruct ((m =? m3) && text_eqb y y3) eqn:Z; [|reflexivity]. exfalso.
      apply andb_true_iff in Z as [Z1 Z2]. apply Nat.eqb_eq in Z1. apply text_eqb_spec in Z2. subst m3 y3.
      assert (imap (p_body p) a y q) by (apply Im; exists zs; auto).
      destruct (op_maps _ _ _ _ _ _ O) as (Fn & _). rewrite (Fn _ _ _ _ H Hm), text_eqb_refl in Eq. discriminate.
    + apply forallb_forall. intros r' Hr. destruct (fst (fst r') =? m) eqn:Z; [|reflexivity]. apply Nat.eqb_eq in Z. cbn [andb].
      destruct (Rt r' Hr Z) as (r & Hr1 & Hr2 & Hr3). specialize (PR r Hr1 Hr2).
      destruct (among _ _) eqn:Y; [|reflexivity]. exfalso. apply PR. apply existsb_exists in Y as (g & Hg & Y). apply text_eqb_spec in Y. subst g. rewrite <- Hr3. exact Hg.
Qed.

(** *** one PROTO *)
Lemma nodup_left {A} (a b : list A) : NoDup (a ++ b) -> NoDup a.
Proof.
  induction a as [|x a IH]; cbn; [constructor|]. intros H. inversion H as [|? ? N H']; subst. constructor; [|exact (IH H')].
  intros I. apply N. apply in_or_app. left. exact I.
Qed.
Lemma mapped_names nm p e : ok_proto P base all nm p e -> forall n f v pn, fget P (p_body p) n f = Ok v ->
  is_of (p_body p) n (f_name f) = Some pn -> is_name pn = true /\ ref_ids v = [].
Proof.
  intros O n f v pn G H. apply is_of_some in H. destruct (op_maps _ _ _ _ _ _ O) as (_ & M). destruct (M _ _ _ H) as (M1 & M2 & _).
  split; [exact M1|]. unfold fget in G. destruct (s_node (p_body p) n) as [nd|] eqn:Nd; [|discriminate].
  destruct (dget text_eqb (n_vals nd) (f_name f)) as [w|] eqn:D; [injection G as <-; exact (M2 _ _ eq_refl D)|].
  unfold default_of in G. destruct (f_kind f); [destruct (coerce P t d); [|discriminate]| |]; injection G as <-; reflexivity.
Qed.
Lemma events_ok nm p e : ok_proto P base all nm p e ->
  Forall edecl_ok (sort_by (p_events p)) /\ Forall (fun x => free_name (fst x) /\ fst x <> lit "externalURL") (sort_by (p_events p)).
Proof.
  intros O. destruct (op_mem _ _ _ _ _ _ O) as (_ & F). rewrite Forall_forall in F.
  split; apply Forall_forall; intros [n [o ty]] H; (eapply Permutation_in in H; [|apply sort_by_perm]); apply in_events in H;
    destruct (F _ H) as (H1 & H2 & H3 & H4); cbn [fst snd] in *.
  - exact H4.
  - split; [split; assumption|exact H3].
Qed.
Lemma declared_ok nm p e : ok_proto P base all nm p e ->
  Forall (fdecl_ok P) (sort_by (p_fields p)) /\ Forall (fun x => free_name (fst x)) (sort_by (p_fields p)).
Proof.
  intros O. destruct (op_mem _ _ _ _ _ _ O) as (_ & F). rewrite Forall_forall in F. destruct (ok_mem_url _ _ _ _ O) as (_ & NU).
  destruct (owns_not p NU) as (Ow & _).
  split; apply Forall_forall; intros [n [x k]] H; (eapply Permutation_in in H; [|apply sort_by_perm]); apply in_fields in H; auto;
    (destruct H as [H|(-> & -> & ->)]; [destruct (F _ H) as (H1 & H2 & H3 & (H4 & H5) & H6); cbn [fst snd f_name f_kind] in *|]).
  - split; [apply safe_is_name; exact H4|]. cbn [fst snd]. unfold ok_kind. destruct k as [t d| |]; auto. destruct H5 as (R1 & R2 & v & R3 & R4).
    split; [exact R1|]. exists v. split; [exact R3|]. split; [exact (H6 v R3)|exact R4].
  - split; [reflexivity|]. cbn. split; [reflexivity|]. exists (PSeq KList []). split; [reflexivity|]. split; [|repeat constructor].
    exists []. reflexivity.
  - split; assumption.
  - split; reflexivity.
Qed.
Lemma tail_eq nm len : safe_name nm = true -> exists w, proto_tail st nm len = 10%N :: lit "}" ++ w /\ sep_text w.
Proof.
  intros H. unfold proto_tail.
  assert (Q : exists w, 10%N :: lit "}" ++ [10%N] = 10%N :: lit "}" ++ w /\ sep_text w) by (exists [10%N]; split; [reflexivity|apply sep_nl_; constructor]).
  destruct (l_end st) as [n|]; [|exact Q]. destruct (n * 60 <? len); [|exact Q].
  exists (35%N :: (lit "End PROTO " ++ nm) ++ [10%N]). split.
  - change (lit "}#End PROTO ") with (lit "}" ++ 35%N :: lit "End PROTO "). rewrite <- !app_assoc. reflexivity.
  - apply sep_comment; [|constructor]. intros I. apply in_app_iff in I as [I|I]; [cbn in I; intuition discriminate|].
    exact (is_name_nl nm (safe_is_name nm H) I).
Qed.
(** what has been written and what is read from it *)
Definition show_protos (l : list (root * text)) : text := List.concat (map (fun x => show_root (fst x) ++ snd x) l).
Definition whole_proto (x : root * text) : Prop := (forall k, ok_root (fst x) k) /\ sep_text (snd x).
Definition Inv (pre : list (text * pdef)) (buf : text) : Prop :=
  fine pre /\ exists l, buf = header ++ 10%N :: show_protos l /\ Forall whole_proto l /\ (pre <> [] -> l <> []) /\
    forall ch, map erase ch = map et_root (map (fun x => sk_root (fst x)) l) ->
    exists tab, build_scene P base ctx0 ch file0 = Ok (tab, scene0) /\ back pre tab.
Lemma proto_step pre buf nm p e : Inv pre buf -> ok_proto P base all nm p e -> agree e pre -> ~ In nm (map fst pre) -> incl pre all ->
  exists t, proto_text P fstr base st e nm p = Some t /\ Inv (pre ++ [(nm, p)]) (buf ++ t).
Proof.
  intros (Fi & l & Eb & Wh & Nl & Rd) O A Nn Inc. destruct (ok_mem_url _ _ _ _ O) as (ND & NU). destruct (op_name _ _ _ _ _ _ O) as (N1 & N2 & N3).
  destruct (decl_lead_eq st ST) as (ld & El & Hl). destruct (events_ok _ _ _ O) as (E1 & E2). destruct (declared_ok _ _ _ O) as (D1 & D2).
  destruct (events_text st ld El _ E1) as (dts1 & T1 & O1). destruct (fields_text P fstr st FS ST ld El _ D1) as (dts2 & sds2 & T2 & O2 & R2).
  destruct (decls_text (lit "]") ld [] (dts1 ++ dts2) (map event_sd (sort_by (p_events p)) ++ sds2) Hl sep_nil) as (w3 & ds & Ed & Hw3 & Okd & Skd).
  { apply Forall2_app; assumption. }
  set (h := lit "PROTO " ++ nm ++ lit " [" ++ List.concat (map (event_text st) (sort_by (p_events p))) ++
            List.concat (map (fun a : text => (10%N :: ld) ++ a) dts2) ++ 10%N :: lit "] {" ++ [10%N]).
  assert (Hh : proto_head P fstr st nm p = Some h) by (unfold proto_head; rewrite T2; reflexivity).
  pose proof (types_wf _ _ Fi A) as WP.
  destruct (body_written P fstr (types base e) st (p_body p) (is_of (p_body p)) h [10%N] [10%N] (lit "}") WP (op_body _ _ _ _ _ _ O) ST FS (mapped_names _ _ _ O))
    as (s & w & rl & N & dn & D' & is & L); [apply sep_nl_; constructor|reflexivity|].
  destruct (la_text _ _ _ _ _ _ _ _ _ _ _ _ _ _ _ _ _ L) as (t & Es & Bs & Et).
  destruct (tail_eq nm (tell s) N1) as (wt & Etl & Hwt).
  set (r := RProto [32%N] nm [32%N] (10%N :: w3) ds [32%N] w rl).
  assert (Pt : proto_text P fstr base st e nm p = Some (l_buf s ++ proto_tail st nm (tell s))).
  { unfold proto_text. destruct (owns_not p NU) as (-> & _). rewrite (op_url _ _ _ _ _ _ O), Hh, (la_named _ _ _ _ _ _ _ _ _ _ _ _ _ _ _ _ _ L), Es. reflexivity. }
  assert (Er : l_buf s ++ proto_tail st nm (tell s) = show_root r ++ wt).
  { rewrite Bs, Etl. unfold r. cbn [show_root]. rewrite <- (app_assoc h).
    set (Z := List.concat (map (fun a : text => (10%N :: ld) ++ a) (dts1 ++ dts2))).
    assert (Ed' : Z ++ [10%N] = (10%N :: w3) ++ show_decls ds) by exact Ed.
    replace (h ++ t ++ 10%N :: lit "}" ++ wt) with
      (lit "PROTO" ++ [32%N] ++ nm ++ [32%N] ++ lit "[" ++ ((Z ++ [10%N]) ++ lit "]" ++ [32%N] ++ lit "{" ++ ([10%N] ++ t ++ [10%N]) ++ lit "}" ++ wt)).
    - rewrite Ed', Et. rewrite <- !app_assoc. reflexivity.
    - unfold h, Z. rewrite T1, map_app, concat_app. repeat (rewrite <- !app_assoc || rewrite <- !app_comm_cons). reflexivity. }
  exists (l_buf s ++ proto_tail st nm (tell s)). split; [exact Pt|]. split.
  { intros g q H. rewrite dget_app in H. destruct (dget text_eqb pre g) as [q0|] eqn:Q; [injection H as <-; exact (Fi g q0 Q)|].
    cbn [dget] in H. destruct (text_eqb nm g) eqn:G; [|discriminate]. apply text_eqb_spec in G. subst g. injection H as <-. eauto. }
  exists (l ++ [(r, wt)]). split; [|split; [|split]].
  { rewrite Er, Eb. unfold show_protos. rewrite map_app, concat_app. cbn [map List.concat fst snd]. rewrite app_nil_r, <- !app_assoc. reflexivity. }
  { apply Forall_app. split; [exact Wh|]. constructor; [|constructor]. split; [|exact Hwt]. intros k. cbn [fst]. unfold r. cbn [ok_root].
    split; [apply safe_is_name; exact N1|]. split; [|split; [exact Okd|apply (la_ok _ _ _ _ _ _ _ _ _ _ _ _ _ _ _ _ _ L)]].
    pose proof sep1. assert (sep_text w) by (apply (la_w _ _ _ _ _ _ _ _ _ _ _ _ _ _ _ _ _ L); apply sep_nl_; constructor).
    repeat constructor; auto. }
  { intros _. destruct l; discriminate. }
  intros ch Ech. rewrite !map_app in Ech. cbn [map fst] in Ech. apply map_eq_app in Ech as (chA & chB & -> & Ech & Etr).
  apply erase_cons in Etr as (tr & [|] & -> & Etr & Z); [|discriminate]. clear Z.
  destruct (Rd chA Ech) as (tab & Bd & B).
  (* reading *)
  set (c0 := mkctx true tab []).
  assert (TY : forall n nd fs, s_node (p_body p) n = Some nd -> proto (types base e) (n_gi nd) = Some fs ->
     exists fs', proto (known base (mkctx (c_in c0) ([] ++ c_env c0) (c_outer c0))) (n_gi nd) = Some fs' /\
       inst_ok base (mkctx (c_in c0) ([] ++ c_env c0) (c_outer c0)) (n_gi nd) = Ok tt /\ fields_ok P fs fs').
  { intros n nd fs Nd Pr. destruct (type_back _ _ _ _ _ B A Pr) as (fs' & H1 & H2). exists fs'. split; [exact H1|]. split; [|exact H2].
    apply (inst_back _ _ _ _ B). reflexivity. }
  assert (SO : forall n nd fs f v, s_node (p_body p) n = Some nd -> proto (types base e) (n_gi nd) = Some fs -> In f fs ->
     fget P (p_body p) n f = Ok v -> is_of (p_body p) n (f_name f) = None -> dropped f v = Ok false ->
     sets_one base (mkctx (c_in c0) ([] ++ c_env c0) (c_outer c0)) (p_body p) n (n_gi nd) f).
  { intros n nd fs f v Nd Pr Hf G Im Dr. apply (sets_back pre tab _ e (p_body p) (filter (fun x => negb (text_eqb (fst x) nm)) all) n nd fs f v); auto; [|apply (op_inst _ _ _ _ _ _ O)|apply is_of_none; exact Im].
    intros x Hx. apply filter_In. split; [apply Inc; exact Hx|]. destruct (text_eqb (fst x) nm) eqn:Q; [|reflexivity].
    apply text_eqb_spec in Q. exfalso. apply Nn. rewrite <- Q. apply in_map. exact Hx. }
  assert (SC : forall chb, map erase chb = map et_root (sk_roots rl) ->
     exists S' rho, build_scene P base c0 chb ([], scene0) = Ok ([], S') /\ built P (types base e) (p_body p) (is_of (p_body p)) N dn S' rho).
  { intros chb Eq3. apply (body_built P base c0 [] fstr (types base e) st (p_body p) _ _ _ _ _ _ _ _ _ _ _ _ chb WP L TY SO); [reflexivity|exact Eq3]. }
  unfold et_root in Etr. apply erase_not_kept in Etr as (s0 & ch0 & -> & Ec0). apply erase_cons in Ec0 as (t1 & [|] & -> & Et1 & Q0); [|discriminate].
    unfold r in Et1. cbn [sk_root et_sroot] in Et1. rewrite Skd in Et1. apply erase_not_kept in Et1 as (s1 & ch1 & -> & Ec1).
    apply erase_cons in Ec1 as (tg & ch2 & -> & Etg & Ec1). apply erase_kept in Etg as (lg & -> & _); [|reflexivity].
    rewrite map_app in Ec1. rewrite <- app_assoc in Ec1.
    assert (exists u1 u2 u3, ch2 = u1 ++ u2 ++ [u3] /\ map erase u1 = map et_decl (map event_sd (sort_by (p_events p))) /\ map erase u2 = map et_decl sds2 /\
      erase u3 = T G_vrmlScene [] (map et_root (sk_roots rl))) as (u1 & u2 & u3 & -> & X1 & X2 & X3).
    { apply map_eq_app in Ec1 as (u1 & u23 & -> & X1 & X23). apply map_eq_app in X23 as (u2 & u3 & -> & X2 & X3).
      apply erase_cons in X3 as (u & [|] & -> & X3 & Z); [|discriminate]. exists u1, u2, u. auto. }
    apply erase_not_kept in X3 as (s3 & ch3 & -> & X3).
    rewrite build_scene_app, Bd. cbn [bind build_scene]. rewrite build_root_item. cbn [build_scene]. rewrite build_root_proto.
    assert (among nm not_types = false) as ->.
    { destruct (among nm not_types) eqn:Q; [|reflexivity]. exfalso. unfold among in Q. apply existsb_exists in Q as (g & Hg & Q). apply text_eqb_spec in Q. subst g.
      destruct Hg as [<-|[<-|[<-|[<-|[<-|[]]]]]]; try discriminate N1. apply N2. reflexivity. }
    assert (proto (known base (inside ctx0 (tab, scene0))) nm = None) as ->.
    { unfold known. rewrite types_get. cbn [inside c_env ctx0 fst]. rewrite app_nil_r.
      assert (dget text_eqb tab nm = None) as ->; [|exact N3]. apply (back_none _ _ _ B). apply dget_no. exact Nn. }
    cbn [fst snd c_env ctx0 c_outer app]. replace (mkctx true (tab ++ []) (uses scene0)) with c0 by (unfold c0; rewrite app_nil_r; reflexivity).
    assert (Np : NoDup (map fst (sort_by (p_events p)) ++ map fst (sort_by (p_fields p)))).
    { eapply Permutation_NoDup; [|exact (nodup_url p ND NU)]. symmetry.
      rewrite (Permutation_map fst (sort_by_perm (p_events p))), (Permutation_map fst (sort_by_perm (p_fields p))). apply keys_perm. apply (owns_not p NU). }
    rewrite (events_read P base c0 (sort_by (p_events p)) u1 (u2 ++ [T G_vrmlScene s3 ch3]) [] X1 E1 E2).
    2: { cbn [map app]. exact (nodup_left _ _ Np). }
    cbn [app map].
    destruct (fields_read P base c0 s3 ch3 (sort_by (p_fields p)) sds2 u2 (map ev_mem (sort_by (p_events p))) R2 X2 D2) as (fds' & F2 & Q).
    { rewrite map_map. exact Np. }
    rewrite Q. destruct (SC ch3 X3) as (S' & rho & Bs' & Bt). unfold file0. rewrite Bs'. cbn [bind fst snd].
    exists (tab ++ [(nm, PDef (mem' p fds') [] S')]). split; [reflexivity|]. apply back_snoc with (e := e); auto. split.
    - reflexivity.
    - apply interface_read; assumption.
    - apply (url_read P p ND NU fds' F2).
    - apply fields_read_ok; [exact (op_url _ _ _ _ _ _ O)|assumption..].
    - exists N, dn, rho. exact Bt.
Qed.
End Flat.

(** *** PROTOs inside PROTOs *)
Fixpoint pdef_nest (Q : pdef -> Prop) (H : forall m inner b, Forall (fun x : text * pdef => Q (snd x)) inner -> Q (PDef m inner b))
    (HE : forall m u, Q (PExt m u)) (p : pdef) : Q p :=
  match p with
  | PDef m inner b => H m inner b ((fix go (l : list (text * pdef)) : Forall (fun x => Q (snd x)) l :=
      match l with [] => Forall_nil _ | x :: r => Forall_cons x (pdef_nest Q H HE (snd x)) (go r) end) inner)
  | PExt m u => HE m u
  end.
Lemma flat_app a b : flat (a ++ b) = flat a ++ flat b.
Proof. unfold flat. apply flat_map_app. Qed.
Lemma flat_one nm p : flat [(nm, p)] = flat_proto nm p.
Proof. unfold flat. cbn. apply app_nil_r. Qed.
Lemma flat_proto_eq nm p : flat_proto nm p = flat (p_inner p) ++ [(nm, p)].
Proof. destruct p; reflexivity. Qed.
Lemma in_flat x tab : In x tab -> In x (flat tab).
Proof.
  destruct x as [nm p]. intros H. unfold flat. apply in_flat_map. exists (nm, p). split; [exact H|]. cbn [fst snd]. rewrite flat_proto_eq. apply in_or_app. right. left. reflexivity.
Qed.
Lemma agree_flat before env pre : agree env pre -> NoDup (map fst (pre ++ flat before)) -> agree (before ++ env) (pre ++ flat before).
Proof.
  intros A ND g p H. rewrite dget_app in H. destruct (dget text_eqb before g) as [q|] eqn:E.
  - injection H as <-. apply (In_dget text_eqb text_eqb_spec); [exact ND|]. apply in_or_app. right. apply in_flat. apply dget_in. exact E.
  - rewrite dget_app, (A g p H). reflexivity.
Qed.
Lemma sees_lift env before nm p post n' p' e : sees (before ++ env) [(nm, p)] n' p' e -> sees env (before ++ (nm, p) :: post) n' p' e.
Proof.
  intros H. inversion H as [e0 pre0 n0 p0 post0 Q1 Q2 Q3 Q4|e0 pre0 n0 p0 post0 n1 p1 e1 Q0 Q1 Q2 Q3 Q4]; subst.
  - destruct pre0 as [|x [|]]; try discriminate. injection Q2; intros; subst. cbn [app] in *. exact (sees_here env before _ _ post).
  - destruct pre0 as [|x [|]]; try discriminate. injection Q2; intros; subst. cbn [app] in *. exact (sees_inside env before _ _ post _ _ _ Q0).
Qed.
Section Nest.
Variable P : prims.
Variable base : list (text * list fdecl).
Variable fstr : tcode -> fl -> text.
Variable st : settings.
Variable all : list (text * pdef).
Hypothesis WB : wf_protos P base.
Hypothesis ST : ok_settings st.
Hypothesis FS : faithful fstr.
Notation Inv := (Inv P base all).
Definition w_table (env : list (text * pdef)) := fix table (before l : list (text * pdef)) (s : pstate) {struct l} : option pstate :=
    match l with
    | [] => Some s
    | x :: r => match write_proto P fstr base st (before ++ env) (fst x) (snd x) s with
                | Some s' => table (before ++ [x]) r s'
                | None => None
                end
    end.
Lemma write_proto_eq env nm p s : write_proto P fstr base st env nm p s =
  if among nm (fst s) then Some s
  else match w_table env [] (p_inner p) (nm :: fst s, snd s) with
       | Some s1 => match proto_text P fstr base st (p_inner p ++ env) nm p with
                    | Some t => Some (fst s1, snd s1 ++ t)
                    | None => None
                    end
       | None => None
       end.
Proof. destruct p; reflexivity. Qed.
Lemma write_table_eq l : forall before s, write_table P fstr base st before l s = w_table [] before l s.
Proof. induction l as [|x l IH]; intros before s; [reflexivity|]. cbn [write_table w_table]. rewrite app_nil_r. destruct (write_proto _ _ _ _ _ _ _ _); [apply IH|reflexivity]. Qed.
Definition writes (env : list (text * pdef)) (nm : text) (p : pdef) : Prop := forall pre buf done,
  Inv pre buf -> agree env pre -> NoDup (map fst (pre ++ flat_proto nm p)) -> incl (pre ++ flat_proto nm p) all ->
  (forall g, In g (map fst (flat_proto nm p)) -> ~ In g done) ->
  exists done' buf', write_proto P fstr base st env nm p (done, buf) = Some (done', buf') /\ Inv (pre ++ flat_proto nm p) buf' /\
    forall g, In g done' -> In g done \/ In g (map fst (flat_proto nm p)).
Lemma table_ok env : forall l before pre buf done,
  Forall (fun x => forall env nm, (forall n' p' e, sees env [(nm, snd x)] n' p' e -> ok_proto P base all n' p' e) -> writes env nm (snd x)) l ->
  (forall n' p' e, sees env (before ++ l) n' p' e -> ok_proto P base all n' p' e) ->
  Inv (pre ++ flat before) buf -> agree env pre -> NoDup (map fst (pre ++ flat (before ++ l))) -> incl (pre ++ flat (before ++ l)) all ->
  (forall g, In g (map fst (flat l)) -> ~ In g done) ->
  exists done' buf', w_table env before l (done, buf) = Some (done', buf') /\ Inv (pre ++ flat (before ++ l)) buf' /\
    forall g, In g done' -> In g done \/ In g (map fst (flat l)).
Proof.
  induction l as [|[nm p] l IH]; intros before pre buf done F Sn I A ND Inc Nd.
  - exists done, buf. split; [reflexivity|]. rewrite app_nil_r. split; [exact I|]. auto.
  - inversion F as [|? ? Fx F']; subst. cbn [snd] in Fx. cbn [w_table fst snd].
    assert (El : pre ++ flat (before ++ (nm, p) :: l) = ((pre ++ flat before) ++ flat_proto nm p) ++ flat l).
    { change ((nm, p) :: l) with ([(nm, p)] ++ l). rewrite !flat_app, flat_one, <- !app_assoc. reflexivity. }
    assert (Ef : flat ((nm, p) :: l) = flat_proto nm p ++ flat l) by reflexivity.
    destruct (Fx (before ++ env) nm) with (pre := pre ++ flat before) (buf := buf) (done := done) as (d1 & b1 & E1 & I1 & D1).
    + intros n' p' e H. apply Sn. apply sees_lift. exact H.
    + exact I.
    + apply agree_flat; [exact A|]. rewrite El, !map_app in ND. rewrite !map_app. apply nodup_left in ND. apply nodup_left in ND. exact ND.
    + rewrite El, (map_app fst _ (flat l)) in ND. apply nodup_left in ND. exact ND.
    + intros x Hx. apply Inc. rewrite El. apply in_or_app. left. exact Hx.
    + intros g Hg. apply Nd. rewrite Ef, map_app. apply in_or_app. left. exact Hg.
    + rewrite E1. destruct (IH (before ++ [(nm, p)]) pre b1 d1 F') as (d2 & b2 & E2 & I2 & D2).
      * rewrite <- app_assoc. exact Sn.
      * rewrite flat_app, flat_one, app_assoc. exact I1.
      * exact A.
      * rewrite <- app_assoc. exact ND.
      * rewrite <- app_assoc. exact Inc.
      * intros g Hg H. destruct (D1 g H) as [H1|H1].
        -- apply (Nd g); [|exact H1]. rewrite Ef, map_app. apply in_or_app. right. exact Hg.
        -- rewrite El, (map_app fst _ (flat l)), (map_app fst _ (flat_proto nm p)), <- app_assoc in ND.
           assert (ND2 : NoDup (map fst (flat_proto nm p) ++ map fst (flat l))).
           { clear - ND. induction (map fst (pre ++ flat before)) as [|z r IHr]; [exact ND|]. cbn in ND. inversion ND; auto. }
           apply in_split in H1 as (x1 & x2 & Ex). rewrite Ex in ND2. rewrite <- app_assoc in ND2. cbn [app] in ND2.
           apply NoDup_remove_2 in ND2. apply ND2. rewrite app_assoc. apply in_or_app. right. exact Hg.
      * exists d2, b2. split; [exact E2|]. rewrite <- app_assoc in I2. split; [exact I2|].
        intros g Hg. rewrite Ef, map_app, in_app_iff. destruct (D2 g Hg) as [H|H]; [|auto]. destruct (D1 g H); auto.
Qed.
Lemma proto_writes p : forall env nm, (forall n' p' e, sees env [(nm, p)] n' p' e -> ok_proto P base all n' p' e) -> writes env nm p.
Proof.
  induction p as [m inner b IH|m u] using pdef_nest; intros env nm Sn pre buf done I A ND Inc Nd.
  2: { discriminate (op_url _ _ _ _ _ _ (Sn _ _ _ (sees_here env [] nm (PExt m u) []))). }
  rewrite write_proto_eq. cbn [fst snd]. rewrite flat_proto_eq in *. cbn [p_inner] in *.
  assert (among nm done = false) as ->.
  { destruct (among nm done) eqn:Q; [|reflexivity]. exfalso. unfold among in Q. apply existsb_exists in Q as (g & Hg & Q). apply text_eqb_spec in Q. subst g.
    apply (Nd nm); [|exact Hg]. rewrite map_app. apply in_or_app. right. left. reflexivity. }
  rewrite app_assoc in ND, Inc. rewrite map_app in ND. cbn [map fst] in ND.
  destruct (table_ok env inner [] pre buf (nm :: done) IH) as (d1 & b1 & E1 & I1 & D1).
  - intros n' p' e H. apply Sn. apply (sees_inside env [] nm (PDef m inner b) [] n' p' e). exact H.
  - unfold flat at 1. cbn [flat_map]. rewrite app_nil_r. exact I.
  - exact A.
  - cbn [app]. apply nodup_left in ND. exact ND.
  - cbn [app]. intros x Hx. apply Inc. apply in_or_app. left. exact Hx.
  - intros g Hg [<-|H].
    + apply NoDup_remove_2 in ND. apply ND. rewrite app_nil_r, map_app. apply in_or_app. right. exact Hg.
    + apply (Nd g); [|exact H]. rewrite map_app. apply in_or_app. left. exact Hg.
  - rewrite E1. cbn [app] in I1.
    destruct (proto_step P base fstr st all WB ST FS (pre ++ flat inner) b1 nm (PDef m inner b) (inner ++ env)) as (t & Et & I2).
    + exact I1.
    + apply Sn. apply (sees_here env [] nm (PDef m inner b) []).
    + apply agree_flat; [exact A|]. apply nodup_left in ND. exact ND.
    + intros H. apply NoDup_remove_2 in ND. rewrite app_nil_r in ND. exact (ND H).
    + intros x Hx. apply Inc. apply in_or_app. left. exact Hx.
    + rewrite Et. cbn [fst snd]. exists d1, (b1 ++ t). split; [reflexivity|]. rewrite app_assoc. split; [exact I2|].
      intros g Hg. rewrite map_app, in_app_iff. cbn [map fst]. destruct (D1 g Hg) as [[<-|H]|H]; auto. right. right. left. reflexivity.
Qed.
End Nest.
