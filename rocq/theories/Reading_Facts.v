(** What follows from the meaning of a document; and that documents without
    PROTOs are always read. *)
From Coq Require Import Reals SpecFloat.
From Flocq Require Import Core.Core IEEE754.BinarySingleNaN.
From Verif Require Import Base Text PyDict PyDict_Proofs Float Coerce_Model Grammar_Model Lex_Spec Lex_Proofs Doc_Spec Doc_Proofs SceneGraph_Model
  VrmlStr_Model VrmlStr_Values Scene_Model Scene_Spec Build_Model Reading_Spec Reading_Proofs.
Local Open Scope nat_scope.
Local Open Scope list_scope.

Scheme item_reads_m := Induction for item_reads Sort Prop
with items_read_m := Induction for items_read Sort Prop
with attrs_read_m := Induction for attrs_read Sort Prop
with value_reads_m := Induction for value_reads Sort Prop
with member_reads_m := Induction for member_reads Sort Prop
with sdecls_read_m := Induction for sdecls_read Sort Prop
with sattrs_read_m := Induction for sattrs_read Sort Prop.
Combined Scheme item_reads_all from item_reads_m, items_read_m, attrs_read_m, value_reads_m, member_reads_m, sdecls_read_m, sattrs_read_m.
Scheme root_reads_m := Induction for root_reads Sort Prop
with roots_read_m := Induction for roots_read Sort Prop.
Combined Scheme root_reads_all from root_reads_m, roots_read_m.

Section Facts.
Variable P : prims.
Variable base : list (text * list fdecl).
Variable sfn : text -> bool.
Definition sf_names (tys : list (text * list fdecl)) : Prop :=
  forall gi fs f, In (gi, fs) tys -> In f fs -> f_kind f = KNode -> sfn (f_name f) = true.

(** *** names *)
Definition named (st : rstate) (nm : text) : Prop := named_node st nm <> None.
Definition used_ok (D : text -> Prop) (l : list occ) : Prop :=
  forall pre nm post, l = pre ++ OUse nm :: post -> In (ODef nm) pre \/ D nm.
Definition n_good (st st' : rstate) (l : list occ) : Prop :=
  used_ok (named st) l /\ (forall nm, named st' nm -> named st nm \/ In (ODef nm) l).
Lemma good_nil' st : n_good st st [].
Proof. split; [intros [|x pre] nm post E; discriminate|auto]. Qed.
Lemma good_app st st1 st' l l' : n_good st st1 l -> n_good st1 st' l' -> n_good st st' (l ++ l').
Proof.
  intros (U1 & D1) (U2 & D2). split.
  - intros pre nm post E. 
    assert (C : (exists p2, l = pre ++ OUse nm :: p2) \/ (exists p1, pre = l ++ p1 /\ l' = p1 ++ OUse nm :: post)).
    { clear - E. revert pre E. induction l as [|x l IH]; intros pre E; [right; exists pre; auto|].
      destruct pre as [|y pre]; cbn in E; injection E as -> E; [left; exists l; reflexivity|].
      destruct (IH pre E) as [(p2 & ->)|(p1 & -> & Q)]; [left; exists p2; reflexivity|right; exists p1; auto]. }
    destruct C as [(p2 & ->)|(p1 & -> & Q)].
    + exact (U1 _ _ _ eq_refl).
    + destruct (U2 _ _ _ Q) as [H|H]; [left; apply in_or_app; auto|]. destruct (D1 nm H) as [H1|H1]; [auto|left; apply in_or_app; auto].
  - intros nm H. destruct (D2 nm H) as [H1|H1]; [|right; apply in_or_app; auto]. destruct (D1 nm H1); [auto|right; apply in_or_app; auto].
Qed.
Lemma good_same st st1 st' l : r_names st1 = r_names st' -> n_good st st1 l -> n_good st st' l.
Proof. intros E (U & D). split; [exact U|]. intros nm H. apply D. unfold named, named_node in *. rewrite E. exact H. Qed.
Lemma plain_no_occs l : forallb plain l = true -> flat_map occs l = [] /\ flat_map gis l = [].
Proof. induction l as [|i l IH]; [auto|]. cbn [forallb flat_map]. intros H. apply andb_true_iff in H as [H1 H2]. destruct (IH H2) as (-> & ->). destruct i; try discriminate; auto. Qed.

Lemma names_set e n gi f v st : r_names (set_value e n gi f v st) = r_names st.
Proof. unfold set_value. destruct (passed_on e gi f); reflexivity. Qed.
Definition known_types (e : list (text * pdef)) : list text := map fst e ++ map fst base.
Lemma proto_known e gi fs : proto (types base e) gi = Some fs -> In gi (known_types e).
Proof.
  unfold proto, types, known_types. intros H. apply (dget_In text_eqb text_eqb_spec) in H. apply in_app_iff in H as [H|H].
  - apply in_or_app. left. apply in_map_iff in H as (p & E & H). injection E as <- _. apply in_map. exact H.
  - apply in_or_app. right. apply (in_map fst) in H. exact H.
Qed.
Lemma not_known e gi : proto (types base e) gi = None -> ~ In gi (known_types e).
Proof.
  unfold proto, types, known_types. induction e as [|[g p] e IH]; cbn [map app fst snd dget].
  - intros H I. induction base as [|[g fs] b IHb]; [destruct I|]. cbn in *. destruct (text_eqb g gi) eqn:E; [discriminate|].
    destruct I as [->|I]; [rewrite text_eqb_refl in E; discriminate|auto].
  - destruct (text_eqb g gi) eqn:E; [discriminate|]. intros H [->|I]; [rewrite text_eqb_refl in E; discriminate|exact (IH H I)].
Qed.

Definition attr_occs (p : text * sval) := match snd p with SVal its => flat_map occs its | SIs _ => [] end.
Definition attr_gis (p : text * sval) := match snd p with SVal its => flat_map gis its | SIs _ => [] end.
Definition attr_lone (p : text * sval) := match snd p with
  | SVal its => (negb (sfn (fst p)) || (List.length its <=? 1)) && forallb (lone sfn) its | SIs _ => true end.
Definition decl_occs (x : ssel) := match x with SSField _ _ _ (SVal its) => flat_map occs its | _ => [] end.
Definition sattr_occs (x : ssel) := match x with SSAttr _ (SVal its) => flat_map occs its | _ => [] end.
Definition decl_gis (x : ssel) := match x with SSField _ _ _ (SVal its) => flat_map gis its | _ => [] end.
Definition sattr_gis (x : ssel) := match x with SSAttr _ (SVal its) => flat_map gis its | _ => [] end.
Definition sel_lone (x : ssel) := match x with
  | SSField _ ty nm v => (negb (text_eqb ty (lit "SFNode")) || sfn nm) &&
      match v with SVal its => (negb (text_eqb ty (lit "SFNode")) || (List.length its <=? 1)) && forallb (lone sfn) its | SIs _ => true end
  | SSAttr nm (SVal its) => (negb (sfn nm) || (List.length its <=? 1)) && forallb (lone sfn) its
  | _ => true end.
(** the SFNode fields that Scripts declare *)
Definition smem_sf (nm : text) (m : smember) : Prop := match m with SMField _ KNode _ => sfn nm = true | _ => True end.
Definition mems_sf (st : rstate) : Prop := Forall (fun x => smem_sf (snd (fst x)) (snd x)) (r_mems st).
Lemma script_field_sf st n f : mems_sf st -> script_field st n f -> f_kind f = KNode -> sfn (f_name f) = true.
Proof.
  intros M F K. unfold script_field, member_of in F. destruct (find _ (r_mems st)) as [[[n' nm'] m]|] eqn:E; cbn [option_map snd] in F.
  - apply find_some in E as (E & E2). cbn [fst snd] in E2. apply andb_true_iff in E2 as [_ E2]. apply text_eqb_spec in E2. subst nm'.
    unfold mems_sf in M. rewrite Forall_forall in M. specialize (M _ E). cbn in M. destruct m as [ex k l|]; [|destruct F]. subst k. rewrite K in M. exact M.
  - cbn in F. destruct F as [<-|[<-|[<-|[<-|[]]]]]; discriminate.
Qed.
Lemma maps_names n ms : forall st, r_names (with_maps n ms st) = r_names st /\ r_mems (with_maps n ms st) = r_mems st.
Proof. induction ms as [|m ms IH]; intros st; [auto|]. exact (IH (with_is (fst m) n (snd m) st)). Qed.
Lemma mems_set e n gi f v st : r_mems (set_value e n gi f v st) = r_mems st.
Proof. unfold set_value. destruct (passed_on e gi f); reflexivity. Qed.
Lemma good_enter d gi st : n_good st (enter_node d gi st) (match d with Some nm => [ODef nm] | None => [] end).
Proof.
  destruct d as [nm|]; [|split; [intros [|? ?] ? ? Q; discriminate|auto]]. split.
  - intros [|x [|]] ? ? Q; discriminate.
  - intros x H. unfold named, named_node in *. cbn in H. destruct (text_eqb nm x) eqn:E; [|auto]. apply text_eqb_spec in E. subst. right. left. reflexivity.
Qed.
Lemma kind_of_node ty : kind_of ty = Some KNode -> text_eqb ty (lit "SFNode") = true.
Proof. unfold kind_of. destruct (text_eqb ty (lit "SFNode")); [auto|]. destruct (text_eqb ty (lit "MFNode")); [discriminate|]. destruct (fty_of ty); discriminate. Qed.
Lemma items_facts inp e : sf_names (types base e) ->
  (forall st i st' r, item_reads P base inp e st i st' r -> mems_sf st -> lone sfn i = true ->
     n_good st st' (occs i) /\ incl (gis i) (known_types e) /\ mems_sf st') /\
  (forall st l st' rs, items_read P base inp e st l st' rs -> mems_sf st -> forallb (lone sfn) l = true ->
     n_good st st' (flat_map occs l) /\ incl (flat_map gis l) (known_types e) /\ mems_sf st') /\
  (forall n gi fs st l st', attrs_read P base inp e n gi fs st l st' -> mems_sf st ->
     (forall f, In f fs -> f_kind f = KNode -> sfn (f_name f) = true) -> forallb attr_lone l = true ->
     n_good st st' (flat_map attr_occs l) /\ incl (flat_map attr_gis l) (known_types e) /\ mems_sf st') /\
  (forall st f its st' v, value_reads P base inp e st f its st' v -> mems_sf st -> (f_kind f = KNode -> sfn (f_name f) = true) ->
     forallb (lone sfn) its = true -> (sfn (f_name f) = true -> List.length its <= 1) ->
     n_good st st' (flat_map occs its) /\ incl (flat_map gis its) (known_types e) /\ mems_sf st') /\
  (forall st ex ty its st' m, member_reads P base inp e st ex ty its st' m -> mems_sf st ->
     forallb (lone sfn) its = true -> (text_eqb ty (lit "SFNode") = true -> List.length its <= 1) ->
     n_good st st' (flat_map occs its) /\ incl (flat_map gis its) (known_types e) /\ mems_sf st' /\
     forall nm, (text_eqb ty (lit "SFNode") = true -> sfn nm = true) -> smem_sf nm m) /\
  (forall n st ms l st' ms', sdecls_read P base inp e n st ms l st' ms' -> mems_sf st -> forallb sel_lone l = true ->
     n_good st st' (flat_map decl_occs l) /\ incl (flat_map decl_gis l) (known_types e) /\ mems_sf st') /\
  (forall n st l st', sattrs_read P base inp e n st l st' -> mems_sf st -> forallb sel_lone l = true ->
     n_good st st' (flat_map sattr_occs l) /\ incl (flat_map sattr_gis l) (known_types e) /\ mems_sf st').
Proof.
  intros SF. apply (item_reads_all P base inp e); cbn [occs gis flat_map forallb lone].
  - intros st M _. split; [apply good_nil'|split; [apply incl_nil_l|exact M]].
  - intros st nm n E M _. split; [|split; [apply incl_nil_l|exact M]]. split; [|auto]. intros pre x post Q. right.
    destruct pre as [|y [|]]; try discriminate. injection Q as -> _. unfold named. congruence.
  - intros st d gi fs l st' Pr _ _ IH M L. 
    assert (SFf : forall f, In f fs -> f_kind f = KNode -> sfn (f_name f) = true).
    { intros f Hf K. apply (SF gi fs f); [|exact Hf|exact K]. apply (dget_In text_eqb text_eqb_spec) in Pr. exact Pr. }
    destruct (IH M SFf L) as (G & I & M').
    split; [|split; [|exact M']].
    + apply (good_app st (enter_node d gi st)); [|exact G]. apply good_enter.
    + intros x [<-|H]; [eapply proto_known; exact Pr|exact (I x H)].
  - intros st d l st1 ms st' _ IH1 _ _ IH2 M L. destruct (IH1 M L) as (G1 & I1 & M1).
    destruct (maps_names (r_next st) ms st1) as (Qn & Qm).
    destruct (IH2) as (G2 & I2 & M2); [unfold mems_sf; rewrite Qm; exact M1|exact L|].
    split; [|split; [|exact M2]].
    + apply (good_app st (enter_node d script_gi st)); [apply good_enter|]. eapply good_app; [|exact G2].
      eapply good_same; [|exact G1]. symmetry. exact Qn.
    + intros x Hx. apply in_flat_map in Hx as (s & Hs & Hx).
      destruct s as [ex ty nm [its|pn]|out ty nm pn|nm [its|pn]]; try destruct Hx.
      * apply I1. apply in_flat_map. eexists. split; [exact Hs|exact Hx].
      * apply I2. apply in_flat_map. eexists. split; [exact Hs|exact Hx].
  - intros st M _. split; [apply good_nil'|split; [apply incl_nil_l|exact M]].
  - intros st i st1 r l st' rs _ IH1 _ IH2 M L. apply andb_true_iff in L as [L1 L2]. destruct (IH1 M L1) as (G1 & I1 & M1), (IH2 M1 L2) as (G2 & I2 & M2).
    split; [eapply good_app; eassumption|split; [apply incl_app; assumption|exact M2]].
  - intros n gi fs st M _ _. split; [apply good_nil'|split; [apply incl_nil_l|exact M]].
  - intros n gi fs st f its st1 v l st' Hf _ IH1 _ IH2 M SFf L. apply andb_true_iff in L as [L1 L2].
    unfold attr_lone in L1. cbn [fst snd] in L1. apply andb_true_iff in L1 as [L0 L1].
    destruct (IH1 M (SFf f Hf) L1) as (G1 & I1 & M1).
    { intros Q. rewrite Q in L0. cbn in L0. apply Nat.leb_le. exact L0. }
    destruct IH2 as (G2 & I2 & M2); [unfold mems_sf; rewrite mems_set; exact M1|exact SFf|exact L2|]. unfold attr_occs at 1, attr_gis at 1. cbn [snd].
    split; [|split; [apply incl_app; assumption|exact M2]]. eapply good_app; [|exact G2]. eapply good_same; [|exact G1]. symmetry. apply names_set.
  - intros n gi fs st nm pn l st' _ _ IH M SFf L. unfold attr_occs at 1, attr_gis at 1. cbn [snd app]. apply andb_true_iff in L as [_ L]. apply (IH M SFf L).
  - intros st f t d its v _ Pl _ M _ _ _. destruct (plain_no_occs its Pl) as (-> & ->). split; [apply good_nil'|split; [apply incl_nil_l|exact M]].
  - intros st f i its st' r K _ IH M SFf L Lg. specialize (SFf K). specialize (Lg SFf). destruct its; [|cbn in Lg; lia].
    apply andb_true_iff in L as [L _]. destruct (IH M L) as (G & I). cbn [flat_map]. rewrite !app_nil_r. auto.
  - intros st f o its st' rs K _ IH M _ L _. exact (IH M L).
  - intros st f o its K Pl M _ _ _. destruct (plain_no_occs its Pl) as (-> & ->). split; [apply good_nil'|split; [apply incl_nil_l|exact M]].
  - intros st ex ty t its v _ Pl _ M _ _. destruct (plain_no_occs its Pl) as (-> & ->). split; [apply good_nil'|split; [apply incl_nil_l|split; [exact M|]]].
    intros; exact Logic.I.
  - intros st ex i its st' r _ IH M L Lg. specialize (Lg eq_refl). destruct its; [|cbn in Lg; lia].
    apply andb_true_iff in L as [L _]. destruct (IH M L) as (G & I & M'). cbn [flat_map]. rewrite !app_nil_r. split; [exact G|split; [exact I|split; [exact M'|]]].
    intros nm Q. exact (Q eq_refl).
  - intros st ex its st' rs _ IH M L _. destruct (IH M L) as (G & I & M'). split; [exact G|split; [exact I|split; [exact M'|]]]. intros; exact Logic.I.
  - intros st ex its Pl M _ _. destruct (plain_no_occs its Pl) as (-> & ->). split; [apply good_nil'|split; [apply incl_nil_l|split; [exact M|]]].
    intros; exact Logic.I.
  - intros n st ms M _. split; [apply good_nil'|split; [apply incl_nil_l|exact M]].
  - intros n st ms ex ty nm its st1 m l st' ms' _ _ IH1 _ IH2 M L. apply andb_true_iff in L as [L1 L2]. unfold sel_lone in L1.
    apply andb_true_iff in L1 as [Ls L1]. apply andb_true_iff in L1 as [Lg L1].
    destruct (IH1 M L1) as (G1 & I1 & M1 & Sm). { intros Q. rewrite Q in Lg. cbn in Lg. apply Nat.leb_le. exact Lg. }
    destruct IH2 as (G2 & I2 & M2); [|exact L2|].
    { constructor; [|exact M1]. cbn [fst snd]. apply Sm. intros Q. rewrite Q in Ls. exact Ls. }
    unfold decl_occs at 1, decl_gis at 1. split; [|split; [apply incl_app; assumption|exact M2]]. eapply good_app; [|exact G2]. exact G1.
  - intros n st ms ex ty nm k pn l st' ms' _ K _ IH M L. apply andb_true_iff in L as [L1 L2]. unfold sel_lone in L1. rewrite andb_true_r in L1.
    destruct IH as (G2 & I2 & M2); [|exact L2|].
    { constructor; [|exact M]. cbn. destruct k; try exact Logic.I. rewrite (kind_of_node _ K) in L1. exact L1. }
    unfold decl_occs at 1, decl_gis at 1. split; [exact G2|split; [exact I2|exact M2]].
  - intros n st ms out ty nm pn l st' ms' _ K _ IH M L. apply andb_true_iff in L as [_ L2].
    destruct IH as (G2 & I2 & M2); [|exact L2|].
    { constructor; [exact Logic.I|exact M]. }
    unfold decl_occs at 1, decl_gis at 1. split; [exact G2|split; [exact I2|exact M2]].
  - intros n st ms nm v l st' ms' _ IH M L. apply andb_true_iff in L as [_ L2]. unfold decl_occs at 1, decl_gis at 1. exact (IH M L2).
  - intros n st M _. split; [apply good_nil'|split; [apply incl_nil_l|exact M]].
  - intros n st x l st' X _ IH M L. apply andb_true_iff in L as [_ L2]. unfold sattr_occs at 1, sattr_gis at 1. destruct x; try destruct X; exact (IH M L2).
  - intros n st f its st1 v l st' F _ IH1 _ IH2 M L. apply andb_true_iff in L as [L1 L2]. unfold sel_lone in L1. apply andb_true_iff in L1 as [L0 L1].
    destruct (IH1 M (script_field_sf st n f M F) L1) as (G1 & I1 & M1).
    { intros Q. rewrite Q in L0. cbn in L0. apply Nat.leb_le. exact L0. }
    destruct (IH2 M1 L2) as (G2 & I2 & M2). unfold sattr_occs at 1, sattr_gis at 1.
    split; [|split; [apply incl_app; assumption|exact M2]]. eapply good_app; [exact G1|exact G2].
  - intros n st nm pn l st' _ _ _ IH M L. apply andb_true_iff in L as [_ L2]. unfold sattr_occs at 1, sattr_gis at 1. exact (IH M L2).
Qed.

(** declared SFNode fields *)
Definition mem_sf (mem : list (text * member)) : Prop := forall nm ex, In (nm, MField ex KNode) mem -> sfn nm = true.
Lemma dset_in {A} (l : list (text * A)) k v x : In x (dset text_eqb l k v) -> x = (k, v) \/ In x l.
Proof.
  induction l as [|[k' v'] l IH]; cbn [dset]; [intros [<-|[]]; auto|]. destruct (text_eqb k' k) eqn:E.
  - apply text_eqb_spec in E. subst. intros [<-|H]; [auto|right; right; exact H].
  - intros [<-|H]; [right; left; reflexivity|]. destruct (IH H); [auto|right; right; assumption].
Qed.
Lemma decls_sf mem ds mem' : decls_read mem ds mem' ->
  forallb (fun d => match d with SDField _ ty nm _ => negb (text_eqb ty (lit "SFNode")) || sfn nm | _ => true end) ds = true ->
  mem_sf mem -> mem_sf mem'.
Proof.
  induction 1 as [mem|mem ex ty nm l k r mem' K _ IH|mem out ty nm r mem' _ IH]; cbn [forallb]; intros L M; [exact M| |].
  - apply andb_true_iff in L as [L1 L2]. apply IH; [exact L2|]. intros x ex' H. apply dset_in in H as [H|H]; [|exact (M _ _ H)].
    injection H as -> <- <-. inversion K; subst; try discriminate. rewrite text_eqb_refl in L1. exact L1.
  - apply IH; [exact L|]. intros x ex' H. apply dset_in in H as [H|H]; [discriminate|exact (M _ _ H)].
Qed.
Lemma xdecls_sf mem ds mem' : xdecls_read mem ds mem' ->
  forallb (fun d => match d with SXField _ ty nm => negb (text_eqb ty (lit "SFNode")) || sfn nm | _ => true end) ds = true ->
  mem_sf mem -> mem_sf mem'.
Proof.
  induction 1 as [mem|mem ex ty nm k r mem' K _ IH|mem out ty nm r mem' _ IH]; cbn [forallb]; intros L M; [exact M| |].
  - apply andb_true_iff in L as [L1 L2]. apply IH; [exact L2|]. intros x ex' H. apply dset_in in H as [H|H]; [|exact (M _ _ H)].
    injection H as -> <- <-. rewrite (kind_of_node _ K) in L1. exact L1.
  - apply IH; [exact L|]. intros x ex' H. apply dset_in in H as [H|H]; [discriminate|exact (M _ _ H)].
Qed.
Lemma own_sf mem f : mem_sf mem -> In f (flat_map (fun x => match snd x with MField _ k => [mkfd (fst x) k] | MEvent _ _ => [] end) mem) ->
  f_kind f = KNode -> sfn (f_name f) = true.
Proof.
  intros M H K. apply in_flat_map in H as ([nm m] & Hm & H). cbn in H. destruct m as [ex k|]; [|destruct H]. destruct H as [<-|[]].
  cbn in *. subst k. eapply M; exact Hm.
Qed.
Lemma pfields_sf mem inner body : mem_sf mem -> forall f, In f (pfields (PDef mem inner body)) -> f_kind f = KNode -> sfn (f_name f) = true.
Proof.
  intros M f Hf K. unfold pfields in Hf. cbn [p_mem] in Hf.
  assert (O : In f (flat_map (fun x => match snd x with MField _ k => [mkfd (fst x) k] | MEvent _ _ => [] end) mem) -> sfn (f_name f) = true).
  { intros H. apply in_flat_map in H as ([nm m] & Hm & H). cbn in H. destruct m as [ex k|]; [|destruct H]. destruct H as [<-|[]].
    cbn in *. subst k. eapply M; exact Hm. }
  destruct (existsb _ _) in Hf; [exact (O Hf)|]. apply in_app_iff in Hf as [Hf|[<-|[]]]; [exact (O Hf)|discriminate].
Qed.

Lemma defined_used l : used_ok (fun _ => False) l -> defined_before_use l.
Proof. intros H pre nm post E. destruct (H pre nm post E) as [Q|[]]. exact Q. Qed.
Lemma roots_facts :
  (forall inp e s r s', root_reads P base inp e s r s' -> sf_names (types base (fst s ++ e)) -> mems_sf (snd s) -> lone_root sfn r = true ->
     mems_sf (snd s') /\ n_good (snd s) (snd s') (occs_root r) /\ sf_names (types base (fst s' ++ e)) /\
     (forall gi ds b x, r = SRProto gi ds b -> scene_in b x -> defined_before_use (flat_map occs_root x)) /\
     (forall l, (forall k, (forall x, In x k <-> In x (known_types (fst s' ++ e))) -> types_known k l) -> 
        forall k, (forall x, In x k <-> In x (known_types (fst s ++ e))) -> types_known k (r :: l))) /\
  (forall inp e s l s', roots_read P base inp e s l s' -> sf_names (types base (fst s ++ e)) -> mems_sf (snd s) -> forallb (lone_root sfn) l = true ->
     mems_sf (snd s') /\ n_good (snd s) (snd s') (flat_map occs_root l) /\ sf_names (types base (fst s' ++ e)) /\
     (forall gi ds b x, In (SRProto gi ds b) l -> scene_in b x -> defined_before_use (flat_map occs_root x)) /\
     forall k, (forall x, In x k <-> In x (known_types (fst s ++ e))) -> types_known k l).
Proof.
  assert (Top : forall l x, scene_in l x -> x = l \/ exists gi ds b, In (SRProto gi ds b) l /\ scene_in b x).
  { intros l x H. inversion H; subst; [auto|right; eauto 6]. }
  apply root_reads_all; cbn [fst snd lone_root occs_root flat_map forallb].
  - intros inp e tab st i st' r R SF M L. destruct (items_facts inp (tab ++ e) SF) as (F & _). destruct (F _ _ _ _ R M L) as (G & I & M').
    split; [exact M'|]. split; [eapply good_same; [|exact G]; reflexivity|]. split; [exact SF|]. split.
    + intros; discriminate.
    + intros l Hl k Hk. constructor; [|apply Hl; exact Hk]. intros x Hx. apply Hk. apply I. exact Hx.
  - intros inp e tab st a af b bf n m Na Nb SF M _. split; [exact M|]. split; [|split; [exact SF|split]].
    + split; [|auto]. intros pre nm post Q. right. destruct pre as [|y [|z [|]]]; try discriminate; injection Q; intros; subst; unfold named; congruence.
    + intros; discriminate.
    + intros l Hl k Hk. constructor. apply Hl. exact Hk.
  - intros inp e tab st gi ds l mem inner stb body Pr D R IH Ds SF M L. apply andb_true_iff in L as [L1 L2].
    cbn [app fst snd] in IH. assert (M0 : mems_sf rs0) by constructor. destruct (IH SF M0 L2) as (_ & G & SFi & Sc & Ty).
    assert (Sf' : sf_names (types base ((tab ++ [(gi, PDef mem inner body)]) ++ e))).
    { intros g fs f Hg Hf K. unfold types in Hg. rewrite !map_app, <- !app_assoc in Hg. apply in_app_iff in Hg as [Hg|[Hg|Hg]].
      - apply (SF g fs f); auto. unfold types. rewrite map_app, <- app_assoc. apply in_or_app. auto.
      - injection Hg as <- <-. apply (pfields_sf mem inner body); [|exact Hf|exact K]. eapply decls_sf; [exact D|exact L1|]. intros ? ? [].
      - apply (SF g fs f); auto. unfold types. rewrite map_app, <- app_assoc. apply in_or_app. auto. }
    split; [exact M|]. split; [apply good_nil'|]. split; [exact Sf'|]. split.
    + intros g d b x H H2. injection H as <- <- <-. apply Top in H2 as [->|(g & d & b & H & H2)]; [|exact (Sc g d b x H H2)].
      apply defined_used. destruct G as (U & _). intros pre nm post Q.
      destruct (U pre nm post Q) as [H|H]; [auto|exfalso; apply H; reflexivity].
    + intros q Hq k Hk. constructor.
      * intros H. apply Hk in H. exact (not_known _ _ Pr H).
      * apply Ty. exact Hk.
      * apply Hq. intros x. cbn [In]. rewrite Hk. unfold known_types. rewrite !map_app, !in_app_iff. cbn. tauto.
  - intros inp e tab st gi ds url mem u Pr D _ SF M L.
    assert (Sf' : sf_names (types base ((tab ++ [(gi, PExt mem u)]) ++ e))).
    { intros g fs f Hg Hf K. unfold types in Hg. rewrite !map_app, <- !app_assoc in Hg. apply in_app_iff in Hg as [Hg|[Hg|Hg]].
      - apply (SF g fs f); auto. unfold types. rewrite map_app, <- app_assoc. apply in_or_app. auto.
      - injection Hg as <- <-. eapply own_sf; [|exact Hf|exact K]. eapply xdecls_sf; [exact D|exact L|]. intros ? ? [].
      - apply (SF g fs f); auto. unfold types. rewrite map_app, <- app_assoc. apply in_or_app. auto. }
    split; [exact M|]. split; [apply good_nil'|]. split; [exact Sf'|]. split; [intros; discriminate|].
    intros q Hq k Hk. constructor.
    + intros H. apply Hk in H. exact (not_known _ _ Pr H).
    + apply Hq. intros x. cbn [In]. rewrite Hk. unfold known_types. rewrite !map_app, !in_app_iff. cbn. tauto.
  - intros inp e s SF M _. split; [exact M|]. split; [apply good_nil'|]. split; [exact SF|]. split; [|constructor].
    intros ? ? ? ? [].
  - intros inp e s r s1 l s' _ IH1 _ IH2 SF M L. apply andb_true_iff in L as [L1 L2].
    destruct (IH1 SF M L1) as (M1 & G1 & S1 & C1 & T1). destruct (IH2 S1 M1 L2) as (M2 & G2 & S2 & C2 & T2).
    split; [exact M2|]. split; [eapply good_app; eassumption|]. split; [exact S2|]. split.
    + intros gi ds b x [->|H] H2; [exact (C1 gi ds b x eq_refl H2)|exact (C2 gi ds b x H H2)].
    + intros k Hk. apply T1; [|exact Hk]. intros k' Hk'. apply T2. exact Hk'.
Qed.
End Facts.

(** *** documents without PROTOs are read *)
Section Complete.
Variable P : prims.
Variable base : list (text * list fdecl).
Hypothesis Fine : forall gi fs, proto base gi = Some fs -> among gi not_types = false /\ NoDup (map f_name fs).
Lemma find_nodup fs f : NoDup (map f_name fs) -> In f fs -> find_field fs (f_name f) = Some f.
Proof.
  induction fs as [|g fs IH]; [contradiction|]. cbn [map find_field]. intros Nd [->|H]; [rewrite text_eqb_refl; reflexivity|].
  inversion Nd as [|? ? Ng Nd']; subst. destruct (text_eqb (f_name g) (f_name f)) eqn:E; [|auto].
  apply text_eqb_spec in E. exfalso. apply Ng. rewrite E. apply in_map. exact H.
Qed.
Lemma items_nodeish inp e st i st' r : item_reads P base inp e st i st' r -> nodeish i = true.
Proof. inversion 1; reflexivity. Qed.
Lemma later_reads :
  (forall st i st' r, item_reads P base false [] st i st' r -> later st st') /\
  (forall st l st' rs, items_read P base false [] st l st' rs -> later st st') /\
  (forall n gi fs st l st', attrs_read P base false [] n gi fs st l st' -> later st st') /\
  (forall st f its st' v, value_reads P base false [] st f its st' v -> later st st') /\
  (forall st ex ty its st' m, member_reads P base false [] st ex ty its st' m -> later st st') /\
  (forall n st ms l st' ms', sdecls_read P base false [] n st ms l st' ms' -> later st st') /\
  (forall n st l st', sattrs_read P base false [] n st l st' -> later st st').
Proof.
  assert (En : forall d gi st, later st (enter_node d gi st)) by (intros; eexists; reflexivity).
  apply item_reads_all; auto using later_refl.
  - intros st d gi fs l st' _ _ _ IH. exact (later_trans _ _ _ (En d gi st) IH).
  - intros st d l st1 ms st' _ IH1 [->|] _ IH2; [|discriminate]. exact (later_trans _ _ _ (later_trans _ _ _ (En d script_gi st) IH1) IH2).
  - intros st i st1 r l st' rs _ IH1 _ IH2. exact (later_trans _ _ _ IH1 IH2).
  - intros n gi fs st f its st1 v l st' _ _ IH1 _ IH2. exact (later_trans _ _ _ IH1 IH2).
  - intros n st ms ex ty nm its st1 m l st' ms' _ _ IH1 _ IH2. exact (later_trans _ _ _ IH1 IH2).
  - intros n st f its st1 v l st' _ _ IH1 _ IH2. exact (later_trans _ _ _ IH1 IH2).
Qed.
Lemma later_value st f its st' v : value_reads P base false [] st f its st' v -> later st st'.
Proof. apply later_reads. Qed.
Lemma later_member st ex ty its st' m : member_reads P base false [] st ex ty its st' m -> later st st'.
Proof. apply later_reads. Qed.
Lemma later_sdecls n st ms l st' ms' : sdecls_read P base false [] n st ms l st' ms' -> later st st'.
Proof. apply later_reads. Qed.
Lemma items_complete :
  (forall st i st' r, item_reads P base false [] st i st' r -> forall t b, erase t = et_item i -> names_item i = true -> holds st b ->
     exists b', build_item P base ctx0 t b = Ok (b', r) /\ holds st' b') /\
  (forall st its st' rs, items_read P base false [] st its st' rs -> forall l b, map erase l = map et_item its -> forallb names_item its = true -> holds st b ->
     exists b', b_items P base ctx0 l b = Ok (b', rs) /\ holds st' b') /\
  (forall n gi fs st al st', attrs_read P base false [] n gi fs st al st' -> NoDup (map f_name fs) ->
     forall l b, map erase l = map (fun p => T G_Attr [] [tname (fst p); et_val (snd p)]) al -> forallb names_attr al = true ->
     (exists d, nth_error (r_nodes st) n = Some (gi, d)) -> holds st b ->
     exists b', b_body P base ctx0 n gi fs l b = Ok b' /\ holds st' b') /\
  (forall st f its st' v, value_reads P base false [] st f its st' v -> forall l b, map erase l = map et_item its ->
     forallb names_item its = true -> holds st b ->
     exists b', build_value P (b_items P base ctx0) f l b = Ok (b', v) /\ holds st' b') /\
  (forall st ex ty its st' m, member_reads P base false [] st ex ty its st' m -> forall l b, map erase l = map et_item its ->
     forallb names_item its = true -> holds st b ->
     exists b', script_kind (b_items P base ctx0) ex ty l b = Ok (b', m) /\ holds st' b') /\
  (forall n st ms sl st' ms', sdecls_read P base false [] n st ms sl st' ms' -> forall l b, map erase l = map et_sel sl ->
     forallb names_sel sl = true -> n < r_next st -> holds st b ->
     exists b', b_sdecls P base ctx0 n l b ms = Ok (b', ms') /\ holds st' b') /\
  (forall n st sl st', sattrs_read P base false [] n st sl st' -> forall l b, map erase l = map et_sel sl ->
     forallb names_sel sl = true -> n < r_next st -> holds st b ->
     exists b', b_sattrs P base ctx0 n l b = Ok b' /\ holds st' b').
Proof.
  assert (Sfn : fty_of (lit "SFNode") = None) by reflexivity. assert (Mfn : fty_of (lit "MFNode") = None) by reflexivity.
  assert (Pe : forall its, forallb plain its = true -> match map et_item its with x :: _ => node_entry x | [] => false end = false).
  { intros [|i its] H; [reflexivity|]. cbn [forallb] in H. apply andb_true_iff in H as [H _]. apply plain_entry. exact H. }
  apply item_reads_all.
  - intros st t b Et _ H. apply erase_not_kept in Et as (s & l & -> & _). exists b. split; [reflexivity|exact H].
  - intros st nm n E t b Et Hn H. apply erase_kept in Et as (l & -> & _); [|reflexivity]. exists b. split; [|exact H].
    cbn [build_item]. rewrite (ds_names _ _ (proj1 H)), E; [reflexivity|]. intros ->. discriminate.
  - intros st d gi fs l st' Pr _ _ IH t b Et Hn H. destruct (Fine gi fs Pr) as (Nt & Nd). cbn [et_item] in Et.
    apply erase_not_kept in Et as (s & ch & -> & Ec). cbn [names_item] in Hn. apply andb_true_iff in Hn as [Hd Hn].
    assert (G : forall rest, map erase rest = map (fun p => T G_Attr [] [tname (fst p); et_val (snd p)]) l ->
      exists b', b_node P base ctx0 d gi rest b = Ok (b', RNode (r_next st)) /\ holds st' b').
    { intros rest Er. assert (Dn : forall nm, d = Some nm -> given nm = true) by (intros nm ->; exact Hd).
      pose proof (enter_holds d gi st b Dn H) as H1. pose proof (ds_next _ _ (proj1 H)) as Nx.
      destruct (IH Nd rest (name_node d (s_next b) (new_node gi b)) Er Hn) as (b' & E & H2).
      - eexists. cbn [enter_node r_nodes]. rewrite nth_snoc. unfold r_next. rewrite Nat.eqb_refl. reflexivity.
      - exact H1.
      - exists b'. split; [|exact H2]. unfold b_node. rewrite Nt. change (known base ctx0) with (types base []).
        rewrite Pr. cbn [inst_ok ctx0 c_env dget bind]. fold ctx0. rewrite Nx in *. rewrite E. reflexivity. }
    destruct d as [nm|]; cbn [app] in Ec.
    + apply erase_cons in Ec as (t1 & c1 & -> & Et1 & Ec). apply erase_leaf in Et1; [|reflexivity]. subst t1.
      apply erase_cons in Ec as (t2 & rest & -> & Et2 & Er). apply erase_kept in Et2 as (l2 & -> & _); [|reflexivity].
      unfold tname. rewrite build_node_named. exact (G rest Er).
    + apply erase_cons in Ec as (t2 & rest & -> & Et2 & Er). apply erase_kept in Et2 as (l2 & -> & _); [|reflexivity].
      rewrite build_node_plain. exact (G rest Er).
  - intros st d l st1 ms st' R1 IH1 Q R2 IH2 t b Et Hn H. destruct Q as [->|]; [|discriminate].
    cbn [et_item] in Et. apply erase_not_kept in Et as (s & ch & -> & Ec). cbn [names_item] in Hn. apply andb_true_iff in Hn as [Hd Hn].
    fold names_sel in Hn.
    assert (G : forall rest, map erase rest = map et_sel l ->
      exists b', b_script P base ctx0 d rest b = Ok (b', RNode (r_next st)) /\ holds st' b').
    { intros rest Er. assert (Dn : forall nm, d = Some nm -> given nm = true) by (intros nm ->; exact Hd).
      pose proof (enter_holds d script_gi st b Dn H) as H1. pose proof (ds_next _ _ (proj1 H)) as Nx.
      assert (Ln : r_next st < r_next (enter_node d script_gi st)) by (unfold r_next, enter_node; cbn [r_nodes]; rewrite app_length; cbn; lia).
      destruct (IH1 rest _ Er Hn Ln H1) as (b1 & E1 & H2).
      assert (Ln1 : r_next st < r_next st1) by (eapply later_lt; [eapply later_sdecls; exact R1|exact Ln]).
      destruct (IH2 rest b1 Er Hn Ln1 H2) as (b2 & E2 & H3).
      exists b2. split; [|exact H3]. unfold b_script. rewrite Nx in *. rewrite E1. cbn [bind fst snd]. rewrite E2. reflexivity. }
    destruct d as [nm|]; cbn [app] in Ec.
    + apply erase_cons in Ec as (t1 & c1 & -> & Et1 & Ec). apply erase_leaf in Et1; [|reflexivity]. subst t1.
      unfold tname. rewrite build_script. exact (G c1 Ec).
    + rewrite (build_script_plain P base ctx0 s ch l b Ec). exact (G ch Ec).
  - intros st l b El _ H. destruct l; [|discriminate]. exists b. split; [reflexivity|exact H].
  - intros st i st1 r l st' rs _ IH1 _ IH2 tl b El Hn H. apply erase_cons in El as (t & l' & -> & Et & El).
    cbn [forallb] in Hn. apply andb_true_iff in Hn as [Hn1 Hn2]. destruct (IH1 t b Et Hn1 H) as (b1 & E1 & H1).
    destruct (IH2 l' b1 El Hn2 H1) as (b2 & E2 & H2). exists b2. split; [|exact H2]. cbn [b_items]. rewrite E1. cbn [bind fst snd]. rewrite E2. reflexivity.
  - intros n gi fs st _ l b El _ _ H. destruct l; [|discriminate]. exists b. split; [reflexivity|exact H].
  - intros n gi fs st f its st1 v l st' Hf R IH1 _ IH2 Nd tl b El Hn (d & Nn) H.
    apply erase_cons in El as (t & l' & -> & Et & El). cbn [forallb] in Hn. apply andb_true_iff in Hn as [Hn1 Hn2].
    apply erase_not_kept in Et as (s0 & ch & -> & Ec). apply erase_cons in Ec as (t1 & ch1 & -> & Et1 & Ec).
    apply erase_cons in Ec as (t2 & ch2 & -> & Et2 & Ec). destruct ch2; [clear Ec|discriminate].
    apply erase_leaf in Et1; [|reflexivity]. subst t1. cbn [fst snd et_val] in *. apply erase_not_kept in Et2 as (s1 & vs & -> & Ev).
    destruct (IH1 vs b Ev Hn1 H) as (b1 & E1 & H1).
    assert (L1 : later st st1) by (eapply later_value; exact R). pose proof (later_nth _ _ _ _ L1 Nn) as Nn1.
    assert (A : assign base ctx0 n gi (f_name f) f v b1 = Ok (set_field n (f_name f) v b1)) by reflexivity.
    pose proof (set_value_holds base ctx0 n gi (f_name f) f v st1 b1 _ d H1 eq_refl Nn1 A) as H2. change (c_env ctx0) with (@nil (text * pdef)) in H2.
    destruct (IH2 Nd l' (set_field n (f_name f) v b1) El Hn2) as (b2 & E2 & H3).
    { exists d. unfold set_value. destruct (passed_on [] gi f); exact Nn1. }
    { exact H2. }
    exists b2. split; [|exact H3]. cbn [b_body b_attr tname]. rewrite (find_nodup fs f Nd Hf). rewrite E1. cbn [bind fst snd]. rewrite A. exact E2.
  - intros n gi fs st nm pn l st' Q. discriminate.
  - intros st f t d its v K Pl Rv l b El _ H. rewrite (erase_plains l its Pl El). exists b. split; [|exact H].
    unfold build_value. destruct its as [|i its]; cbn [map]; [rewrite K; cbn in Rv; rewrite Rv; reflexivity|].
    cbn [forallb] in Pl. apply andb_true_iff in Pl as [Pi _]. rewrite (plain_entry i Pi), K. cbn [map] in Rv. rewrite Rv. reflexivity.
  - intros st f i its st' r K R IH l b El Hn H. apply erase_cons in El as (t & l' & -> & Et & El). cbn [forallb] in Hn. apply andb_true_iff in Hn as [Hn _].
    destruct (IH t b Et Hn H) as (b1 & E1 & H1). exists b1. split; [|exact H1]. unfold build_value.
    rewrite (entry_tag t i Et), (items_nodeish _ _ _ _ _ _ R), K. cbn [b_items]. rewrite E1. reflexivity.
  - intros st f o its st' rs K R IH l b El Hn H. destruct (IH l b El Hn H) as (b1 & E1 & H1). exists b1. split; [|exact H1].
    unfold build_value. destruct l as [|x l].
    + rewrite K. cbn [b_items] in E1. injection E1 as <- <-. reflexivity.
    + destruct its as [|i its]; [discriminate|]. pose proof El as El0. cbn in El. injection El as Ex _. rewrite (entry_tag x i Ex).
      inversion R as [|? ? ? ? ? ? ? R1 _]; subst. rewrite (items_nodeish _ _ _ _ _ _ R1), K, E1. reflexivity.
  - intros st f o its K Pl l b El _ H. rewrite (erase_plains l its Pl El). exists b. split; [|exact H].
    unfold build_value. destruct its as [|i its]; cbn [map]; [rewrite K; reflexivity|].
    cbn [forallb] in Pl. apply andb_true_iff in Pl as [Pi _]. rewrite (plain_entry i Pi), K. reflexivity.
  - intros st ex ty t its v F Pl Hv l b El _ H. rewrite (erase_plains l its Pl El). exists b. split; [|exact H].
    unfold script_kind. rewrite (Pe its Pl).
    destruct (text_eqb ty (lit "SFNode")) eqn:E1; [apply text_eqb_spec in E1; subst; congruence|].
    destruct (text_eqb ty (lit "MFNode")) eqn:E2; [apply text_eqb_spec in E2; subst; congruence|]. rewrite F, Hv. reflexivity.
  - intros st ex i its st' r R IH l b El Hn H. apply erase_cons in El as (t & l' & -> & Et & El). cbn [forallb] in Hn. apply andb_true_iff in Hn as [Hn _].
    destruct (IH t b Et Hn H) as (b1 & E1 & H1). exists b1. split; [|exact H1]. unfold script_kind. rewrite text_eqb_refl.
    rewrite (entry_tag t i Et), (items_nodeish _ _ _ _ _ _ R). cbn [b_items]. rewrite E1. reflexivity.
  - intros st ex its st' rs R IH l b El Hn H. destruct (IH l b El Hn H) as (b1 & E1 & H1). exists b1. split; [|exact H1].
    unfold script_kind. change (text_eqb (lit "MFNode") (lit "SFNode")) with false. cbv iota. rewrite text_eqb_refl. destruct l as [|x l].
    + cbn [b_items] in E1. injection E1 as <- <-. reflexivity.
    + destruct its as [|i its]; [discriminate|]. pose proof El as El0. cbn in El. injection El as Ex _. rewrite (entry_tag x i Ex).
      inversion R as [|? ? ? ? ? ? ? R1 _]; subst. rewrite (items_nodeish _ _ _ _ _ _ R1), E1. reflexivity.
  - intros st ex its Pl l b El _ H. rewrite (erase_plains l its Pl El). exists b. split; [|exact H].
    unfold script_kind. rewrite (Pe its Pl). reflexivity.
  - intros n st ms l b El _ _ H. destruct l; [|discriminate]. exists b. split; [reflexivity|exact H].
  - intros n st ms ex ty nm its st1 m l st' ms' Fr R1 IH1 _ IH2 tl b El Hn L H.
    apply erase_cons in El as (t & l' & -> & Et & El). cbn [forallb] in Hn. apply andb_true_iff in Hn as [Hn1 Hn2].
    cbn [et_sel et_val] in Et. apply erase_not_kept in Et as (s0 & ch & -> & Ec).
    apply erase_cons in Ec as (t1 & c1 & -> & Q1 & Ec).
    apply erase_cons in Ec as (t2 & c2 & -> & Q2 & Ec). apply erase_cons in Ec as (t3 & c3 & -> & Q3 & Ec).
    apply erase_cons in Ec as (t4 & c4 & -> & Q4 & Ec). destruct c4; [clear Ec|discriminate].
    apply erase_leaf in Q1; [|reflexivity]. apply erase_kept in Q2 as (ch2 & -> & _); [|reflexivity]. apply erase_leaf in Q3; [|reflexivity].
    subst t1 t3. apply erase_not_kept in Q4 as (s4 & vs & -> & Q4).
    destruct (IH1 vs b Q4 Hn1 H) as (b1 & E1 & H1).
    assert (L1 : n < r_next st1) by (eapply later_lt; [eapply later_member; exact R1|exact L]).
    destruct (IH2 l' _ El Hn2 L1 (member_holds n nm m st1 b1 H1 L1)) as (b2 & E2 & H2). exists b2. split; [|exact H2].
    cbn [b_sdecls b_sdecl tname]. rewrite exposure_eq, E1. cbn [bind fst snd]. rewrite Fr. cbn [bind fst snd]. exact E2.
  - intros n st ms ex ty nm k pn l st' ms' Fr K _ IH tl b El Hn L H.
    apply erase_cons in El as (t & l' & -> & Et & El). cbn [forallb] in Hn. apply andb_true_iff in Hn as [Hn1 Hn2].
    cbn [et_sel et_val] in Et. apply erase_not_kept in Et as (s0 & ch & -> & Ec).
    apply erase_cons in Ec as (t1 & c1 & -> & Q1 & Ec).
    apply erase_cons in Ec as (t2 & c2 & -> & Q2 & Ec). apply erase_cons in Ec as (t3 & c3 & -> & Q3 & Ec).
    apply erase_cons in Ec as (t4 & c4 & -> & Q4 & Ec). destruct c4; [clear Ec|discriminate].
    apply erase_leaf in Q1; [|reflexivity]. apply erase_kept in Q2 as (ch2 & -> & _); [|reflexivity]. apply erase_leaf in Q3; [|reflexivity].
    subst t1 t3. apply erase_kept in Q4 as (l4 & -> & _); [|reflexivity].
    destruct (IH l' _ El Hn2 L (member_holds n nm _ st b H L)) as (b2 & E2 & H2). exists b2. split; [|exact H2].
    cbn [b_sdecls b_sdecl tname]. rewrite exposure_eq, K, Fr. cbn [bind fst snd]. exact E2.
  - intros n st ms out ty nm pn l st' ms' Fr K _ IH tl b El Hn L H.
    apply erase_cons in El as (t & l' & -> & Et & El). cbn [forallb] in Hn. apply andb_true_iff in Hn as [Hn1 Hn2].
    cbn [et_sel] in Et. apply erase_not_kept in Et as (s0 & ch & -> & Ec).
    apply erase_cons in Ec as (t1 & c1 & -> & Q1 & Ec).
    apply erase_cons in Ec as (t2 & c2 & -> & Q2 & Ec). apply erase_cons in Ec as (t3 & im & -> & Q3 & Ec).
    apply erase_leaf in Q1; [|reflexivity]. apply erase_kept in Q2 as (ch2 & -> & _); [|reflexivity]. apply erase_leaf in Q3; [|reflexivity].
    subst t1 t3.
    assert (Im : match im with T _ pn _ :: _ => [(pn, nm)] | [] => [] end = match pn with Some pn => [(pn, nm)] | None => [] end).
    { destruct pn as [pn|]; [|destruct im; [reflexivity|discriminate]]. apply erase_cons in Ec as (t4 & c4 & -> & Q4 & _).
      apply erase_kept in Q4 as (l4 & -> & _); reflexivity. }
    destruct (IH l' _ El Hn2 L (member_holds n nm _ st b H L)) as (b2 & E2 & H2). exists b2. split; [|exact H2].
    cbn [b_sdecls b_sdecl tname]. destruct Fr as (Fr & Nb). rewrite direction_eq, Fr, Im.
    assert (existsb (fun f => text_eqb (f_name f) nm) script_base = false) as ->.
    { destruct (existsb _ _) eqn:E; [|reflexivity]. apply existsb_exists in E as (f & Hf & E). apply text_eqb_spec in E. subst nm.
      exfalso. apply Nb. apply in_map. exact Hf. }
    assert (is_type ty = true) as -> by (unfold is_type; destruct (kind_of ty); congruence).
    cbn [orb negb bind fst snd]. exact E2.
  - intros n st ms nm v l st' ms' _ IH tl b El Hn L H. apply erase_cons in El as (t & l' & -> & Et & El). cbn [forallb] in Hn. apply andb_true_iff in Hn as [_ Hn2].
    cbn [et_sel] in Et. apply erase_not_kept in Et as (s0 & ch & -> & Ec). destruct (IH l' b El Hn2 L H) as (b2 & E2 & H2). exists b2. split; [|exact H2].
    cbn [b_sdecls b_sdecl bind fst snd]. exact E2.
  - intros n st l b El _ _ H. destruct l; [|discriminate]. exists b. split; [reflexivity|exact H].
  - intros n st x l st' X _ IH tl b El Hn L H. apply erase_cons in El as (t & l' & -> & Et & El). cbn [forallb] in Hn. apply andb_true_iff in Hn as [_ Hn2].
    destruct (IH l' b El Hn2 L H) as (b2 & E2 & H2). exists b2. split; [|exact H2].
    destruct x; try destruct X; cbn [et_sel] in Et; apply erase_not_kept in Et as (s0 & ch & -> & Ec); exact E2.
  - intros n st f its st1 v l st' F R IH1 _ IH2 tl b El Hn L H.
    apply erase_cons in El as (t & l' & -> & Et & El). cbn [forallb] in Hn. apply andb_true_iff in Hn as [Hn1 Hn2].
    cbn [et_sel et_val] in Et. apply erase_not_kept in Et as (s0 & ch & -> & Ec). apply erase_cons in Ec as (t1 & ch1 & -> & Et1 & Ec).
    apply erase_cons in Ec as (t2 & ch2 & -> & Et2 & Ec). destruct ch2; [clear Ec|discriminate].
    apply erase_leaf in Et1; [|reflexivity]. subst t1. apply erase_not_kept in Et2 as (s1 & vs & -> & Ev).
    destruct (IH1 vs b Ev Hn1 H) as (b1 & E1 & H1).
    assert (L1 : n < r_next st1) by (eapply later_lt; [eapply later_value; exact R|exact L]).
    destruct (IH2 l' _ El Hn2 L1 (set_one_holds n (f_name f) v st1 b1 H1 L1)) as (b2 & E2 & H2). exists b2. split; [|exact H2].
    cbn [b_sattrs b_sattr tname]. rewrite (proj2 (script_find_spec st b n (f_name f) f H L) (conj eq_refl F)), E1. cbn [bind fst snd]. exact E2.
  - intros n st nm pn l st' Q. discriminate.
Qed.
Lemma roots_complete rl : forall l tab st b s', roots_read P base false [] ([], st) rl s' -> forallb no_proto rl = true -> forallb names_root rl = true ->
  map erase l = map et_root rl -> holds st b -> tab = [] ->
  exists b', build_scene P base ctx0 l (tab, b) = Ok ([], b') /\ fst s' = [] /\ holds (snd s') b'.
Proof.
  induction rl as [|r rl IH]; intros l tab st b s' R Np Hn El H ->.
  - inversion R; subst. destruct l; [|discriminate]. exists b. auto.
  - apply erase_cons in El as (t & l' & -> & Et & El). cbn [forallb] in *. apply andb_true_iff in Hn as [Hn1 Hn2], Np as [Np1 Np2].
    inversion R as [|? ? ? ? s1 ? ? R1 R2]; subst.
    assert (exists b1 st1, build_root P base ctx0 t ([], b) = Ok ([], b1) /\ s1 = ([], st1) /\ holds st1 b1) as (b1 & st1 & E1 & -> & H1).
    { unfold et_root in Et. apply erase_not_kept in Et as (s & ch & -> & Ec). apply erase_cons in Ec as (t1 & c1 & -> & Et & Ec).
      destruct c1; [clear Ec|discriminate]. rewrite build_root_item. cbn [build_scene].
      inversion R1 as [? ? ? ? i st1 r1 RI|? ? ? ? a af b0 bf n m Na Nb| |]; subst; cbn [app] in *.
      - cbn [et_sroot names_root] in *. destruct (proj1 items_complete _ _ _ _ RI t1 b Et Hn1 H) as (b1 & E1 & H1).
        exists (add_kid r1 b1), (with_kid r1 st1). split; [|split; [reflexivity|apply kid_holds; exact H1]].
        assert (build_root P base ctx0 t1 ([], b) = Ok ([], add_kid r1 b1)) as ->; [|reflexivity].
        pose proof (items_nodeish _ _ _ _ _ _ RI) as Ni. pose proof (entry_tag t1 i Et) as Ne. rewrite Ni in Ne.
        destruct t1 as [tag sp ch]. cbn [build_root fst snd]. unfold inside. cbn [ctx0 c_in c_env c_outer fst app]. fold ctx0.
        destruct tag; try discriminate; rewrite E1; reflexivity.
      - cbn [et_sroot] in Et. apply erase_not_kept in Et as (s0 & ch & -> & Ec).
        apply erase_cons in Ec as (u1 & c1 & -> & Q1 & Ec). apply erase_cons in Ec as (u2 & c2 & -> & Q2 & Ec).
        apply erase_cons in Ec as (u3 & c3 & -> & Q3 & Ec). apply erase_cons in Ec as (u4 & c4 & -> & Q4 & Ec). destruct c4; [clear Ec|discriminate].
        apply erase_leaf in Q1; [|reflexivity]. apply erase_leaf in Q2; [|reflexivity]. apply erase_leaf in Q3; [|reflexivity].
        apply erase_leaf in Q4; [|reflexivity]. subst. cbn [names_root] in Hn1. apply andb_true_iff in Hn1 as [Ha Hb].
        exists (add_route ((n, af), (m, bf)) b), (with_route ((n, af), (m, bf)) st). split; [|split; [reflexivity|apply route_holds; exact H]].
        cbn [build_root fst snd build_route tname].
        rewrite !(ds_names _ _ (proj1 H)), Na, Nb by (intros ->; discriminate). reflexivity.
      - discriminate.
      - discriminate. }
    destruct (IH l' [] st1 b1 s' R2 Np2 Hn2 El H1 eq_refl) as (b2 & E2 & F & H2). exists b2. split; [|auto]. cbn [build_scene]. rewrite E1. exact E2.
Qed.
End Complete.

(** *** the scene does not depend on the layout *)
Section Same.
Variable P : prims.
Variable base : list (text * list fdecl).
Definition i_same (i : sitem) : Prop := forall t t', erase t = et_item i -> erase t' = et_item i -> tidy i = true ->
  forall c b, build_item P base c t b = build_item P base c t' b.
Lemma items_same its : Forall i_same its -> forall l l', map erase l = map et_item its -> map erase l' = map et_item its ->
  forallb tidy its = true -> forall c b, b_items P base c l b = b_items P base c l' b.
Proof.
  induction 1 as [|i its Hi _ IH]; intros l l' E E' Ht c b.
  - destruct l, l'; try discriminate. reflexivity.
  - apply erase_cons in E as (t & l1 & -> & Et & El), E' as (t' & l1' & -> & Et' & El'). cbn [forallb] in Ht. apply andb_true_iff in Ht as [H1 H2].
    cbn [b_items]. rewrite (Hi t t' Et Et' H1). apply bind_ext. intros [b1 r]. cbn [fst snd]. rewrite (IH l1 l1' El El' H2). reflexivity.
Qed.
Lemma value_same its : Forall i_same its -> forall f l l', map erase l = map et_item its -> map erase l' = map et_item its ->
  tidy_value its = true -> forallb tidy its = true -> forall c b,
  build_value P (b_items P base c) f l b = build_value P (b_items P base c) f l' b.
Proof.
  intros Hi f l l' E E' Tv Ht c b. destruct its as [|i its].
  - destruct l, l'; try discriminate. reflexivity.
  - cbn [tidy_value] in Tv. destruct (nodeish i) eqn:Ni.
    + pose proof (items_same (i :: its) Hi l l' E E' Ht c b) as Eq. apply erase_cons in E as (t & l1 & -> & Et & El), E' as (t' & l1' & -> & Et' & El').
      unfold build_value. rewrite (entry_tag t i Et), (entry_tag t' i Et'), Ni. destruct (f_kind f); [reflexivity| |rewrite Eq; reflexivity].
      inversion Hi as [|? ? Hi1 _]; subst. cbn [b_items]. cbn [forallb] in Ht. apply andb_true_iff in Ht as [H1 _]. rewrite (Hi1 t t' Et Et' H1). reflexivity.
    + rewrite (erase_plains l _ Tv E), (erase_plains l' _ Tv E'). reflexivity.
Qed.
Lemma attrs_same al : (forall nm its, In (nm, SVal its) al -> Forall i_same its) -> forall l l',
  map erase l = map (fun p => T G_Attr [] [tname (fst p); et_val (snd p)]) al ->
  map erase l' = map (fun p => T G_Attr [] [tname (fst p); et_val (snd p)]) al ->
  forallb (fun p => match snd p with SVal its => tidy_value its && forallb tidy its | SIs _ => true end) al = true ->
  forall c n gi fs b, b_body P base c n gi fs l b = b_body P base c n gi fs l' b.
Proof.
  induction al as [|[nm sv] al IH]; intros Hi l l' E E' Ht c n gi fs b.
  - destruct l, l'; try discriminate. reflexivity.
  - apply erase_cons in E as (t & l1 & -> & Et & El), E' as (t' & l1' & -> & Et' & El'). cbn [forallb fst snd] in Ht. apply andb_true_iff in Ht as [H1 H2].
    assert (Dec : forall t, erase t = T G_Attr [] [tname nm; et_val sv] -> exists s v, t = T G_Attr s [tname nm; v] /\ erase v = et_val sv).
    { clear. intros t Et. apply erase_not_kept in Et as (s0 & ch & -> & Ec). apply erase_cons in Ec as (t1 & ch1 & -> & Et1 & Ec).
      apply erase_cons in Ec as (t2 & ch2 & -> & Et2 & Ec). destruct ch2; [clear Ec|discriminate].
      apply erase_leaf in Et1; [|reflexivity]. subst t1. eauto. }
    apply Dec in Et as (s & v & -> & Ev), Et' as (s' & v' & -> & Ev').
    cbn [b_body b_attr tname].
    assert (Q : b_attr P base c n gi fs (T G_Attr s [T G_name nm []; v]) b = b_attr P base c n gi fs (T G_Attr s' [T G_name nm []; v']) b).
    { destruct sv as [its|pn]; cbn [et_val] in Ev, Ev'.
      - apply erase_not_kept in Ev as (s1 & vs & -> & Ev), Ev' as (s1' & vs' & -> & Ev'). apply andb_true_iff in H1 as [Tv Tl]. cbn [b_attr].
        destruct (find_field fs nm) as [f|]; [|reflexivity].
        rewrite (value_same its (Hi nm its (or_introl eq_refl)) f vs vs' Ev Ev' Tv Tl). reflexivity.
      - apply erase_kept in Ev as (l2 & -> & _); [|reflexivity]. apply erase_kept in Ev' as (l2' & -> & _); reflexivity. }
    cbn [b_attr] in Q. rewrite Q. apply bind_ext. intros b1. apply (IH (fun nm' its' R => Hi nm' its' (or_intror R))); assumption.
Qed.
Lemma kind_same' its : Forall i_same its -> forall ex ty l l', map erase l = map et_item its -> map erase l' = map et_item its ->
  tidy_value its = true -> forallb tidy its = true -> forall c b,
  script_kind (b_items P base c) ex ty l b = script_kind (b_items P base c) ex ty l' b.
Proof.
  intros Hi ex ty l l' E E' Tv Ht c b. destruct its as [|i its].
  - destruct l, l'; try discriminate. reflexivity.
  - cbn [tidy_value] in Tv. destruct (nodeish i) eqn:Ni.
    + pose proof (items_same (i :: its) Hi l l' E E' Ht c b) as Eq. apply erase_cons in E as (t & l1 & -> & Et & El), E' as (t' & l1' & -> & Et' & El').
      unfold script_kind. rewrite (entry_tag t i Et), (entry_tag t' i Et'), Ni. inversion Hi as [|? ? Hi1 _]; subst.
      cbn [forallb] in Ht. apply andb_true_iff in Ht as [H1 _]. destruct (text_eqb ty (lit "SFNode")).
      * cbn [b_items]. rewrite (Hi1 t t' Et Et' H1). reflexivity.
      * destruct (text_eqb ty (lit "MFNode")); [|reflexivity]. rewrite Eq. reflexivity.
    + rewrite (erase_plains l _ Tv E), (erase_plains l' _ Tv E'). reflexivity.
Qed.
Lemma sel_dec x t : erase t = et_sel x ->
  match x with
  | SSField ex ty nm v => exists s c2 v', t = T G_ScriptFieldDecl s [T G_fieldExposure (exposure ex) []; T G_dataType ty c2; tname nm; v'] /\ erase v' = et_val v
  | SSEvent out ty nm pn => exists s c2 im, t = T G_ScriptEventDecl s (T G_eventDirection (direction out) [] :: T G_dataType ty c2 :: tname nm :: im) /\
      match im with T _ q _ :: _ => [(q, nm)] | [] => [] end = match pn with Some q => [(q, nm)] | None => [] end
  | SSAttr nm v => exists s v', t = T G_Attr s [tname nm; v'] /\ erase v' = et_val v
  end.
Proof.
  destruct x as [ex ty nm v|out ty nm pn|nm v]; cbn [et_sel]; intros Et; apply erase_not_kept in Et as (s0 & ch & -> & Ec).
  - apply erase_cons in Ec as (t1 & c1 & -> & Q1 & Ec).
    apply erase_cons in Ec as (t2 & c2 & -> & Q2 & Ec). apply erase_cons in Ec as (t3 & c3 & -> & Q3 & Ec).
    apply erase_cons in Ec as (t4 & c4 & -> & Q4 & Ec). destruct c4; [clear Ec|discriminate].
    apply erase_leaf in Q1; [|reflexivity]. apply erase_kept in Q2 as (ch2 & -> & _); [|reflexivity]. apply erase_leaf in Q3; [|reflexivity].
    subst t1 t3. eauto 6.
  - apply erase_cons in Ec as (t1 & c1 & -> & Q1 & Ec).
    apply erase_cons in Ec as (t2 & c2 & -> & Q2 & Ec). apply erase_cons in Ec as (t3 & im & -> & Q3 & Ec).
    apply erase_leaf in Q1; [|reflexivity]. apply erase_kept in Q2 as (ch2 & -> & _); [|reflexivity]. apply erase_leaf in Q3; [|reflexivity].
    subst t1 t3. do 3 eexists. split; [reflexivity|].
    destruct pn as [pn|]; [|destruct im; [reflexivity|discriminate]]. apply erase_cons in Ec as (t4 & c4 & -> & Q4 & _).
    apply erase_kept in Q4 as (l4 & -> & _); reflexivity.
  - apply erase_cons in Ec as (t1 & ch1 & -> & Et1 & Ec).
    apply erase_cons in Ec as (t2 & ch2 & -> & Et2 & Ec). destruct ch2; [clear Ec|discriminate].
    apply erase_leaf in Et1; [|reflexivity]. subst t1. eauto.
Qed.
Lemma sdecls_same sl : (forall x, In x sl -> Forall i_same (sel_its x)) -> forall l l', map erase l = map et_sel sl -> map erase l' = map et_sel sl ->
  forallb tidy_sel sl = true -> forall c n b ms, b_sdecls P base c n l b ms = b_sdecls P base c n l' b ms.
Proof.
  induction sl as [|x sl IH]; intros Hi l l' E E' Ht c n b ms.
  - destruct l, l'; try discriminate. reflexivity.
  - apply erase_cons in E as (t & l1 & -> & Et & El), E' as (t' & l1' & -> & Et' & El'). cbn [forallb] in Ht. apply andb_true_iff in Ht as [H1 H2].
    cbn [b_sdecls].
    assert (Q : b_sdecl P base c n t b ms = b_sdecl P base c n t' b ms).
    { pose proof (Hi x (or_introl eq_refl)) as Hx. apply sel_dec in Et, Et'. destruct x as [ex ty nm v|out ty nm pn|nm v].
      - destruct Et as (s & c2 & v1 & -> & Ev), Et' as (s' & c2' & v1' & -> & Ev'). destruct v as [its|pn]; cbn [et_val] in Ev, Ev'.
        + apply erase_not_kept in Ev as (s1 & vs & -> & Ev), Ev' as (s1' & vs' & -> & Ev'). cbn [tidy_sel] in H1. apply andb_true_iff in H1 as [Tv Tl].
          cbn [b_sdecl tname]. rewrite (kind_same' its Hx _ ty vs vs' Ev Ev' Tv Tl). reflexivity.
        + apply erase_kept in Ev as (l2 & -> & _); [|reflexivity]. apply erase_kept in Ev' as (l2' & -> & _); reflexivity.
      - destruct Et as (s & c2 & im & -> & Im), Et' as (s' & c2' & im' & -> & Im'). cbn [b_sdecl tname]. rewrite Im, Im'. reflexivity.
      - destruct Et as (s & v1 & -> & _), Et' as (s' & v1' & -> & _). reflexivity. }
    rewrite Q. apply bind_ext. intros p. apply IH; auto. intros y Hy. apply Hi. right. exact Hy.
Qed.
Lemma sattrs_same sl : (forall x, In x sl -> Forall i_same (sel_its x)) -> forall l l', map erase l = map et_sel sl -> map erase l' = map et_sel sl ->
  forallb tidy_sel sl = true -> forall c n b, b_sattrs P base c n l b = b_sattrs P base c n l' b.
Proof.
  induction sl as [|x sl IH]; intros Hi l l' E E' Ht c n b.
  - destruct l, l'; try discriminate. reflexivity.
  - apply erase_cons in E as (t & l1 & -> & Et & El), E' as (t' & l1' & -> & Et' & El'). cbn [forallb] in Ht. apply andb_true_iff in Ht as [H1 H2].
    cbn [b_sattrs].
    assert (Q : b_sattr P base c n t b = b_sattr P base c n t' b).
    { pose proof (Hi x (or_introl eq_refl)) as Hx. apply sel_dec in Et, Et'. destruct x as [ex ty nm v|out ty nm pn|nm v].
      - destruct Et as (s & c2 & v1 & -> & Ev), Et' as (s' & c2' & v1' & -> & Ev'). reflexivity.
      - destruct Et as (s & c2 & im & -> & Im), Et' as (s' & c2' & im' & -> & Im'). reflexivity.
      - destruct Et as (s & v1 & -> & Ev), Et' as (s' & v1' & -> & Ev'). destruct v as [its|pn]; cbn [et_val] in Ev, Ev'.
        + apply erase_not_kept in Ev as (s1 & vs & -> & Ev), Ev' as (s1' & vs' & -> & Ev'). cbn [tidy_sel] in H1. apply andb_true_iff in H1 as [Tv Tl].
          cbn [b_sattr tname]. destruct (script_find _ nm) as [f|]; [|reflexivity]. rewrite (value_same its Hx f vs vs' Ev Ev' Tv Tl). reflexivity.
        + apply erase_kept in Ev as (l2 & -> & _); [|reflexivity]. apply erase_kept in Ev' as (l2' & -> & _); reflexivity. }
    rewrite Q. apply bind_ext. intros p. apply IH; auto. intros y Hy. apply Hi. right. exact Hy.
Qed.
Lemma item_same i : i_same i.
Proof.
  induction i as [x|x| |x|nm|d gi l H|d l H] using sitem_all; intros t t' E E' Ht c b.
  - apply erase_leaf in E; [|reflexivity]. apply erase_leaf in E'; [|reflexivity]. subst. reflexivity.
  - apply erase_leaf in E; [|reflexivity]. apply erase_leaf in E'; [|reflexivity]. subst. reflexivity.
  - apply erase_not_kept in E as (s & l & -> & _), E' as (s' & l' & -> & _). reflexivity.
  - apply erase_kept in E as (l & -> & _); [|reflexivity]. apply erase_kept in E' as (l' & -> & _); reflexivity.
  - apply erase_kept in E as (l & -> & _); [|reflexivity]. apply erase_kept in E' as (l' & -> & _); reflexivity.
  - cbn [et_item] in E, E'. apply erase_not_kept in E as (s & ch & -> & Ec), E' as (s' & ch' & -> & Ec').
    assert (G : forall r r', map erase r = map (fun p => T G_Attr [] [tname (fst p); et_val (snd p)]) l ->
      map erase r' = map (fun p => T G_Attr [] [tname (fst p); et_val (snd p)]) l ->
      b_node P base c d gi r b = b_node P base c d gi r' b).
    { intros r r' R R'. unfold b_node. destruct (among gi not_types); [reflexivity|]. destruct (proto (known base c) gi); [|reflexivity].
      destruct (inst_ok base c gi); [|reflexivity]. cbn [bind]. rewrite (attrs_same l H r r' R R' Ht). reflexivity. }
    destruct d as [nm|]; cbn [app] in Ec, Ec'.
    + apply erase_cons in Ec as (t1 & c1 & -> & Et1 & Ec), Ec' as (t1' & c1' & -> & Et1' & Ec').
      apply erase_leaf in Et1; [|reflexivity]. apply erase_leaf in Et1'; [|reflexivity]. subst.
      apply erase_cons in Ec as (t2 & rest & -> & Et2 & Er), Ec' as (t2' & rest' & -> & Et2' & Er').
      apply erase_kept in Et2 as (l2 & -> & _); [|reflexivity]. apply erase_kept in Et2' as (l2' & -> & _); [|reflexivity].
      unfold tname. rewrite !build_node_named. apply G; assumption.
    + apply erase_cons in Ec as (t2 & rest & -> & Et2 & Er), Ec' as (t2' & rest' & -> & Et2' & Er').
      apply erase_kept in Et2 as (l2 & -> & _); [|reflexivity]. apply erase_kept in Et2' as (l2' & -> & _); [|reflexivity].
      rewrite !build_node_plain. apply G; assumption.
  - cbn [et_item] in E, E'. apply erase_not_kept in E as (s & ch & -> & Ec), E' as (s' & ch' & -> & Ec'). cbn [tidy] in Ht. fold tidy_sel in Ht.
    assert (G : forall r r', map erase r = map et_sel l -> map erase r' = map et_sel l -> b_script P base c d r b = b_script P base c d r' b).
    { intros r r' R R'. unfold b_script. rewrite (sdecls_same l H r r' R R' Ht). apply bind_ext. intros p. apply bind_ext. intros b1.
      rewrite (sattrs_same l H r r' R R' Ht). reflexivity. }
    destruct d as [nm|]; cbn [app] in Ec, Ec'.
    + apply erase_cons in Ec as (t1 & c1 & -> & Et1 & Ec), Ec' as (t1' & c1' & -> & Et1' & Ec').
      apply erase_leaf in Et1; [|reflexivity]. apply erase_leaf in Et1'; [|reflexivity]. subst.
      unfold tname. rewrite !build_script. apply G; assumption.
    + rewrite (build_script_plain P base c s ch l b Ec), (build_script_plain P base c s' ch' l b Ec'). apply G; assumption.
Qed.
Lemma kind_same ty its l l' : map erase l = map et_item its -> map erase l' = map et_item its -> tidy_value its = true -> decl_kind ty l = decl_kind ty l'.
Proof.
  intros E E' Tv. destruct its as [|i its].
  - destruct l, l'; try discriminate. reflexivity.
  - cbn [tidy_value] in Tv. destruct (nodeish i) eqn:Ni; [|rewrite (erase_plains l _ Tv E), (erase_plains l' _ Tv E'); reflexivity].
    apply erase_cons in E as (t & l1 & -> & Et & El), E' as (t' & l1' & -> & Et' & El').
    pose proof (entry_tag t i Et) as N1. pose proof (entry_tag t' i Et') as N2. rewrite Ni in N1, N2. unfold decl_kind. rewrite N1, N2.
    assert (Tg : match t, t' with T g _ _, T g' _ _ => g = g' end).
    { destruct t as [g s ch], t' as [g' s' ch']. rewrite erase_eq in Et, Et'. rewrite <- Et' in Et. injection Et as -> _ _. reflexivity. }
    destruct t as [g s ch], t' as [g' s' ch']. subst g'. destruct (text_eqb ty (lit "SFNode")); [destruct g; reflexivity|].
    destruct (text_eqb ty (lit "MFNode")); [reflexivity|]. destruct (fty_of ty); reflexivity.
Qed.
Lemma decls_same c ds : forall l l' s r s' r' mem, map erase l = map et_decl ds -> map erase l' = map et_decl ds -> forallb tidy_decl ds = true ->
  build_scene P base c r file0 = build_scene P base c r' file0 ->
  b_declared P base c (l ++ [T G_vrmlScene s r]) mem = b_declared P base c (l' ++ [T G_vrmlScene s' r']) mem.
Proof.
  induction ds as [|d ds IH]; intros l l' s r s' r' mem E E' Td Eq.
  - destruct l, l'; try discriminate. cbn [app b_declared]. rewrite Eq. reflexivity.
  - apply erase_cons in E as (t & l1 & -> & Et & El), E' as (t' & l1' & -> & Et' & El'). cbn [forallb app] in *. apply andb_true_iff in Td as [Td1 Td2].
    assert (Nv : forall t x, erase t = et_decl d -> b_declared P base c (t :: x) mem = bind (decl t mem) (b_declared P base c x)).
    { clear. intros [tag sp ch] x Et. cbn [b_declared].
      assert (tag <> G_vrmlScene) by (destruct d; cbn in Et; injection Et as -> _ _; discriminate). destruct tag; try contradiction; reflexivity. }
    rewrite (Nv t _ Et), (Nv t' _ Et').
    assert (Dq : decl t mem = decl t' mem).
    { destruct d as [ex ty nm its|out ty nm]; cbn [et_decl tidy_decl] in *.
      - assert (Dc : forall t, erase t = T G_fieldDecl [] [T G_fieldExposure (exposure ex) []; et_type ty; tname nm; T G_Field [] (map et_item its)] ->
          exists s c2 s4 l4, t = T G_fieldDecl s [T G_fieldExposure (exposure ex) []; T G_dataType ty c2; tname nm; T G_Field s4 l4] /\ map erase l4 = map et_item its).
        { clear. intros t Et. apply erase_not_kept in Et as (s0 & ch & -> & Ec). apply erase_cons in Ec as (t1 & c1 & -> & Q1 & Ec).
          apply erase_cons in Ec as (t2' & c2 & -> & Q2 & Ec). apply erase_cons in Ec as (t3 & c3 & -> & Q3 & Ec).
          apply erase_cons in Ec as (t4 & c4 & -> & Q4 & Ec). destruct c4; [clear Ec|discriminate].
          apply erase_leaf in Q1; [|reflexivity]. apply erase_kept in Q2 as (ch2 & -> & _); [|reflexivity]. apply erase_leaf in Q3; [|reflexivity].
          apply erase_not_kept in Q4 as (s4 & l4 & -> & Q4). subst. eauto 8. }
        apply Dc in Et as (s0 & c2 & s4 & l4 & -> & Q), Et' as (s0' & c2' & s4' & l4' & -> & Q'). cbn [decl tname].
        rewrite (kind_same ty its l4 l4' Q Q' Td1). reflexivity.
      - assert (Dc : forall t, erase t = T G_eventDecl [] [T G_eventDirection (direction out) []; et_type ty; tname nm] ->
          exists s c2, t = T G_eventDecl s [T G_eventDirection (direction out) []; T G_dataType ty c2; tname nm]).
        { clear. intros t Et. apply erase_not_kept in Et as (s0 & ch & -> & Ec). apply erase_cons in Ec as (t1 & c1 & -> & Q1 & Ec).
          apply erase_cons in Ec as (t2' & c2 & -> & Q2 & Ec). apply erase_cons in Ec as (t3 & c3 & -> & Q3 & Ec). destruct c3; [clear Ec|discriminate].
          apply erase_leaf in Q1; [|reflexivity]. apply erase_kept in Q2 as (ch2 & -> & _); [|reflexivity]. apply erase_leaf in Q3; [|reflexivity].
          subst. eauto 8. }
        apply Dc in Et as (s0 & c2 & ->), Et' as (s0' & c2' & ->). reflexivity. }
    rewrite Dq. apply bind_ext. intros m. apply (IH l1 l1'); assumption.
Qed.
Lemma xdecls_same ds : forall l l' s r s' r' mem, map erase l = map et_xdecl ds -> map erase l' = map et_xdecl ds ->
  r = r' -> xdecls P (l ++ [T G_ExtProtoURL s r]) mem = xdecls P (l' ++ [T G_ExtProtoURL s' r']) mem.
Proof.
  induction ds as [|d ds IH]; intros l l' s r s' r' mem E E' <-.
  - destruct l, l'; try discriminate. reflexivity.
  - apply erase_cons in E as (t & l1 & -> & Et & El), E' as (t' & l1' & -> & Et' & El'). cbn [app].
    assert (Nv : forall t x, erase t = et_xdecl d -> xdecls P (t :: x) mem = bind (decl t mem) (xdecls P x)).
    { clear. intros [tag sp ch] x Et. cbn [xdecls].
      assert (tag <> G_ExtProtoURL) by (destruct d; cbn in Et; injection Et as -> _ _; discriminate). destruct tag; try contradiction; reflexivity. }
    rewrite (Nv t _ Et), (Nv t' _ Et').
    assert (Dq : decl t mem = decl t' mem).
    { assert (Dc : forall t g a ty nm, keeps (match a with T g _ _ => g end) = true -> match a with T _ _ c => c end = [] ->
        erase t = T g [] [a; et_type ty; tname nm] -> exists s c2, t = T g s [a; T G_dataType ty c2; tname nm]).
      { clear. intros t g [ga sa ca] ty nm Ka Qa Et. cbn in Ka, Qa. subst ca. apply erase_not_kept in Et as (s0 & ch & -> & Ec). apply erase_cons in Ec as (t1 & c1 & -> & Q1 & Ec).
        apply erase_cons in Ec as (t2' & c2 & -> & Q2 & Ec). apply erase_cons in Ec as (t3 & c3 & -> & Q3 & Ec). destruct c3; [clear Ec|discriminate].
        apply erase_leaf in Q1; [|exact Ka]. apply erase_kept in Q2 as (ch2 & -> & _); [|reflexivity]. apply erase_leaf in Q3; [|reflexivity].
        subst. eauto 8. }
      destruct d as [ex ty nm|out ty nm]; cbn [et_xdecl] in *;
        (apply Dc in Et as (s0 & c2 & ->); [|reflexivity|reflexivity]); (apply Dc in Et' as (s0' & c2' & ->); [|reflexivity|reflexivity]); reflexivity. }
    rewrite Dq. apply bind_ext. intros m. apply (IH l1 l1'); auto.
Qed.
Definition r_same (r : sroot) : Prop := forall t t', erase t = et_root r -> erase t' = et_root r -> tidy_root r = true ->
  forall c s, build_root P base c t s = build_root P base c t' s.
Lemma roots_same rl : Forall r_same rl -> forall l l', map erase l = map et_root rl -> map erase l' = map et_root rl -> forallb tidy_root rl = true ->
  forall c s, build_scene P base c l s = build_scene P base c l' s.
Proof.
  induction 1 as [|r rl Hr _ IH]; intros l l' E E' Ht c s.
  - destruct l, l'; try discriminate. reflexivity.
  - apply erase_cons in E as (t & l1 & -> & Et & El), E' as (t' & l1' & -> & Et' & El'). cbn [forallb] in Ht. apply andb_true_iff in Ht as [H1 H2].
    cbn [build_scene]. rewrite (Hr t t' Et Et' H1). apply bind_ext. intros s1. apply IH; assumption.
Qed.
Lemma root_same r : r_same r.
Proof.
  induction r as [i|a af b0 bf|gi ds l H|gi ds url] using sroot_all; intros t t' E E' Ht c s;
    unfold et_root in E, E'; apply erase_not_kept in E as (s0 & ch & -> & Ec); apply erase_not_kept in E' as (s0' & ch' & -> & Ec');
    apply erase_cons in Ec as (t1 & c1 & -> & Et & Ec); apply erase_cons in Ec' as (t1' & c1' & -> & Et' & Ec');
    (destruct c1; [clear Ec|discriminate]); (destruct c1'; [clear Ec'|discriminate]);
    rewrite !build_root_item; cbn [build_scene];
    (assert (Q : build_root P base c t1 s = build_root P base c t1' s); [|rewrite Q; reflexivity]).
  - cbn [et_sroot] in *.
    assert (Tg : forall t, erase t = et_item i -> build_root P base c t s =
      bind (build_item P base (inside c s) t (snd s)) (fun p => Ok (fst s, add_kid (snd p) (fst p)))).
    { clear. intros [tag sp ch] Et. cbn [build_root].
      assert (tag <> G_rootItem /\ tag <> G_ROUTE /\ tag <> G_Proto /\ tag <> G_ExternProto) as (N1 & N2 & N3 & N4)
        by (destruct i; cbn in Et; injection Et as -> _ _; repeat split; discriminate).
      destruct tag; try contradiction; reflexivity. }
    rewrite (Tg t1 Et), (Tg t1' Et'). rewrite (item_same i t1 t1' Et Et' Ht). reflexivity.
  - cbn [et_sroot] in *.
    assert (Dc : forall t, erase t = T G_ROUTE [] [tname a; tname af; tname b0; tname bf] -> exists s, t = T G_ROUTE s [tname a; tname af; tname b0; tname bf]).
    { clear. intros t Et. apply erase_not_kept in Et as (s0 & ch & -> & Ec).
      apply erase_cons in Ec as (t1 & c1 & -> & Q1 & Ec). apply erase_cons in Ec as (t2 & c2 & -> & Q2 & Ec).
      apply erase_cons in Ec as (t3 & c3 & -> & Q3 & Ec). apply erase_cons in Ec as (t4 & c4 & -> & Q4 & Ec). destruct c4; [clear Ec|discriminate].
      apply erase_leaf in Q1; [|reflexivity]. apply erase_leaf in Q2; [|reflexivity]. apply erase_leaf in Q3; [|reflexivity].
      apply erase_leaf in Q4; [|reflexivity]. subst. eauto. }
    apply Dc in Et as (s1 & ->), Et' as (s1' & ->). reflexivity.
  - cbn [et_sroot] in *.
    assert (Dc : forall t, erase t = T G_Proto [] (T G_nodegi gi [tname gi] :: map et_decl ds ++ [T G_vrmlScene [] (map et_root l)]) ->
      exists s1 l1 ld s2 chs, t = T G_Proto s1 (T G_nodegi gi l1 :: ld ++ [T G_vrmlScene s2 chs]) /\ map erase ld = map et_decl ds /\ map erase chs = map et_root l).
    { clear. intros t Et. apply erase_not_kept in Et as (s0 & ch & -> & Ec).
      apply erase_cons in Ec as (t1 & c1 & -> & Q1 & Ec). apply erase_kept in Q1 as (l1 & -> & _); [|reflexivity].
      apply map_eq_app in Ec as (ld & ls & -> & Ed & Es). apply erase_cons in Es as (t2 & c2 & -> & Q2 & Es). destruct c2; [clear Es|discriminate].
      apply erase_not_kept in Q2 as (s2 & chs & -> & Qs). exists s0, l1, ld, s2, chs. auto. }
    apply Dc in Et as (s1 & l1 & ld & s2 & chs & -> & Ed & Es). apply Dc in Et' as (s1' & l1' & ld' & s2' & chs' & -> & Ed' & Es').
    cbn [tidy_root] in Ht. apply andb_true_iff in Ht as [Td Tl].
    rewrite !build_root_proto. destruct (among gi not_types); [reflexivity|]. destruct (proto (known base (inside c s)) gi); [reflexivity|].
    rewrite (decls_same _ ds ld ld' s2 chs s2' chs' [] Ed Ed' Td); [reflexivity|]. apply (roots_same l H chs chs' Es Es' Tl).
  - cbn [et_sroot] in *.
    assert (Dc : forall t, erase t = T G_ExternProto [] (T G_nodegi gi [tname gi] :: map et_xdecl ds ++ [T G_ExtProtoURL [] (map et_str url)]) ->
      exists s1 l1 ld s2 chs, t = T G_ExternProto s1 (T G_nodegi gi l1 :: ld ++ [T G_ExtProtoURL s2 chs]) /\ map erase ld = map et_xdecl ds /\ map erase chs = map et_str url).
    { clear. intros t Et. apply erase_not_kept in Et as (s0 & ch & -> & Ec).
      apply erase_cons in Ec as (t1 & c1 & -> & Q1 & Ec). apply erase_kept in Q1 as (l1 & -> & _); [|reflexivity].
      apply map_eq_app in Ec as (ld & ls & -> & Ed & Es). apply erase_cons in Es as (t2 & c2 & -> & Q2 & Es). destruct c2; [clear Es|discriminate].
      apply erase_not_kept in Q2 as (s2 & chs & -> & Qs). exists s0, l1, ld, s2, chs. auto. }
    apply Dc in Et as (s1 & l1 & ld & s2 & chs & -> & Ed & Es). apply Dc in Et' as (s1' & l1' & ld' & s2' & chs' & -> & Ed' & Es').
    rewrite !build_root_extern. destruct (among gi not_types); [reflexivity|]. destruct (proto (known base (inside c s)) gi); [reflexivity|].
    rewrite (xdecls_same ds ld ld' s2 chs s2' chs' [] Ed Ed'); [reflexivity|]. rewrite (erase_strs chs url Es), (erase_strs chs' url Es'). reflexivity.
Qed.
End Same.
