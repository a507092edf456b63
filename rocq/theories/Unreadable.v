(** Writing a scene with string lists: what is written is either the layout of
    the scene, or contains a string list that cannot be read. *)
From Coq Require Import Reals Permutation SpecFloat.
From Flocq Require Import Core.Core IEEE754.BinarySingleNaN.
From Verif Require Import Base Text PyDict PyDict_Proofs Float Coerce_Model Coerce_Spec Grammar_Model Lex_Spec Lex_Proofs
  Doc_Spec Doc_Proofs SceneGraph_Model VrmlStr_Model VrmlStr_Spec VrmlStr_Proofs VrmlStr_Values Scene_Model Linearise_Model Scene_Spec
  Linearise_Proofs Drop_Proofs Layout_Proofs Written Garbled.
Local Open Scope nat_scope.
Local Open Scope list_scope.
Notation RNode := Scene_Model.RNode.

Section Writes.
Variable P : prims.
Variable fstr : tcode -> fl -> text.
Variable protos : list (text * list fdecl).
Variable st : settings.
Variable S : scene.
Hypothesis FS : faithful fstr.
Hypothesis ST : ok_settings st.
Hypothesis WP : wf_protos_with held_decl protos.
Hypothesis IDS : forall n nd, s_node S n = Some nd -> n < s_next S.
Hypothesis NODES : forall n nd, s_node S n = Some nd -> exists fs, proto protos (n_gi nd) = Some fs /\
    forall f, In f fs -> exists v, fget P S n f = Ok v /\ held S f v.
Hypothesis NAMES : forall n nd, s_node S n = Some nd -> node_def S n <> [] -> is_name (node_def S n) = true.
Notation lin := (lin P fstr protos st S no_maps).
Notation linear := (linear P fstr protos st S no_maps).
Notation node_body := (node_body P fstr st S no_maps).
Notation attr := (attr P fstr st S no_maps).
Notation sffield := (sffield fstr st).
Notation mfnode := (mfnode st).
Notation inv := (inv P protos S).
Notation frefs := (frefs P S).
Notation holds := (holds_strings P protos S).

Definition clean (D D' : list nat) : Prop := forall m, In m D' -> ~ In m D -> ~ holds m.
Lemma clean_refl D : clean D D.
Proof. intros m H1 H2. contradiction. Qed.
Lemma clean_trans D D1 D' : clean D D1 -> clean D1 D' -> clean D D'.
Proof. intros A B m H1 H2. destruct (in_dec Nat.eq_dec m D1); [apply A|apply B]; auto. Qed.
(** a text was written, its nodes are accounted for *)
Definition wrote (s s' : lst) (t : text) (D' R : list nat) : Prop :=
  l_buf s' = l_buf s ++ t /\ tracks s' D' /\ inv D' R.
Definition writes_ref (rec : nref -> lst -> lres) : Prop :=
  forall r s D R, tracks s D -> vref S r -> inv D (ids r ++ R) -> rec r s <> LFuel ->
  exists s' t D', rec r s = LOk s' /\ wrote s s' t D' R /\ incl D D' /\
    ((r <> RNull /\ bad_item t) \/
     exists i, l_level s' = l_level s /\ walk_ref P protos S no_maps D r D' i /\ item_text t i /\ clean D D' /\
       (r <> RNull -> i <> SNull /\ match i with SNode _ _ _ | SUse _ => True | _ => False end)).

Lemma lead_any s : exists w, lead st s = 10%N :: w /\ sep_text w.
Proof. exact (lead_eq st ST s). Qed.

(** the elements of a list, once something is wrong *)
Lemma writes_rest rec l : writes_ref rec -> forall s D R, tracks s D ->
  Forall (is_node S) l -> inv D (flat_map ids l ++ R) -> each (fun el s => rec el (emit (lead st s) s)) l s <> LFuel ->
  exists s' t D', each (fun el s => rec el (emit (lead st s) s)) l s = LOk s' /\ wrote s s' t D' R /\ incl D D'.
Proof.
  intros W. induction l as [|r l IH]; intros s D R Tr V I N; cbn [each] in *.
  - exists s, [], D. split; [reflexivity|]. split; [|apply incl_refl]. split; [rewrite app_nil_r; reflexivity|]. auto.
  - inversion V as [|? ? Vr Vl]; subst. pose proof (lbind_fuel _ _ N) as N1.
    cbn [flat_map] in I. rewrite <- app_assoc in I.
    destruct (W r (emit (lead st s) s) D (flat_map ids l ++ R)) as (s1 & t & D1 & E & (B1 & T1 & I1) & In1 & _); auto.
    { right. exact Vr. }
    rewrite E in *. cbn [lbind] in *. cbn [emit l_buf] in B1.
    destruct (IH s1 D1 R) as (s2 & t2 & D2 & E2 & (B2 & T2 & I2) & In2); auto.
    eexists s2, _, D2. split; [exact E2|]. split; [|eapply incl_tran; eauto].
    split; [rewrite B2, B1, <- !app_assoc; reflexivity|]. auto.
Qed.
Lemma writes_list rec l : writes_ref rec -> forall s D R ld, lead st s = 10%N :: ld -> tracks s D ->
  Forall (is_node S) l -> inv D (flat_map ids l ++ R) -> each (fun el s => rec el (emit (lead st s) s)) l s <> LFuel ->
  exists s' t D', each (fun el s => rec el (emit (lead st s) s)) l s = LOk s' /\ wrote s s' t D' R /\ incl D D' /\
    exists ts is, Forall2 item_text ts is /\ ~ In SNull is /\ let pre := List.concat (map (fun t => (10%N :: ld) ++ t) ts) in
    ((exists b rest, t = pre ++ (10%N :: ld) ++ b ++ rest /\ bad_item b) \/
     (t = pre /\ l_level s' = l_level s /\ walk_refs P protos S no_maps D l D' is /\ clean D D')).
Proof.
  intros W. induction l as [|r l IH]; intros s D R ld L Tr V I N; cbn [each] in *.
  - exists s, [], D. split; [reflexivity|]. split; [split; [rewrite app_nil_r; reflexivity|auto]|]. split; [apply incl_refl|].
    exists [], []. split; [constructor|]. split; [intros []|]. right. split; [reflexivity|]. split; [reflexivity|]. split; [constructor|apply clean_refl].
  - inversion V as [|? ? Vr Vl]; subst. pose proof (lbind_fuel _ _ N) as N1.
    cbn [flat_map] in I. rewrite <- app_assoc in I.
    destruct (W r (emit (lead st s) s) D (flat_map ids l ++ R)) as (s1 & t & D1 & E & (B1 & T1 & I1) & In1 & C); auto.
    { right. exact Vr. }
    rewrite E in *. cbn [lbind] in *. cbn [emit l_buf l_level] in B1, C.
    destruct C as [(_ & Bd)|(i & L1 & Wk & It & Cl & Nn)].
    + destruct (writes_rest rec l W s1 D1 R T1 Vl I1 N) as (s2 & t2 & D2 & E2 & (B2 & T2 & I2) & In2).
      eexists s2, _, D2. split; [exact E2|]. split; [split; [rewrite B2, B1, L, <- !app_assoc; reflexivity|auto]|].
      split; [eapply incl_tran; eauto|]. exists [], []. split; [constructor|]. split; [intros []|]. left.
      exists t, t2. split; [reflexivity|exact Bd].
    + destruct (IH s1 D1 R ld) as (s2 & t2 & D2 & E2 & (B2 & T2 & I2) & In2 & ts & is & F & Nn2 & C2); auto.
      { rewrite (lead_level st s s1 L1). exact L. }
      assert (r <> RNull) as Hr by (intros ->; exact Vr).
      eexists s2, _, D2. split; [exact E2|]. split; [split; [rewrite B2, B1, L, <- !app_assoc; reflexivity|auto]|].
      split; [eapply incl_tran; eauto|]. exists (t :: ts), (i :: is). split; [constructor; auto|].
      split; [intros [H|H]; [apply (proj1 (Nn Hr)); congruence|auto]|]. cbv zeta in *. destruct C2 as [(b & rest & -> & Bb)|(-> & L2 & Wk2 & Cl2)].
      * left. exists b, rest. split; [|exact Bb]. cbn [map List.concat]. rewrite <- !app_assoc. reflexivity.
      * right. split; [cbn [map List.concat]; rewrite <- !app_assoc; reflexivity|]. split; [congruence|]. split; [econstructor; eauto|eapply clean_trans; eauto].
Qed.
Lemma writes_mfnode rec l : writes_ref rec -> forall s D R, tracks s D -> Forall (is_node S) l ->
  inv D (flat_map ids l ++ R) -> mfnode rec l s <> LFuel ->
  exists s' t D', mfnode rec l s = LOk s' /\ wrote s s' t D' R /\ incl D D' /\
    (bad_field t \/ exists is, l_level s' = l_level s /\ walk_refs P protos S no_maps D l D' is /\ fld_text t is /\ clean D D').
Proof.
  intros W s D R Tr V I N. destruct l as [|x l].
  - eexists _, _, D. split; [reflexivity|]. split; [split; [reflexivity|auto]|]. split; [apply incl_refl|].
    right. exists []. split; [reflexivity|]. split; [constructor|]. split; [|apply clean_refl]. apply empty_text. apply ST.
  - unfold mfnode, Linearise_Model.mfnode in *. cbv zeta in *. set (l' := x :: l) in *.
    set (s1 := emit (lit "[ ") (more s)) in *. destruct (lead_any s1) as (ld & Ld & Sl).
    destruct (writes_list rec l' W s1 D R ld Ld Tr V I (lbind_fuel _ _ N)) as (s2 & t & D2 & E & (B & T2 & I2) & In2 & ts & is & F & Nn & C).
    rewrite E in *. cbn [lbind] in *. destruct (fes_eq st ST) as (fw & Fe & Sf).
    eexists _, _, D2. split; [reflexivity|]. split; [|split; [exact In2|]].
    + split; [|auto]. cbn [less emit l_buf]. rewrite B. unfold s1. cbn [emit more l_buf]. rewrite <- !app_assoc. reflexivity.
    + cbv zeta in C. destruct C as [(b & rest & -> & Bb)|(-> & L & Wk & Cl)].
      * left. pose proof (bad_list ld ts is b (rest ++ l_fes st ++ cur st s2 ++ lit "]") Sl F Nn Bb) as Q.
        rewrite <- !app_assoc. exact Q.
      * right. exists is. split; [cbn [less emit l_level]; rewrite L; reflexivity|]. split; [exact Wk|]. split; [|exact Cl].
        rewrite Fe. assert (Q := list_text ld (fw ++ cur st s2) ts is Sl (sep_app _ _ Sf (cur_sep st ST s2)) F Nn).
        replace ((10%N :: fw) ++ cur st s2 ++ lit "]") with ((10%N :: fw ++ cur st s2) ++ lit "]"); [exact Q|].
        cbn [app]. rewrite <- app_assoc. reflexivity.
Qed.
Definition strings (v : val) : Prop := exists x l, v = VPv (PSeq KList (x :: l)).
Lemma writes_field rec n f v : writes_ref rec ->
  fget P S n f = Ok v -> held_decl f -> held S f v -> dropped f v = Ok false ->
  forall s D R, tracks s D -> inv D (ref_ids v ++ R) -> sffield rec f v s <> LFuel ->
  exists s' t D', sffield rec f v s = LOk s' /\ wrote s s' t D' R /\ incl D D' /\
    (bad_field t \/ exists is, l_level s' = l_level s /\ walk_val P protos S no_maps D f v D' is /\ fld_text t is /\ clean D D' /\ ~ strings v).
Proof.
  intros W G (_ & Dc) V Dr s D R Tr I N. unfold held in V. unfold sffield, Linearise_Model.sffield in *.
  destruct (f_kind f) as [t d| |o] eqn:K, v as [v|r|l]; try contradiction.
  - destruct V as (St & Fi). destruct Dc as (Rd & _).
    assert (Gen : ~ strings (VPv v) -> (match vrmlstr fstr (lv_at st s) t v with Some tx => LOk (emit tx s) | None => LExc end) <> LFuel ->
      exists s' tx D', (match vrmlstr fstr (lv_at st s) t v with Some tx => LOk (emit tx s) | None => LExc end) = LOk s' /\
        wrote s s' tx D' R /\ incl D D' /\
        (bad_field tx \/ exists is, l_level s' = l_level s /\ walk_val P protos S no_maps D f (VPv v) D' is /\ fld_text tx is /\ clean D D' /\ ~ strings (VPv v))).
    { intros Ns _. destruct (value_survives P fstr FS (lv_at st s) (st_lv st ST s) t v St Fi) as (tx & its & E & (Fo & Pl) & Rv).
      rewrite E. exists (emit tx s), tx, D. split; [reflexivity|]. split; [split; [reflexivity|auto]|]. split; [apply incl_refl|].
      right. exists its. split; [reflexivity|]. split; [eapply wv_pv; eauto|]. split; [apply field_text_of; exact Fo|]. split; [apply clean_refl|exact Ns]. }
    assert (Ng : forall w, v = w -> (forall x l, w <> PSeq KList (x :: l)) -> ~ strings (VPv v)).
    { intros w -> H (x & l & [= Q]). exact (H _ _ Q). }
    destruct v as [| | | | | |k l|]; try (apply Gen; [eapply Ng; [reflexivity|discriminate]|exact N]).
    destruct k; try (apply Gen; [eapply Ng; [reflexivity|discriminate]|exact N]). destruct l as [|x l].
    + destruct (writes_mfnode rec [] W s D R Tr (Forall_nil _) I N) as (s' & tx & D' & E & So & In' & C).
      exists s', tx, D'. split; [exact E|]. split; [exact So|]. split; [exact In'|]. destruct C as [C|(is & L & Wk & Ft & Cl)]; [left; exact C|right].
      inversion Wk; subst. exists []. split; [exact L|]. split; [|split; [exact Ft|split; [exact Cl|]]].
      * rewrite (stored_list _ _ St) in K. eapply wv_pv; [exact K|reflexivity|apply nil_strings_read].
      * eapply Ng; [reflexivity|discriminate].
    + pose proof (stored_list _ _ St) as Et. subst t. clear Gen Ng.
      destruct St as [ls El]. cbv zeta in *. set (s1 := emit (lit "[ ") (more s)) in *. set (s2 := emit (lead st s1) s1) in *.
      assert (Ev : vrmlstr fstr (lv_at st s2) MFString (PSeq KList (x :: l)) = Some (mfstring_vrmlstr (lv_at st s2) ls)).
      { rewrite El. cbn [vrmlstr fbase].
        assert (forallb (fun x => match x with PStr _ => true | _ => false end) (map PStr ls) = true) as ->.
        { clear. induction ls; [reflexivity|exact IHls]. }
        rewrite map_map, map_id. reflexivity. }
      rewrite Ev in *. exists (emit (mfstring_vrmlstr (lv_at st s2) ls) s2), (lit "[ " ++ lead st s1 ++ mfstring_vrmlstr (lv_at st s2) ls), D. split; [reflexivity|]. split; [split; [|auto]|split; [apply incl_refl|left]].
      * cbn [emit l_buf]. unfold s2 at 1. cbn [emit l_buf]. unfold s1 at 1. cbn [emit more l_buf]. rewrite <- !app_assoc. reflexivity.
      * destruct (lead_any s1) as (ld & Ld & Sl). rewrite Ld. apply (bad_garbled (lv_at st s2) ls (10%N :: ld)).
        -- apply st_lv. exact ST.
        -- intros ->. discriminate El.
        -- apply sep_nl_. exact Sl.
  - destruct (W r s D R) as (s' & t & D' & E & So & In' & C); auto.
    exists s', t, D'. split; [exact E|]. split; [exact So|]. split; [exact In'|]. destruct C as [(_ & C)|(i & L & Wk & It & Cl & _)].
    + left. apply bad_single. exact C.
    + right. exists [i]. split; [exact L|]. split; [eapply wv_ref; eauto|]. split; [apply single_text; exact It|]. split; [exact Cl|].
      intros (x & l & [=]).
  - rewrite ids_list in I. destruct (writes_mfnode rec l W s D R Tr V I N) as (s' & t & D' & E & So & In' & C).
    exists s', t, D'. split; [exact E|]. split; [exact So|]. split; [exact In'|]. destruct C as [C|(is & L & Wk & Ft & Cl)]; [left; exact C|right].
    exists is. split; [exact L|]. split; [eapply wv_refs; eauto|]. split; [exact Ft|]. split; [exact Cl|]. intros (x & l' & [=]).
Qed.
Lemma dropped_total f v : held_decl f -> held S f v -> exists b, dropped f v = Ok b.
Proof.
  intros (_ & D) V. unfold held in V. unfold dropped. destruct (f_kind f) as [t d| |o], v as [v|r|l]; try contradiction.
  - destruct D as (_ & [Od|(-> & sd & ->)]), V as (St & _).
    + destruct (compare_ok t d v Od St) as [b E]. destruct d; eauto.
    + destruct St as [ls ->]. eexists. reflexivity.
  - eauto.
  - destruct o, l; eauto.
Qed.
(** the remaining attributes, once something is wrong: a name follows *)
Lemma bad_good t : bad_field t -> good_start t.
Proof. intros H. apply H. Qed.
Lemma writes_attrs_rest rec n nd fs0 : writes_ref rec -> s_node S n = Some nd -> proto protos (n_gi nd) = Some fs0 ->
  forall fs, incl fs fs0 -> forall s D R, tracks s D -> inv D (flat_map (frefs n) fs ++ R) ->
  each (attr rec n) fs s <> LFuel ->
  exists s' t D', each (attr rec n) fs s = LOk s' /\ wrote s s' t D' R /\ incl D D' /\ forall k, closing k -> follow (t ++ k).
Proof.
  intros W Nd Pr. destruct (WP _ _ Pr) as (_ & _ & _ & Dc). rewrite Forall_forall in Dc.
  destruct (NODES _ _ Nd) as (fs1 & Pr1 & Vals). assert (fs1 = fs0) as -> by congruence.
  induction fs as [|f fs IH]; intros Sub s D R Tr I N; cbn [each] in *.
  - exists s, [], D. split; [reflexivity|]. split; [split; [rewrite app_nil_r; reflexivity|auto]|]. split; [apply incl_refl|].
    intros k (w & k' & -> & Hw). exists w, (125%N :: k'). split; [reflexivity|]. split; [exact Hw|]. left. reflexivity.
  - assert (In f fs0) as If by (apply Sub; left; reflexivity).
    assert (incl fs fs0) as Sub' by (intros x Hx; apply Sub; right; exact Hx).
    destruct (Vals f If) as (v & G & V). pose proof (Dc f If) as Df. destruct (dropped_total f v Df V) as [b Db].
    pose proof (lbind_fuel _ _ N) as N1. unfold attr, Linearise_Model.attr in N1, N |- *. rewrite G, Db in *.
    cbn [flat_map] in I. unfold Written.frefs at 1 in I. rewrite G in I. destruct b.
    + cbn [lbind] in *. rewrite (dropped_no_ids _ _ Db) in I. exact (IH Sub' s D R Tr I N).
    + rewrite <- app_assoc in I. set (s1 := emit (lead st s ++ f_name f ++ [9%N]) s) in *.
      destruct (writes_field rec n f v W G Df V Db s1 D (flat_map (frefs n) fs ++ R) Tr I N1) as (s2 & t & D1 & E & (B1 & T1 & I1) & In1 & C).
      rewrite E in *. cbn [lbind] in *.
      destruct (IH Sub' s2 D1 R T1 I1 N) as (s' & t2 & D' & E' & (B2 & T2 & I2) & In2 & _).
      destruct (lead_any s) as (ld & Ld & Sl).
      exists s', ((10%N :: ld) ++ f_name f ++ [9%N] ++ t ++ t2), D'. split; [exact E'|]. split; [split; [|auto]|split; [eapply incl_tran; eauto|]].
      * rewrite B2, B1. unfold s1. cbn [emit l_buf]. rewrite Ld, <- !app_assoc. reflexivity.
      * intros k _. exists ld, (f_name f ++ [9%N] ++ t ++ t2 ++ k). split; [rewrite <- !app_assoc; reflexivity|]. split; [exact Sl|]. right.
        exists (f_name f), t, (t2 ++ k). split; [reflexivity|]. split; [apply Df|].
        destruct C as [C|(is & _ & _ & Ft & _)]; [apply C|eapply fld_good; exact Ft].
Qed.
Lemma writes_attrs rec n nd fs0 : writes_ref rec -> s_node S n = Some nd -> proto protos (n_gi nd) = Some fs0 ->
  forall fs, incl fs fs0 -> forall s D R ld, lead st s = 10%N :: ld -> sep_text ld -> tracks s D -> inv D (flat_map (frefs n) fs ++ R) ->
  each (attr rec n) fs s <> LFuel ->
  exists s' t D', each (attr rec n) fs s = LOk s' /\ wrote s s' t D' R /\ incl D D' /\
    ((exists b, t = (10%N :: ld) ++ b /\ bad_attrs b) \/
     (exists ats sks, t = List.concat (map (fun a => (10%N :: ld) ++ fst a ++ snd a) ats) /\ l_level s' = l_level s /\
       walk_attrs P protos S no_maps n D fs D' sks /\ Forall2 attr_ok ats sks /\ clean D D' /\
       forall f v, In f fs -> fget P S n f = Ok v -> dropped f v = Ok false -> ~ strings v)).
Proof.
  intros W Nd Pr. destruct (WP _ _ Pr) as (_ & _ & _ & Dc). rewrite Forall_forall in Dc.
  destruct (NODES _ _ Nd) as (fs1 & Pr1 & Vals). assert (fs1 = fs0) as -> by congruence.
  induction fs as [|f fs IH]; intros Sub s D R ld L Sl Tr I N; cbn [each] in *.
  - exists s, [], D. split; [reflexivity|]. split; [split; [rewrite app_nil_r; reflexivity|auto]|]. split; [apply incl_refl|].
    right. exists [], []. split; [reflexivity|]. split; [reflexivity|]. split; [constructor|]. split; [constructor|]. split; [apply clean_refl|].
    intros f v [].
  - assert (In f fs0) as If by (apply Sub; left; reflexivity).
    assert (incl fs fs0) as Sub' by (intros x Hx; apply Sub; right; exact Hx).
    destruct (Vals f If) as (v & G & V). pose proof (Dc f If) as Df. destruct (dropped_total f v Df V) as [b Db].
    pose proof (lbind_fuel _ _ N) as N1. unfold attr, Linearise_Model.attr in N1, N |- *. rewrite G, Db in *.
    cbn [flat_map] in I. unfold Written.frefs at 1 in I. rewrite G in I. destruct b.
    + cbn [lbind] in *. rewrite (dropped_no_ids _ _ Db) in I.
      destruct (IH Sub' s D R ld L Sl Tr I N) as (s' & t & D' & E & So & In' & C).
      exists s', t, D'. split; [exact E|]. split; [exact So|]. split; [exact In'|]. destruct C as [C|(ats & sks & Et & Lv & Wk & F & Cl & Ns)]; [left; exact C|].
      right. exists ats, sks. split; [exact Et|]. split; [exact Lv|]. split; [eapply wa_drop; eauto|]. split; [exact F|]. split; [exact Cl|].
      intros f' v' [<-|Hf] G' D''; [congruence|eapply Ns; eauto].
    + rewrite <- app_assoc in I. set (s1 := emit (lead st s ++ f_name f ++ [9%N]) s) in *.
      destruct (writes_field rec n f v W G Df V Db s1 D (flat_map (frefs n) fs ++ R) Tr I N1) as (s2 & t & D1 & E & (B1 & T1 & I1) & In1 & C).
      rewrite E in *. cbn [lbind] in *. destruct C as [C|(is & L1 & Wk & Ft & Cl & Ns)].
      * destruct (writes_attrs_rest rec n nd fs0 W Nd Pr fs Sub' s2 D1 R T1 I1 N) as (s' & t2 & D' & E' & (B2 & T2 & I2) & In2 & Fo).
        exists s', ((10%N :: ld) ++ f_name f ++ [9%N] ++ t ++ t2), D'. split; [exact E'|]. split; [split; [|auto]|split; [eapply incl_tran; eauto|left]].
        -- rewrite B2, B1. unfold s1. cbn [emit l_buf]. rewrite L, <- !app_assoc. reflexivity.
        -- eexists. split; [reflexivity|]. apply bad_attr_first; [apply Df|exact C|exact Fo].
      * destruct (IH Sub' s2 D1 R ld) as (s' & t2 & D' & E' & (B2 & T2 & I2) & In2 & C2); auto.
        { rewrite (lead_level st s s2); [exact L|exact L1]. }
        exists s', ((10%N :: ld) ++ f_name f ++ [9%N] ++ t ++ t2), D'. split; [exact E'|]. split; [split; [|auto]|split; [eapply incl_tran; eauto|]].
        -- rewrite B2, B1. unfold s1. cbn [emit l_buf]. rewrite L, <- !app_assoc. reflexivity.
        -- destruct C2 as [(b & -> & Bb)|(ats & sks & -> & L2 & Wk2 & F & Cl2 & Ns2)].
           ++ left. eexists. split; [reflexivity|]. eapply bad_attr_later; eauto. apply Df.
           ++ right. exists ((f_name f, 9%N :: t) :: ats), ((f_name f, SVal is) :: sks). split; [cbn [map List.concat fst snd]; rewrite <- !app_assoc; reflexivity|].
              split; [rewrite L2, L1; reflexivity|]. split; [eapply wa_keep; eauto|]. split; [constructor; [|exact F]; split; [reflexivity|]; split; [apply Df|exists t; auto]|].
              split; [eapply clean_trans; eauto|]. intros f' v' [<-|Hf] G' D''; [congruence|eapply Ns2; eauto].
Qed.
(** the end of a node *)
Lemma closed_bad n i p gi s : (tell s =? p) = false -> exists t, l_buf (closed st S n i p gi s) = l_buf s ++ t /\ closing t.
Proof.
  intros Em. unfold closed. rewrite Em. destruct (fes_eq st ST) as (fw & Fe & Sf).
  assert (Q : forall tail, closing ((l_fes st ++ cur st s ++ lit "}") ++ tail)).
  { intros tail. exists (fw ++ cur st s), tail. split; [|apply sep_app; [exact Sf|apply cur_sep; exact ST]].
    rewrite Fe, <- !app_assoc. reflexivity. }
  assert (Q0 := Q []). rewrite app_nil_r in Q0.
  destruct (l_end st) as [c|]; [destruct (c * 60 <? tell s - i)|]; eexists; (split; [reflexivity|]); auto.
Qed.
Lemma lin_writes k : writes_ref (lin k).
Proof.
  induction k as [|k IH]; intros r s D R Tr V I N; [cbn in N; congruence|].
  change (lin (Datatypes.S k) r s) with (linear (lin k) r s) in *. unfold linear, Linearise_Model.linear in *.
  destruct r as [|n].
  - exists (emit (lit "NULL") s), (lit "NULL"), D. split; [reflexivity|]. split; [split; [reflexivity|auto]|]. split; [apply incl_refl|].
    right. exists SNull. split; [reflexivity|]. split; [constructor|]. split; [apply null_text|]. split; [apply clean_refl|congruence].
  - destruct V as [V|[nd Nd]]; [discriminate|]. rewrite Nd in *. destruct (NODES _ _ Nd) as (fs & Pr & Vals).
    destruct (WP _ _ Pr) as (Sg & Ns & _).
    assert (K : forall p, In p keywords -> text_eqb (n_gi nd) p = false).
    { intros p Hp. destruct (text_eqb (n_gi nd) p) eqn:E; [|reflexivity]. apply text_eqb_spec in E.
      unfold safe_name in Sg. apply andb_true_iff in Sg as [Sg _]. apply andb_true_iff in Sg as [_ Sg].
      rewrite forallb_forall in Sg. specialize (Sg p Hp). rewrite E in Sg.
      assert (starts_with p p = true) as H by (apply starts_with_spec; exists []; rewrite app_nil_r; reflexivity).
      rewrite H in Sg. discriminate. }
    assert (text_eqb (n_gi nd) (lit "sceneGraph") = false) as K3.
    { destruct (text_eqb (n_gi nd) (lit "sceneGraph")) eqn:E; [|reflexivity]. apply text_eqb_spec in E. contradiction. }
    unfold script_gi in *. rewrite (K (lit "Script")) in * by (cbn; auto 20). rewrite (K (lit "NULL")) in * by (cbn; auto 20). rewrite K3 in *. cbn [orb] in *.
    rewrite Pr in *. rewrite node_body_eq in *. unfold can_use in *.
    destruct (dget Nat.eqb (l_done s) n) as [x|] eqn:Dn.
    + (* seen before *)
      assert (In n D) as Hn by (apply Tr; unfold seen; congruence).
      assert (node_def S n <> []) as Nm.
      { intros U. specialize (I n U). apply memb_in in Hn. rewrite Hn in I. cbn [ids app count_occ] in I.
        destruct (Nat.eq_dec n n); [lia|congruence]. }
      exists (emit (lit "USE " ++ node_def S n) s), (lit "USE " ++ node_def S n), D.
      split. { destruct (node_def S n); [congruence|reflexivity]. }
      split; [split; [reflexivity|split; [exact Tr|]]|split; [apply incl_refl|]].
      { eapply inv_cnt; [|exact I]. intros m. cbn [ids app count_occ]. destruct (Nat.eq_dec n m); lia. }
      right. exists (SUse (node_def S n)). split; [reflexivity|]. split; [eapply wk_use; eauto|].
      split; [apply use_text; eapply NAMES; eauto|]. split; [apply clean_refl|]. intros _. split; [discriminate|exact Logic.I].
    + cbv zeta in *. assert (~ In n D) as Hn by (intros H; apply Tr in H; unfold seen in H; congruence).
      set (s2 := emit (def_text S n ++ n_gi nd ++ lit " {") (mark n (tell s, None) s)) in *.
      assert (Tr2 : tracks (more s2) (n :: D)).
      { intros m. unfold s2. change (In m (n :: D) <-> seen (mark n (tell s, None) s) m). rewrite seen_mark, <- (Tr m). cbn. intuition. }
      destruct (lead_any (more s2)) as (ld & Ld & Sl).
      destruct (writes_attrs (lin k) n nd fs IH Nd Pr (sort fs)) with (s := more s2) (D := n :: D) (R := R) (ld := ld)
        as (s3 & t & D' & E & (B & T3 & I') & In' & C); auto.
      { intros f Hf. eapply Permutation_in; [apply sort_perm|exact Hf]. }
      { eapply inv_enter; eauto. }
      { eapply lbind_fuel. exact N. }
      rewrite E in *. cbn [lbind] in *.
      assert (Dn0 : node_def S n = [] \/ is_name (node_def S n) = true).
      { destruct (node_def S n) eqn:Z; [auto|right]. rewrite <- Z. eapply NAMES; [exact Nd|]. congruence. }
      assert (Dt : def_text S n = def_part (node_def S n)) by (unfold def_text, def_part; destruct (node_def S n); reflexivity).
      assert (T4 : forall i p gi, tracks (closed st S n i p gi s3) D').
      { intros i p gi m. rewrite closed_seen, <- (T3 m). split; [auto|]. intros [->|H]; [|exact H]. apply In'. left. reflexivity. }
      destruct C as [(b & -> & Bb)|(ats & sks & -> & L & Wk & F & Cl & Nst)].
      * assert (Em : (tell s3 =? tell s2) = false).
        { unfold tell. rewrite B, app_length. change (List.length (l_buf (more s2))) with (List.length (l_buf s2)).
          apply Nat.eqb_neq. rewrite app_length. cbn [List.length]. lia. }
        destruct (closed_bad n (tell s) (tell s2) (n_gi nd) s3 Em) as (t & Bt & Ct).
        exists (closed st S n (tell s) (tell s2) (n_gi nd) s3), (opening (node_def S n) (n_gi nd) ++ (10%N :: ld) ++ b ++ t), D'.
        split; [reflexivity|]. split; [split; [|auto]|split; [intros x Hx; apply In'; right; exact Hx|]].
        -- rewrite Bt, B. unfold s2, opening. cbn [more emit mark l_buf]. rewrite Dt, <- !app_assoc. reflexivity.
        -- left. split; [discriminate|]. apply bad_node; auto. split; auto.
      * assert (Em : (tell s3 =? tell s2) = match ats with [] => true | _ => false end).
        { unfold tell. rewrite B, app_length. change (List.length (l_buf (more s2))) with (List.length (l_buf s2)).
          destruct ats as [|a ats]; [apply Nat.eqb_eq; cbn; lia|]. apply Nat.eqb_neq. cbn [map List.concat]. rewrite !app_length. cbn. lia. }
        destruct (closed_text st S ST NAMES n nd (n_gi nd) (tell s) (tell s2) s3 ats sks ld Nd eq_refl Sg Sl F Em) as (t & Bt & Lt & It).
        eexists _, _, D'. split; [reflexivity|]. split; [split; [|auto]|split; [intros x Hx; apply In'; right; exact Hx|]].
        -- rewrite Bt, B. unfold s2. cbn [more emit mark l_buf]. rewrite <- !app_assoc. reflexivity.
        -- right. exists (SNode (def_opt (node_def S n)) (n_gi nd) sks). split; [rewrite Lt, L; reflexivity|]. split; [eapply wk_node; eauto|].
           split; [rewrite <- (app_assoc (n_gi nd)) in It; exact It|]. split; [|intros _; split; [discriminate|exact Logic.I]].
           intros m H1 H2. destruct (Nat.eq_dec m n) as [->|Dm].
           ++ intros (nd' & fs' & f & x & l & Nd' & Pr' & Hf & G & Dr). assert (nd' = nd) as -> by congruence. assert (fs' = fs) as -> by congruence.
              apply (Nst f _ (Permutation_in _ (Permutation_sym (sort_perm fs)) Hf) G Dr). exists x, l. reflexivity.
           ++ apply Cl; [exact H1|]. intros [H|H]; [congruence|contradiction].
Qed.
Notation kid fuel := (fun c s => lbind (lin fuel c s) (fun s => LOk (emit (l_fes st) s))).
Lemma kids_rest fuel l : forall s D R, tracks s D -> Forall (is_node S) l -> inv D (flat_map ids l ++ R) ->
  each (kid fuel) l s <> LFuel ->
  exists s' t, each (kid fuel) l s = LOk s' /\ l_buf s' = l_buf s ++ t.
Proof.
  induction l as [|r l IH]; intros s D R Tr V I N; cbn [each] in *.
  - exists s, []. rewrite app_nil_r. auto.
  - inversion V as [|? ? Vr Vl]; subst. pose proof (lbind_fuel _ _ N) as N1. cbn [flat_map] in I. rewrite <- app_assoc in I.
    destruct (lin_writes fuel r s D (flat_map ids l ++ R)) as (s1 & t & D1 & E & (B1 & T1 & I1) & In1 & _); auto.
    { right. exact Vr. }
    { eapply lbind_fuel. exact N1. }
    rewrite E in *. cbn [lbind] in *. destruct (IH (emit (l_fes st) s1) D1 R T1 Vl I1 N) as (s2 & t2 & E2 & B2).
    eexists s2, _. split; [exact E2|]. rewrite B2. cbn [emit l_buf]. rewrite B1, <- !app_assoc. reflexivity.
Qed.
Lemma kids_write fuel l : forall s D R fw, l_fes st = 10%N :: fw -> tracks s D -> Forall (is_node S) l ->
  inv D (flat_map ids l ++ R) -> each (kid fuel) l s <> LFuel ->
  exists s' ts is t, each (kid fuel) l s = LOk s' /\ l_buf s' = l_buf s ++ List.concat (map (fun t => t ++ 10%N :: fw) ts) ++ t /\
    Forall2 item_text ts is /\ Forall (fun i => match i with SNode _ _ _ | SUse _ => True | _ => False end) is /\
    ((exists b rest, t = b ++ rest /\ bad_item b) \/ (exists D', walk_refs P protos S no_maps D l D' is /\ clean D D')).
Proof.
  induction l as [|r l IH]; intros s D R fw L Tr V I N; cbn [each] in *.
  - exists s, [], [], []. rewrite app_nil_r. repeat split; auto. right. exists D. split; [constructor|apply clean_refl].
  - inversion V as [|? ? Vr Vl]; subst. pose proof (lbind_fuel _ _ N) as N1.
    cbn [flat_map] in I. rewrite <- app_assoc in I.
    destruct (lin_writes fuel r s D (flat_map ids l ++ R)) as (s1 & t & D1 & E & (B1 & T1 & I1) & In1 & C); auto.
    { right. exact Vr. }
    { eapply lbind_fuel. exact N1. }
    rewrite E in *. cbn [lbind] in *. assert (r <> RNull) as Hr by (intros ->; exact Vr).
    destruct C as [(_ & C)|(i & L1 & Wk & It & Cl & Nn)].
    + destruct (kids_rest fuel l (emit (l_fes st) s1) D1 R T1 Vl I1 N) as (s2 & t2 & E2 & B2).
      exists s2, [], [], (t ++ l_fes st ++ t2). split; [exact E2|]. split; [|split; [constructor|split; [constructor|left; eauto]]].
      rewrite B2. cbn [emit l_buf map List.concat app]. rewrite B1, <- !app_assoc. reflexivity.
    + destruct (IH (emit (l_fes st) s1) D1 R fw) as (s2 & ts & is & t2 & E2 & B2 & F & Nn2 & C2); auto.
      exists s2, (t :: ts), (i :: is), t2. split; [exact E2|]. split; [|split; [constructor; auto|split; [constructor; [exact (proj2 (Nn Hr))|exact Nn2]|]]].
      * rewrite B2. cbn [emit l_buf]. rewrite B1, L. cbn [map List.concat]. rewrite <- !app_assoc. reflexivity.
      * destruct C2 as [C2|(D' & Wk2 & Cl2)]; [left; exact C2|right]. exists D'. split; [econstructor; eauto|eapply clean_trans; eauto].
Qed.
End Writes.
