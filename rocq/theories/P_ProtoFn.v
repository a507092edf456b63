(** C58, C59: field lookup and listing (vrml/protofunctions.py). *)
From Verif Require Import Base Text PyDict PyDict_Proofs ProtoFn_Model.

(** *** Specification *)
(** the attribute a class shows under a name: most derived definition *)
Inductive visible : mro -> text -> attr -> Prop :=
| vis_here d m k a : In (k, a) d -> visible (d :: m) k a
| vis_up d m k a : ~ In k (map fst d) -> visible m k a -> visible (d :: m) k a.

(** what counts as a field and what as an event, and the name it is kept under *)
Inductive listed : bool -> attr -> Prop :=
| li_field o n : listed false (AField o n)
| li_event o n : listed true (AEvent o n).
Inductive stored_as : attr -> text -> Prop :=
| sa_field o n : stored_as (AField o n) n
| sa_event o n : stored_as (AEvent o n) n.
Definition set_pre : text := lit "set_".
Definition changed_suf : text := lit "_changed".

(** the most derived *field* (resp. event) definition of a name *)
Inductive top_field (ev : bool) : mro -> text -> attr -> Prop :=
| tf_here d m k a : In (k, a) d -> listed ev a -> top_field ev (d :: m) k a
| tf_up d m k a : (forall b, In (k, b) d -> ~ listed ev b) ->
    top_field ev m k a -> top_field ev (d :: m) k a.

(** documented resolution order *)
Definition storage_of_something (m : mro) (name : text) : Prop :=
  exists ev k a, top_field ev m k a /\ stored_as a name.
Inductive resolves (m : mro) : text -> found -> Prop :=
| r_attr name a : visible m name a -> resolves m name (FAttr a)
| r_storage name : (forall a, ~ visible m name a) -> storage_of_something m name ->
    resolves m name (FName name)
| r_set rest r : (forall a, ~ visible m (set_pre ++ rest) a) ->
    ~ storage_of_something m (set_pre ++ rest) -> resolves m rest r ->
    resolves m (set_pre ++ rest) r
| r_changed rest r : (forall a, ~ visible m (rest ++ changed_suf) a) ->
    ~ storage_of_something m (rest ++ changed_suf) ->
    (forall t, rest ++ changed_suf <> set_pre ++ t) -> resolves m rest r ->
    resolves m (rest ++ changed_suf) r.

Definition wf_mro (m : mro) : Prop := Forall (fun d => NoDup (map fst d)) m.

(** *** Lemmas *)
Lemma wanted_listed ev a : wanted ev a = true <-> listed ev a.
Proof. split; [destruct ev, a; try discriminate; constructor|intros []; reflexivity]. Qed.
Lemma storage_stored a n : storage a = Some n <-> stored_as a n.
Proof. split; [destruct a; try discriminate; intros [= ->]; constructor|intros []; reflexivity]. Qed.
Lemma visible_getattr m k : wf_mro m -> forall a, visible m k a <-> class_getattr m k = Some a.
Proof.
  induction m as [|d m IH]; intros W a; cbn.
  - split; [intros H; inversion H|discriminate].
  - inversion W; subst. destruct (dget text_eqb d k) as [b|] eqn:E.
    + apply (dget_In text_eqb text_eqb_spec) in E. split.
      * intros V; inversion V; subst.
        -- f_equal. assert (dget text_eqb d k = Some b) by (apply In_dget; auto using text_eqb_spec).
           assert (dget text_eqb d k = Some a) by (apply In_dget; auto using text_eqb_spec). congruence.
        -- exfalso. apply (in_map fst) in E. contradiction.
      * intros [= <-]. constructor. exact E.
    + apply (dget_None_notin text_eqb text_eqb_spec) in E. rewrite <- IH by assumption. split.
      * intros V; inversion V; subst; [|assumption].
        exfalso. apply E. match goal with I : In (k, a) d |- _ => apply (in_map fst) in I; exact I end.
      * intros V. apply vis_up; assumption.
Qed.
Lemma nodup_filter_keys d (f : text * attr -> bool) :
  NoDup (map fst d) -> NoDup (map fst (filter f d)).
Proof.
  induction d as [|[k v] d IH]; cbn; [auto|]. intros ND. inversion ND; subst.
  destruct (f (k, v)); cbn; auto. constructor; [|auto].
  intros I. apply H1. apply in_map_iff in I. destruct I as ([k2 v2] & E & I). apply filter_In in I.
  cbn in E. subst. apply in_map_iff. exists (k, v2). tauto.
Qed.

Lemma items_snoc m d ev :
  field_items (d :: m) ev =
  dupdate text_eqb (field_items m ev) (filter (fun kv => wanted ev (snd kv)) d).
Proof. unfold field_items. cbn [rev]. rewrite fold_left_app. reflexivity. Qed.

Lemma items_spec m ev : wf_mro m ->
  NoDup (dkeys (field_items m ev)) /\
  forall k a, dget text_eqb (field_items m ev) k = Some a <-> top_field ev m k a.
Proof.
  induction m as [|d m IH]; intros W.
  - split; [constructor|]. intros k a. cbn. split; [discriminate|intros H; inversion H].
  - inversion W; subst. destruct (IH H2) as [ND G]. rewrite items_snoc. split.
    + apply nodup_dupdate; [exact text_eqb_spec|exact ND].
    + intros k a. rewrite dget_dupdate;
        [|exact text_eqb_spec|apply nodup_filter_keys; assumption].
      destruct (dget text_eqb (filter (fun kv => wanted ev (snd kv)) d) k) as [b|] eqn:E.
      * apply (dget_In text_eqb text_eqb_spec) in E. apply filter_In in E. destruct E as [E1 E2].
        cbn in E2. split.
        -- intros [= <-]. apply tf_here; [assumption|apply wanted_listed; assumption].
        -- intros T; inversion T; subst.
           ++ f_equal. assert (X : dget text_eqb d k = Some b) by (apply In_dget; auto using text_eqb_spec).
              assert (Y : dget text_eqb d k = Some a) by (apply In_dget; auto using text_eqb_spec). congruence.
           ++ match goal with X : forall b, In _ d -> _ |- _ => exfalso; apply (X b E1), wanted_listed; exact E2 end.
      * apply (dget_None_notin text_eqb text_eqb_spec) in E. rewrite G.
        assert (A : forall b, In (k, b) d -> ~ listed ev b).
        { intros b I Wb. apply wanted_listed in Wb. apply E.
          apply in_map_iff. exists (k, b). split; [reflexivity|]. apply filter_In. auto. }
        split; [intros T; apply tf_up; assumption|].
        intros T; inversion T; subst; [|assumption].
        match goal with I : In (k, a) d, Wa : listed ev a |- _ => destruct (A a I Wa) end.
Qed.
Lemma has_storage_spec m name : wf_mro m ->
  (has_storage (getFields m false) name = true \/ has_storage (getFields m true) name = true)
  <-> storage_of_something m name.
Proof.
  intros W.
  assert (H : forall ev, has_storage (getFields m ev) name = true <->
     exists k a, top_field ev m k a /\ stored_as a name).
  { intros ev. destruct (items_spec m ev W) as [ND G]. unfold has_storage, getFields.
    rewrite existsb_exists. split.
    - intros (a & I & S). apply in_map_iff in I. destruct I as ([k a'] & E & I). cbn in E. subst a'.
      exists k, a. split; [apply G; apply In_dget; auto using text_eqb_spec|].
      apply storage_stored. destruct (storage a); [|discriminate]. apply text_eqb_spec in S. congruence.
    - intros (k & a & T & S). exists a. split.
      + apply G in T. apply (dget_In text_eqb text_eqb_spec) in T. apply (in_map snd) in T. exact T.
      + apply storage_stored in S. rewrite S. apply text_eqb_spec. reflexivity. }
  unfold storage_of_something. rewrite !H. split.
  - intros [(k&a&T)|(k&a&T)]; [exists false, k, a; exact T|exists true, k, a; exact T].
  - intros ([|] & k & a & T); [right|left]; exists k, a; exact T.
Qed.

Lemma getField_fuel_spec m : wf_mro m -> forall fuel name, (List.length name < fuel)%nat ->
  exists r, getField_fuel fuel m name = Some r /\
  match r with
  | Ok f => resolves m name f
  | Exc e => e = AttributeError /\ forall f, ~ resolves m name f
  end.
Proof.
  intros W. induction fuel as [|k IH]; intros name L; [lia|]. cbn [getField_fuel].
  change ProtoFn_Model.set_pre with set_pre. change ProtoFn_Model.changed_suf with changed_suf.
  pose proof (visible_getattr m name W) as V. pose proof (has_storage_spec m name W) as HS.
  destruct (class_getattr m name) as [a|] eqn:EA.
  { eexists; split; [reflexivity|]. apply r_attr, V. reflexivity. }
  assert (NV : forall a, ~ visible m name a) by (intros a X; apply V in X; discriminate).
  destruct (has_storage (getFields m false) name) eqn:E1.
  { eexists; split; [reflexivity|]. apply r_storage; [exact NV|apply HS; left; reflexivity]. }
  destruct (has_storage (getFields m true) name) eqn:E2.
  { eexists; split; [reflexivity|]. apply r_storage; [exact NV|apply HS; right; reflexivity]. }
  assert (NS : ~ storage_of_something m name).
  { intros X. apply HS in X. destruct X; discriminate. }
  destruct (starts_with set_pre name) eqn:ES.
  { apply starts_with_spec in ES. destruct ES as [rest ->].
    assert (LR : (List.length rest < k)%nat) by (cbn in L; lia).
    change (skipn 4 (set_pre ++ rest)) with rest.
    destruct (IH rest LR) as (r & Er & Sr). rewrite Er. exists r. split; [reflexivity|].
    destruct r as [f|e].
    - apply r_set; assumption.
    - destruct Sr as [-> Nr]. split; [reflexivity|]. intros f R. inversion R; subst.
      + eapply NV; eassumption.
      + contradiction.
      + match goal with H : resolves m ?x f |- _ => apply (Nr f); exact H end.
      + match goal with H : forall t, ?x <> set_pre ++ t, E : ?x = _ |- _ => exact (H _ E) end. }
  assert (NSet : forall t, name <> set_pre ++ t).
  { intros t X. assert (starts_with set_pre name = true); [|congruence].
    apply starts_with_spec. exists t. exact X. }
  destruct (ends_with changed_suf name) eqn:EC.
  { apply ends_with_spec in EC. destruct EC as [rest ->].
    assert (LR : (List.length rest < k)%nat) by (rewrite app_length in L; cbn in L; lia).
    replace (firstn (List.length (rest ++ changed_suf) - 8) (rest ++ changed_suf)) with rest
      by (rewrite app_length; cbn [List.length changed_suf lit];
          replace (_ + 8 - 8)%nat with (List.length rest + 0)%nat by lia;
          rewrite firstn_app_2; cbn; rewrite app_nil_r; reflexivity).
    destruct (IH rest LR) as (r & Er & Sr). rewrite Er. exists r. split; [reflexivity|].
    destruct r as [f|e].
    - apply r_changed; assumption.
    - destruct Sr as [-> Nr]. split; [reflexivity|]. intros f R. inversion R; subst.
      + eapply NV; eassumption.
      + contradiction.
      + match goal with E : _ = rest ++ changed_suf |- _ => exact (NSet _ (eq_sym E)) end.
      + match goal with H : ?a ++ changed_suf = rest ++ changed_suf |- _ =>
          apply app_inv_tail in H; subst end.
        apply (Nr f). assumption. }
  eexists; split; [reflexivity|]. split; [reflexivity|]. intros f R.
  assert (NC : forall t, name <> t ++ changed_suf).
  { intros t X. assert (ends_with changed_suf name = true); [|congruence].
    apply ends_with_spec. exists t. exact X. }
  inversion R; subst.
  - eapply NV; eassumption.
  - contradiction.
  - eapply NSet. reflexivity.
  - eapply NC. reflexivity.
Qed.
Lemma getField_spec m name : wf_mro m ->
  match getField m name with
  | Ok f => resolves m name f
  | Exc e => e = AttributeError /\ forall f, ~ resolves m name f
  end.
Proof.
  intros W. unfold getField.
  destruct (getField_fuel_spec m W (S (List.length name)) name) as (r & E & S); [lia|].
  rewrite E. exact S.
Qed.

Lemma visible_fun m k a b : wf_mro m -> visible m k a -> visible m k b -> a = b.
Proof. intros W H1 H2. apply visible_getattr in H1, H2; auto. congruence. Qed.
Lemma resolves_fun m name f : wf_mro m -> resolves m name f -> getField m name = Ok f.
Proof.
  intros W R. pose proof (getField_spec m name W) as S.
  destruct (getField m name) as [g|e]; [|destruct S as [_ S]; exfalso; eapply S; exact R].
  f_equal. revert f R.
  induction S as [n a V|n NV ST|rest r NV NS R' IH|rest r NV NS NP R' IH]; intros f R; inversion R; subst;
    try reflexivity; try contradiction; try (exfalso; match goal with H : forall a, ~ visible m _ a, V : visible m _ _ |- _ => eapply H; exact V end).
  all: try match goal with
    | H : forall t, ?x <> set_pre ++ t, E : ?x = _ |- _ => exfalso; exact (H _ E)
    | H : forall t, ?x <> set_pre ++ t, E : _ = ?x |- _ => exfalso; exact (H _ (eq_sym E))
    | H : ?a ++ changed_suf = ?b ++ changed_suf |- _ => apply app_inv_tail in H; subst
    end; auto.
  f_equal. eapply visible_fun; eassumption.
Qed.

(** *** Theorems *)
(** C58.  getField is total and follows the documented order; it fails with
    AttributeError exactly when nothing resolves. *)
Theorem C58_lookup_follows_documented_order :
  forall m name, wf_mro m ->
  match getField m name with
  | Ok f => resolves m name f
  | Exc e => e = AttributeError /\ forall f, ~ resolves m name f
  end.
Proof. exact getField_spec. Qed.
Print Assumptions C58_lookup_follows_documented_order.

Theorem C58_resolution_unique :
  forall m name f, wf_mro m -> resolves m name f -> getField m name = Ok f.
Proof. exact resolves_fun. Qed.
Print Assumptions C58_resolution_unique.

(** C58.  For a field k of the class, set_k and k_changed resolve to k's field
    unless the class itself uses these names. *)
Theorem C58_set_and_changed_aliases :
  forall m k a, wf_mro m -> visible m k a ->
  ((forall b, ~ visible m (set_pre ++ k) b) -> ~ storage_of_something m (set_pre ++ k) ->
   getField m (set_pre ++ k) = Ok (FAttr a)) /\
  ((forall b, ~ visible m (k ++ changed_suf) b) -> ~ storage_of_something m (k ++ changed_suf) ->
   (forall t, k ++ changed_suf <> set_pre ++ t) ->
   getField m (k ++ changed_suf) = Ok (FAttr a)).
Proof.
  intros m k a W V. split; intros.
  - apply resolves_fun; [exact W|]. apply r_set; auto. apply r_attr, V.
  - apply resolves_fun; [exact W|]. apply r_changed; auto. apply r_attr, V.
Qed.
Print Assumptions C58_set_and_changed_aliases.

(** C58 (refuted): a name that matches only a storage name is answered with the
    name itself, never with a field object. *)
Theorem C58_storage_name_returns_string_refuted :
  forall m name, wf_mro m -> (forall a, ~ visible m name a) -> storage_of_something m name ->
  getField m name = Ok (FName name).
Proof. intros m name W NV S. apply resolves_fun; [exact W|]. apply r_storage; assumption. Qed.
Print Assumptions C58_storage_name_returns_string_refuted.

(** C58 (refuted): "k_changed" of a field whose name starts with "set_" is not
    found although the field exists. *)
Theorem C58_changed_of_set_field_refuted :
  exists m k a, wf_mro m /\ visible m k a /\ getField m (k ++ changed_suf) = Exc AttributeError.
Proof.
  exists [[(lit "set_fraction", AEvent 1 (lit "set_fraction"))]], (lit "set_fraction"),
         (AEvent 1 (lit "set_fraction")).
  repeat split.
  - constructor; [|constructor]. repeat constructor. intros [].
  - apply vis_here. left. reflexivity.
Qed.
Print Assumptions C58_changed_of_set_field_refuted.

(** C59.  getFields lists, for every attribute name with a field definition
    somewhere in the MRO, exactly one entry: the most derived one. *)
Theorem C59_fields_once_most_derived :
  forall m ev, wf_mro m ->
  exists keyed : list (text * attr),
    getFields m ev = map snd keyed /\ NoDup (map fst keyed) /\
    forall k a, In (k, a) keyed <-> top_field ev m k a.
Proof.
  intros m ev W. destruct (items_spec m ev W) as [ND G]. exists (field_items m ev).
  split; [reflexivity|]. split; [exact ND|]. intros k a. rewrite <- G. split.
  - intros I. apply In_dget; auto using text_eqb_spec.
  - apply dget_In. exact text_eqb_spec.
Qed.
Print Assumptions C59_fields_once_most_derived.

(** C59 (refuted for the wider reading): a base-class field hidden by a subclass
    attribute that is not a field is still listed. *)
Theorem C59_hidden_field_still_listed_refuted :
  exists m k a b, wf_mro m /\ In a (getFields m false) /\ visible m k b /\ b <> a /\
    top_field false m k a.
Proof.
  exists [[(lit "x", AOther 7)]; [(lit "x", AField 1 (lit "x"))]], (lit "x"), (AField 1 (lit "x")), (AOther 7).
  repeat split.
  - repeat constructor; intros [].
  - left. reflexivity.
  - apply vis_here. left. reflexivity.
  - discriminate.
  - apply tf_up; [|apply tf_here; [left; reflexivity|constructor]].
    intros b [E|[]]. injection E as <-. intros L. inversion L.
Qed.
Print Assumptions C59_hidden_field_still_listed_refuted.

(** Non-vacuity *)
Definition ex_mro : mro :=
  [ [(lit "translation", AField 3 (lit "translation")); (lit "copy", AOther 9)];
    [(lit "DEF", AField 1 (lit " DEF")); (lit "translation", AField 2 (lit "translation"));
     (lit "hit", AEvent 4 (lit "hit"))] ].
Example C58_ex :
  getField ex_mro (lit "translation") = Ok (FAttr (AField 3 (lit "translation"))) /\
  getField ex_mro (lit "set_translation") = Ok (FAttr (AField 3 (lit "translation"))) /\
  getField ex_mro (lit "set_set_hit_changed") = Ok (FAttr (AEvent 4 (lit "hit"))) /\
  getField ex_mro (lit " DEF") = Ok (FName (lit " DEF")) /\
  getField ex_mro (lit "nope") = Exc AttributeError /\ wf_mro ex_mro.
Proof.
  repeat split. repeat constructor; cbn; intuition discriminate.
Qed.
Example C59_ex : getFields ex_mro false = [AField 1 (lit " DEF"); AField 3 (lit "translation")].
Proof. reflexivity. Qed.
