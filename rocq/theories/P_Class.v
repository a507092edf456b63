(** C77-C80: node classes, their fields and the construction of nodes. *)
From Verif Require Import Base Text PyDict PyDict_Proofs ProtoFn_Model P_ProtoFn Class_Model.
Local Open Scope nat_scope.
Local Open Scope list_scope.

Lemma text_eqb_refl t : text_eqb t t = true.
Proof. apply text_eqb_spec. reflexivity. Qed.

Section Classes.
Variable V : Type.
Variable fname ename : nat -> text.
Variable fdefault : nat -> V.
Variable coerce : nat -> V -> res V.
Notation world := (world V).
Notation as_mro := (as_mro V fname ename).
Notation node_setattr := (node_setattr V fname ename coerce).
Notation node_getattr := (node_getattr V fname ename fdefault coerce).
Notation init := (init V fname ename coerce).
Notation fset := (fset V fname coerce).
Notation cls_fset := (cls_fset V fname coerce).
Notation cls_fget := (cls_fget V fname fdefault coerce).
Notation cls_attr := (cls_attr V).
Notation addField := (addField V fname).
Notation removeField := (removeField V fname).

(** *** Specification *)
(** a class's dictionary has every key once *)
Definition wf (w : world) : Prop := forall c, NoDup (map fst (w_dict V w c)).
(** assigning attributes one by one, up to the first that fails *)
Fixpoint assign_all (w : world) (n : nat) (kws : list (text * V)) : world * res unit :=
  match kws with
  | [] => (w, Ok tt)
  | (k, v) :: r => match node_setattr w n k v with
                   | (w1, Ok _) => assign_all w1 n r
                   | (w1, Exc e) => (w1, Exc e)
                   end
  end.
(** a keyword argument: its name, the field, the value given, the value stored *)
Record arg := mkarg { a_key : text; a_field : nat; a_given : V; a_kept : V }.
Definition keyword (a : arg) : text * V := (a_key a, a_given a).
Definition fits (w : world) (c : nat) (a : arg) : Prop :=
  cls_attr w c (a_key a) = Some (CField V (a_field a)) /\ coerce (a_field a) (a_given a) = Ok (a_kept a).

(** *** Lemmas *)
Lemma first_mro w cs k : class_getattr (map (fun c => map (fun x => (fst x, as_attr V fname ename (snd x))) (w_dict V w c)) cs) k =
  option_map (as_attr V fname ename) (first_attr V w cs k).
Proof.
  induction cs as [|c cs IH]; [reflexivity|]. cbn [map class_getattr first_attr]. rewrite IH. clear IH.
  induction (w_dict V w c) as [|[k' a] d IH]; [reflexivity|]. cbn [map dget fst snd]. destruct (text_eqb k' k); [reflexivity|exact IH].
Qed.
Lemma attr_mro w c k : class_getattr (as_mro w c) k = option_map (as_attr V fname ename) (cls_attr w c k).
Proof. apply first_mro. Qed.
Lemma getField_attr m k a : class_getattr m k = Some a -> getField m k = Ok (FAttr a).
Proof. intros H. unfold getField. cbn [getField_fuel]. rewrite H. reflexivity. Qed.
Lemma same_classes_first (w w' : world) cs k : w_dict V w' = w_dict V w -> first_attr V w' cs k = first_attr V w cs k.
Proof. intros E. induction cs as [|c cs IH]; [reflexivity|]. cbn [first_attr]. rewrite E, IH. reflexivity. Qed.
Definition still (w w' : world) : Prop := w_dict V w' = w_dict V w /\ w_mro V w' = w_mro V w /\ w_type V w' = w_type V w /\ w_cname V w' = w_cname V w.
Lemma still_attr w w' c k : still w w' -> cls_attr w' c k = cls_attr w c k.
Proof. intros (E1 & E2 & _). unfold Class_Model.cls_attr. rewrite E2. apply same_classes_first. exact E1. Qed.
Lemma still_mro w w' c : still w w' -> as_mro w' c = as_mro w c.
Proof. intros (E1 & E2 & _). unfold Class_Model.as_mro. rewrite E1, E2. reflexivity. Qed.
Lemma fset_still w n f v b : still w (fst (fset w n f v b)).
Proof. unfold Class_Model.fset. destruct (coerce f v); [|repeat split]. destruct b; repeat split. Qed.
Lemma still_trans w w1 w2 : still w w1 -> still w1 w2 -> still w w2.
Proof. intros (A & B & C & D) (A' & B' & C' & D'). repeat split; congruence. Qed.

(** C77.  Node( **keywords ) does what assigning the keywords one by one does, if
    all of them are fields: the same values, the same messages in the same order,
    the same error. *)
Theorem C77_constructor_is_assignment : forall kws w n,
  (forall k v, In (k, v) kws -> exists f, cls_attr w (w_type V w n) k = Some (CField V f)) ->
  init w n kws = assign_all w n kws.
Proof.
  induction kws as [|[k v] kws IH]; intros w n H; [reflexivity|]. cbn [Class_Model.init assign_all].
  destruct (H k v (or_introl eq_refl)) as (f & E). pose proof (attr_mro w (w_type V w n) k) as Q. rewrite E in Q. cbn [option_map as_attr] in Q.
  rewrite (getField_attr _ _ _ Q). unfold Class_Model.node_setattr. rewrite E. pose proof (fset_still w n f v true) as St.
  destruct (fset w n f v true) as [w1 [u|e]]; [|reflexivity]. cbn [fst] in St. apply IH. intros k' v' I. destruct St as (S1 & S2 & S3 & S4).
  rewrite S3. destruct (H k' v' (or_intror I)) as (f' & E'). exists f'. rewrite <- E'. apply still_attr. repeat split; assumption.
Qed.

Lemma init_app w n l r : init w n (l ++ r) = match init w n l with (w1, Ok _) => init w1 n r | x => x end.
Proof.
  revert w. induction l as [|[k v] l IH]; intros w; [reflexivity|]. cbn [app Class_Model.init].
  destruct (getField _ k) as [[[f s|e s|i]|x]|e]; try reflexivity. destruct (fset w n f v true) as [w1 [u|e]]; [apply IH|reflexivity].
Qed.
Lemma init_still kws : forall w n, still w (fst (init w n kws)).
Proof.
  induction kws as [|[k v] kws IH]; intros w n; [repeat split|]. cbn [Class_Model.init].
  destruct (getField _ k) as [[[f s|e s|i]|x]|e]; try (repeat split).
  all: pose proof (fset_still w n f v true) as St; destruct (fset w n f v true) as [w1 [u|e]]; try exact (proj1 St); try exact (proj1 (proj2 St));
    try exact (proj1 (proj2 (proj2 St))); try exact (proj2 (proj2 (proj2 St))).
  all: destruct (still_trans _ _ _ St (IH w1 n)) as (A & B & C & D); assumption.
Qed.

(** C77.  With acceptable keywords for fields kept under different names, the
    new node has exactly these values, and one message is sent for each, in
    order. *)
Theorem C77_constructed_node : forall w n args, w_inst V w n = [] ->
  Forall (fits w (w_type V w n)) args -> NoDup (map (fun a => fname (a_field a)) args) ->
  exists w', init w n (map keyword args) = (w', Ok tt) /\
    (forall a, In a args -> node_getattr w' n (a_key a) = (w', Ok (XVal V (a_kept a)))) /\
    (forall nm, ~ In nm (map (fun a => fname (a_field a)) args) -> dget text_eqb (w_inst V w' n) nm = None) /\
    (forall m, m <> n -> w_inst V w' m = w_inst V w m) /\
    w_dict V w' = w_dict V w /\
    w_log V w' = w_log V w ++ map (fun a => SetField V (OfNode n) (a_field a) (a_kept a)) args.
Proof.
  intros w n args E0 F ND.
  assert (G : exists w', init w n (map keyword args) = (w', Ok tt) /\
    (forall a, In a args -> dget text_eqb (w_inst V w' n) (fname (a_field a)) = Some (a_kept a)) /\
    (forall nm, ~ In nm (map (fun a => fname (a_field a)) args) -> dget text_eqb (w_inst V w' n) nm = None) /\
    (forall m, m <> n -> w_inst V w' m = w_inst V w m) /\
    w_log V w' = w_log V w ++ map (fun a => SetField V (OfNode n) (a_field a) (a_kept a)) args).
  { revert F ND. induction args as [|a args IH] using rev_ind; intros F ND.
    - exists w. split; [reflexivity|]. split; [intros ? []|]. split; [intros; rewrite E0; reflexivity|]. split; [auto|]. cbn. rewrite app_nil_r. reflexivity.
    - apply Forall_app in F as [F Fa]. inversion Fa as [|? ? [A1 A2] _]; subst. rewrite map_app in ND. cbn [map] in ND.
      pose proof (NoDup_remove_1 _ _ _ ND) as ND1. pose proof (NoDup_remove_2 _ _ _ ND) as ND2. rewrite app_nil_r in ND1, ND2.
      destruct (IH F ND1) as (w1 & I1 & H1 & H2 & H3 & H4). pose proof (init_still (map keyword args) w n) as St. rewrite I1 in St. cbn [fst] in St.
      rewrite map_app, init_app, I1. cbn [map keyword Class_Model.init]. pose proof St as (_ & _ & Ty & _). rewrite Ty, (still_mro _ _ _ St).
      pose proof (attr_mro w (w_type V w n) (a_key a)) as Q. rewrite A1 in Q. cbn [option_map as_attr] in Q.
      rewrite (getField_attr _ _ _ Q). unfold Class_Model.fset. rewrite A2. eexists. split; [reflexivity|]. cbn [send put_node w_inst w_log]. unfold upd. rewrite Nat.eqb_refl.
      split; [|split; [|split]].
      + intros b Hb. apply in_app_iff in Hb as [Hb|[<-|[]]]; [|apply dget_dset_same; exact text_eqb_spec].
        rewrite dget_dset_other; [exact (H1 b Hb)|exact text_eqb_spec|]. intros Eq. apply ND2. rewrite Eq. apply (in_map (fun a => fname (a_field a))) in Hb. exact Hb.
      + intros nm Hn. rewrite map_app in Hn. rewrite dget_dset_other; [|exact text_eqb_spec|intros <-; apply Hn, in_app_iff; right; left; reflexivity].
        apply H2. intros Hi. apply Hn, in_app_iff. left. exact Hi.
      + intros m Hm. destruct (m =? n) eqn:Em; [apply Nat.eqb_eq in Em; contradiction|]. exact (H3 m Hm).
      + rewrite H4, map_app, <- app_assoc. reflexivity. }
  destruct G as (w' & I1 & H1 & H2 & H3 & H4). pose proof (init_still (map keyword args) w n) as St. rewrite I1 in St. cbn [fst] in St.
  exists w'. split; [exact I1|]. split; [|split; [exact H2|split; [exact H3|split; [apply St|exact H4]]]].
  intros a Ha. rewrite Forall_forall in F. destruct (F a Ha) as (A1 & _). unfold Class_Model.node_getattr. pose proof St as (_ & _ & Ty & _).
  rewrite Ty, (still_attr _ _ _ _ St), A1. unfold Class_Model.fget. rewrite (H1 a Ha). reflexivity.
Qed.

Lemma wf_as_mro w c : wf w -> wf_mro (as_mro w c).
Proof.
  intros W. unfold wf_mro, Class_Model.as_mro. apply Forall_forall. intros d Hd. apply in_map_iff in Hd as (k & <- & _). rewrite map_map. exact (W k).
Qed.
(** C77.  A keyword that is no field is refused; the keywords before it are
    already set.  Unknown names and events give AttributeError, names of other
    attributes and of storage TypeError. *)
Theorem C77_other_keywords_refused : forall w n pre k v post w1, wf w -> init w n pre = (w1, Ok tt) ->
  ((forall r, ~ resolves (as_mro w (w_type V w n)) k r) -> init w n (pre ++ (k, v) :: post) = (w1, Exc AttributeError)) /\
  (forall e s, resolves (as_mro w (w_type V w n)) k (FAttr (AEvent e s)) -> init w n (pre ++ (k, v) :: post) = (w1, Exc AttributeError)) /\
  (forall i, resolves (as_mro w (w_type V w n)) k (FAttr (AOther i)) -> init w n (pre ++ (k, v) :: post) = (w1, Exc TypeError)) /\
  (forall s, resolves (as_mro w (w_type V w n)) k (FName s) -> init w n (pre ++ (k, v) :: post) = (w1, Exc TypeError)).
Proof.
  intros w n pre k v post w1 W I1. pose proof (init_still pre w n) as St. rewrite I1 in St. cbn [fst] in St. pose proof St as (_ & _ & Ty & _).
  pose proof (wf_as_mro w (w_type V w n) W) as Wm. rewrite init_app, I1. cbn [Class_Model.init]. rewrite Ty, (still_mro _ _ _ St).
  split; [|split; [|split]].
  - intros N. pose proof (C58_lookup_follows_documented_order _ k Wm) as L. destruct (getField _ k) as [r|e]; [destruct (N r L)|]. destruct L as [-> _]. reflexivity.
  - intros e s R. rewrite (C58_resolution_unique _ _ _ Wm R). reflexivity.
  - intros i R. rewrite (C58_resolution_unique _ _ _ Wm R). reflexivity.
  - intros s R. rewrite (C58_resolution_unique _ _ _ Wm R). reflexivity.
Qed.

(** C77.  A keyword that resolves to a field -- its name, or set_... and
    ..._changed of it where the class does not use these names -- sets that
    field. *)
Theorem C77_aliases : forall w n k f s v post, wf w -> resolves (as_mro w (w_type V w n)) k (FAttr (AField f s)) ->
  init w n ((k, v) :: post) = match fset w n f v true with (w1, Ok _) => init w1 n post | (w1, Exc e) => (w1, Exc e) end.
Proof.
  intros w n k f s v post W R. cbn [Class_Model.init]. rewrite (C58_resolution_unique _ _ _ (wf_as_mro w _ W) R). reflexivity.
Qed.

(** C77 (refuted for events): what assignment accepts, the constructor refuses. *)
Theorem C77_events_as_keywords_refuted : forall w n k e v, cls_attr w (w_type V w n) k = Some (CEvent V e) ->
  (exists w', node_setattr w n k v = (w', Ok tt)) /\ init w n [(k, v)] = (w, Exc AttributeError).
Proof.
  intros w n k e v E. split; [unfold Class_Model.node_setattr; rewrite E; eauto|]. cbn [Class_Model.init].
  pose proof (attr_mro w (w_type V w n) k) as Q. rewrite E in Q. cbn [option_map as_attr] in Q. rewrite (getField_attr _ _ _ Q). reflexivity.
Qed.

(** *** C78 *)
Lemma upd_same {A} (g : nat -> A) k a : upd g k a k = a.
Proof. unfold upd. rewrite Nat.eqb_refl. reflexivity. Qed.
Lemma upd_other {A} (g : nat -> A) k a x : x <> k -> upd g k a x = g x.
Proof. intros H. unfold upd. apply Nat.eqb_neq in H. rewrite H. reflexivity. Qed.
Lemma set_first_in w c nm a : forall pre post, (forall b, In b pre -> b <> c /\ dget text_eqb (w_dict V w b) nm = None) ->
  first_attr V (cls_setattr V w c nm a) (pre ++ c :: post) nm = Some a.
Proof.
  induction pre as [|b pre IH]; intros post H; cbn [app first_attr cls_setattr put_class w_dict].
  - rewrite upd_same, dget_dset_same; [reflexivity|exact text_eqb_spec].
  - destruct (H b (or_introl eq_refl)) as (N & D). rewrite upd_other, D by exact N. apply IH. intros x Hx. apply H. right. exact Hx.
Qed.
Lemma set_first_other w c nm a k cs : nm <> k \/ ~ In c cs -> first_attr V (cls_setattr V w c nm a) cs k = first_attr V w cs k.
Proof.
  intros H. induction cs as [|b cs IH]; [reflexivity|]. cbn [first_attr cls_setattr put_class w_dict]. fold (put_class V w c (dset text_eqb (w_dict V w c) nm a)).
  change (first_attr V (put_class V w c (dset text_eqb (w_dict V w c) nm a)) cs k) with (first_attr V (cls_setattr V w c nm a) cs k).
  rewrite IH by (destruct H as [H|H]; [left; exact H|right; intros I; apply H; right; exact I]).
  destruct (Nat.eq_dec b c) as [->|N]; [|rewrite upd_other by exact N; reflexivity]. rewrite upd_same.
  destruct H as [H|H]; [|exfalso; apply H; left; reflexivity]. rewrite dget_dset_other; [reflexivity|exact text_eqb_spec|exact H].
Qed.

Lemma visible_top ev m k a : visible m k a -> listed ev a -> top_field ev m k a.
Proof.
  induction 1 as [d m k a I|d m k a I _ IH]; intros L; [exact (tf_here ev d m k a I L)|]. apply tf_up; [|exact (IH L)].
  intros b Ib. exfalso. apply I. exact (in_map fst _ _ Ib).
Qed.
(** C78.  After addField( cls, f ), cls and every class derived from it that does
    not define the name before has f under its name, as attribute, by getField
    and in getFields. *)
Theorem C78_added_field_is_found : forall w c f k pre post, wf w -> w_mro V w k = pre ++ c :: post ->
  (forall b, In b pre -> b <> c /\ dget text_eqb (w_dict V w b) (fname f) = None) ->
  cls_attr (addField w c f) k (fname f) = Some (CField V f) /\
  getField (as_mro (addField w c f) k) (fname f) = Ok (FAttr (AField f (fname f))) /\
  In (AField f (fname f)) (getFields (as_mro (addField w c f) k) false).
Proof.
  intros w c f k pre post W M H.
  assert (A : cls_attr (addField w c f) k (fname f) = Some (CField V f)).
  { unfold Class_Model.cls_attr, Class_Model.addField. cbn [cls_setattr put_class w_mro]. rewrite M. apply set_first_in. exact H. }
  assert (W' : wf_mro (as_mro (addField w c f) k)).
  { apply wf_as_mro. intros b. cbn [Class_Model.addField cls_setattr put_class w_dict]. destruct (Nat.eq_dec b c) as [->|N]; [rewrite upd_same|rewrite upd_other by exact N; apply W].
    exact (nodup_dset text_eqb text_eqb_spec _ _ _ (W c)). }
  pose proof (attr_mro (addField w c f) k (fname f)) as Q. rewrite A in Q. cbn [option_map as_attr] in Q.
  split; [exact A|]. split; [apply getField_attr; exact Q|].
  destruct (C59_fields_once_most_derived _ false W') as (keyed & E & _ & K). rewrite E. apply (in_map snd keyed (fname f, AField f (fname f))). apply K.
  apply visible_top; [apply (visible_getattr _ _ W'); exact Q|constructor].
Qed.
(** C78.  Nothing else changes: other names, and classes not derived from cls. *)
Theorem C78_nothing_else_changes : forall w c f k nm, nm <> fname f \/ ~ In c (w_mro V w k) ->
  cls_attr (addField w c f) k nm = cls_attr w k nm.
Proof.
  intros w c f k nm H. unfold Class_Model.cls_attr, Class_Model.addField. apply set_first_other. cbn [cls_setattr put_class w_mro].
  destruct H as [H|H]; [left; congruence|right; exact H].
Qed.
Lemma ddel_dset {A} (d : list (text * A)) k a : dget text_eqb d k = None -> ddel text_eqb (dset text_eqb d k a) k = d.
Proof.
  induction d as [|[k' a'] d IH]; cbn [dget dset ddel]; [rewrite text_eqb_refl; reflexivity|].
  destruct (text_eqb k' k) eqn:E; [discriminate|]. intros H. cbn [ddel]. rewrite E, (IH H). reflexivity.
Qed.
(** C78.  Removing a field that was added to a class without one of that name
    gives the class back as it was. *)
Theorem C78_remove_undoes_add : forall w c f, dget text_eqb (w_dict V w c) (fname f) = None ->
  exists w', removeField (addField w c f) c f = (w', Ok tt) /\
    (forall b, w_dict V w' b = w_dict V w b) /\ w_mro V w' = w_mro V w /\ w_inst V w' = w_inst V w /\ w_log V w' = w_log V w.
Proof.
  intros w c f D. unfold Class_Model.removeField, cls_delattr, Class_Model.addField, cls_setattr, put_class. cbn [w_dict].
  rewrite !upd_same, dget_dset_same by exact text_eqb_spec. eexists. split; [reflexivity|]. cbn [w_dict w_mro w_inst w_log]. split; [|auto].
  intros b. destruct (Nat.eq_dec b c) as [->|N]; [rewrite upd_same; apply ddel_dset; exact D|]. rewrite !upd_other by exact N. reflexivity.
Qed.
(** C78 (refuted): not every listed field can be removed.  Fields of a base
    class, and fields kept under another name than the attribute, are refused. *)
Theorem C78_listed_fields_can_be_removed_refuted : forall w c f, dget text_eqb (w_dict V w c) (fname f) = None ->
  removeField w c f = (w, Exc AttributeError).
Proof. intros w c f D. unfold Class_Model.removeField, cls_delattr. rewrite D. reflexivity. Qed.
(** C78.  A removed attribute shows the one of the base classes again. *)
Theorem C78_removed_shows_base : forall w c nm a rest, wf w -> w_mro V w c = c :: rest -> ~ In c rest ->
  dget text_eqb (w_dict V w c) nm = Some a ->
  exists w', removeNamed V w c nm = (w', Ok tt) /\ cls_attr w' c nm = first_attr V w rest nm /\
    forall k, k <> nm -> cls_attr w' c k = cls_attr w c k.
Proof.
  intros w c nm a rest W M N D. unfold removeNamed, cls_delattr. rewrite D. eexists. split; [reflexivity|].
  assert (R : forall k, first_attr V (put_class V w c (ddel text_eqb (w_dict V w c) nm)) rest k = first_attr V w rest k).
  { intros k. clear M. induction rest as [|b rest IH]; [reflexivity|]. cbn [first_attr]. rewrite IH by (intros I; apply N; right; exact I).
    cbn [put_class w_dict]. rewrite upd_other by (intros ->; apply N; left; reflexivity). reflexivity. }
  unfold Class_Model.cls_attr. cbn [put_class w_mro]. rewrite M. split.
  - cbn [first_attr]. rewrite R. cbn [put_class w_dict]. rewrite upd_same, dget_ddel_same; [reflexivity|exact text_eqb_spec|exact (W c)].
  - intros k Hk. cbn [first_attr]. rewrite R. cbn [put_class w_dict]. rewrite upd_same, dget_ddel_other; [reflexivity|exact text_eqb_spec|congruence].
Qed.

(** *** C79: values kept in classes *)
(** C79.  What a field stores in a class is read back from it, and no other class
    or field is affected. *)
Theorem C79_class_value_reads_back : forall w c f v b w1 u, cls_fset w c f v b = (w1, Ok u) ->
  coerce f v = Ok u /\ cls_fget w1 c f = (w1, Ok (XVal V u)) /\
  forall c' f', c' <> c \/ fname f' <> fname f -> snd (cls_fget w1 c' f') = snd (cls_fget w c' f').
Proof.
  intros w c f v b w1 u H. unfold Class_Model.cls_fset in H. destruct (coerce f v) as [u'|e]; [|discriminate]. split; [congruence|].
  assert (D : w_dict V w1 = upd (w_dict V w) c (dset text_eqb (w_dict V w c) (fname f) (CVal V u))) by (destruct b; injection H as <- <-; reflexivity).
  split.
  - unfold Class_Model.cls_fget. rewrite D, upd_same, dget_dset_same by exact text_eqb_spec. reflexivity.
  - intros c' f' Hd. unfold Class_Model.cls_fget. assert (E : dget text_eqb (w_dict V w1 c') (fname f') = dget text_eqb (w_dict V w c') (fname f')).
    { rewrite D. destruct (Nat.eq_dec c' c) as [->|N]; [|rewrite upd_other by exact N; reflexivity]. rewrite upd_same.
      destruct Hd as [Hd|Hd]; [congruence|]. apply dget_dset_other; [exact text_eqb_spec|congruence]. }
    rewrite E. destruct (dget text_eqb (w_dict V w c') (fname f')) as [[| | |]|]; try reflexivity.
    unfold Class_Model.cls_fset. destruct (coerce f' (fdefault f')); reflexivity.
Qed.
(** C79.  A class without a value of its own has the field's default, whatever its
    base classes have. *)
Theorem C79_unset_class_value : forall w c f, dget text_eqb (w_dict V w c) (fname f) = None ->
  snd (cls_fget w c f) = match coerce f (fdefault f) with Ok u => Ok (XVal V u) | Exc e => Exc (wrap e) end.
Proof. intros w c f D. unfold Class_Model.cls_fget, Class_Model.cls_fset. rewrite D. destruct (coerce f (fdefault f)); reflexivity. Qed.
(** C79.  Reading tells the watchers nothing, of nodes as of classes, and gives the
    same when repeated; it leaves the values of all other nodes alone. *)
Theorem C79_reading_is_silent : forall w n name w1 r, node_getattr w n name = (w1, r) ->
  w_log V w1 = w_log V w /\ snd (node_getattr w1 n name) = r /\ w_dict V w1 = w_dict V w /\ (forall m, m <> n -> w_inst V w1 m = w_inst V w m).
Proof.
  intros w n name w1 r H. unfold Class_Model.node_getattr in H. destruct (cls_attr w (w_type V w n) name) as [a|] eqn:A.
  - destruct a as [f|e|t|v] eqn:Ea; subst a.
    1: { unfold Class_Model.fget in H. destruct (dget text_eqb (w_inst V w n) (fname f)) as [v|] eqn:D.
         - injection H as <- <-. repeat split; try reflexivity. unfold Class_Model.node_getattr. rewrite A. unfold Class_Model.fget. rewrite D. reflexivity.
         - unfold Class_Model.fset in H. destruct (coerce f (fdefault f)) as [u|x] eqn:C; cbn [fst snd] in H; injection H as <- <-; repeat split; try reflexivity.
           + unfold Class_Model.node_getattr. cbn [put_node w_type]. rewrite (still_attr w) by (repeat split).
             rewrite A. unfold Class_Model.fget. cbn [put_node w_inst]. rewrite upd_same, dget_dset_same by exact text_eqb_spec. reflexivity.
           + intros m N. cbn [put_node w_inst]. apply upd_other. exact N.
           + unfold Class_Model.node_getattr. rewrite A. unfold Class_Model.fget. rewrite D. unfold Class_Model.fset. rewrite C. reflexivity. }
    all: match type of H with match ?d with _ => _ end = _ => destruct d eqn:D end; injection H as <- <-; repeat split; try reflexivity;
         unfold Class_Model.node_getattr; rewrite A, D; reflexivity.
  - match type of H with match ?d with _ => _ end = _ => destruct d eqn:D end; injection H as <- <-; repeat split; try reflexivity;
         unfold Class_Model.node_getattr; rewrite A, D; reflexivity.
Qed.
Theorem C79_reading_a_class_is_silent : forall w c f w1 r, cls_fget w c f = (w1, r) ->
  w_log V w1 = w_log V w /\ w_inst V w1 = w_inst V w /\ snd (cls_fget w1 c f) = r.
Proof.
  intros w c f w1 r H. unfold Class_Model.cls_fget in H. destruct (dget text_eqb (w_dict V w c) (fname f)) as [a|] eqn:D.
  - destruct a; injection H as <- <-; repeat split; unfold Class_Model.cls_fget; rewrite D; reflexivity.
  - unfold Class_Model.cls_fset in H. destruct (coerce f (fdefault f)) as [u|x] eqn:C; injection H as <- <-; repeat split.
    + unfold Class_Model.cls_fget. cbn [cls_setattr put_class w_dict]. rewrite upd_same, dget_dset_same by exact text_eqb_spec. reflexivity.
    + unfold Class_Model.cls_fget. rewrite D. unfold Class_Model.cls_fset. rewrite C. reflexivity.
Qed.
(** C79 (refuted): reading a class's value of a field that its nodes have too --
    getExternalURL( cls ), which saving a PROTO does -- takes the field away from
    the nodes: assignment, that stored the coerced value and told the watchers,
    now stores anything and tells nobody. *)
Theorem C79_reading_leaves_field_intact_refuted : forall w n f v u0 rest, w_mro V w (w_type V w n) = w_type V w n :: rest ->
  dget text_eqb (w_dict V w (w_type V w n)) (fname f) = None -> cls_attr w (w_type V w n) (fname f) = Some (CField V f) ->
  coerce f (fdefault f) = Ok u0 ->
  let w1 := fst (cls_fget w (w_type V w n) f) in
  (forall u, coerce f v = Ok u -> exists w2, node_setattr w n (fname f) v = (w2, Ok tt) /\
     dget text_eqb (w_inst V w2 n) (fname f) = Some u /\ w_log V w2 = w_log V w ++ [SetField V (OfNode n) f u]) /\
  exists w2, node_setattr w1 n (fname f) v = (w2, Ok tt) /\
     dget text_eqb (w_inst V w2 n) (fname f) = Some v /\ w_log V w2 = w_log V w.
Proof.
  intros w n f v u0 rest M D A Cd. cbn zeta. split.
  - intros u Cv. unfold Class_Model.node_setattr. rewrite A. unfold Class_Model.fset. rewrite Cv. eexists. split; [reflexivity|]. cbn [send put_node w_inst w_log].
    rewrite upd_same, dget_dset_same by exact text_eqb_spec. auto.
  - unfold Class_Model.cls_fget, Class_Model.cls_fset. rewrite D, Cd. cbn [fst]. unfold Class_Model.node_setattr, Class_Model.cls_attr. cbn [cls_setattr put_class w_mro w_type].
    rewrite M. cbn [first_attr w_dict cls_setattr put_class]. rewrite upd_same, dget_dset_same by exact text_eqb_spec. eexists. split; [reflexivity|].
    cbn [put_node w_inst w_log cls_setattr put_class]. rewrite upd_same, dget_dset_same by exact text_eqb_spec. auto.
Qed.
(** C79 (refuted): values kept in classes can never be deleted. *)
Theorem C79_class_values_can_be_deleted_refuted : forall accel w c f,
  w_dict V (fst (cls_fdel V fname accel w c f)) = w_dict V w.
Proof. intros accel w c f. unfold cls_fdel. destruct accel; [reflexivity|]. destruct (dget _ _ _); reflexivity. Qed.

(** *** C80: names of prototypes *)
(** C80.  A name given to a prototype is read back; an empty one means the name of
    the Python class.  Classes derived from it have the name too, unless one in
    between has its own.  No other class is renamed. *)
Theorem C80_name_reads_back : forall w c s k pre post, w_mro V w k = pre ++ c :: post ->
  (forall b, In b pre -> b <> c /\ dget text_eqb (w_dict V w b) (lit "PROTO") = None) ->
  protoName V (set_protoName V w c s) k = Ok (inl match s with [] => w_cname V w k | _ => s end).
Proof.
  intros w c s k pre post M H. unfold protoName, set_protoName, Class_Model.cls_attr. cbn [cls_setattr put_class w_mro w_cname]. rewrite M.
  fold (put_class V w c (dset text_eqb (w_dict V w c) (lit "PROTO") (CStr V s))). change (put_class V w c (dset text_eqb (w_dict V w c) (lit "PROTO") (CStr V s))) with (cls_setattr V w c (lit "PROTO") (CStr V s)).
  rewrite (set_first_in w c (lit "PROTO") (CStr V s) pre post H). destruct s; reflexivity.
Qed.
Theorem C80_others_keep_their_names : forall w c s k, ~ In c (w_mro V w k) -> protoName V (set_protoName V w c s) k = protoName V w k.
Proof.
  intros w c s k H. unfold protoName, set_protoName, Class_Model.cls_attr. rewrite set_first_other by (right; exact H). reflexivity.
Qed.

(** *** prototype() *)
Lemma with_fields_nodup ms : forall d : list (text * cattr V), NoDup (map fst d) -> NoDup (map fst (with_fields V d ms)).
Proof. induction ms as [|x ms IH]; intros d H; [exact H|]. cbn [with_fields]. apply IH. exact (nodup_dset text_eqb text_eqb_spec d _ _ H). Qed.
Lemma with_fields_get ms k : forall d : list (text * cattr V), dget text_eqb (with_fields V d ms) k =
  match dget text_eqb (rev ms) k with Some a => Some a | None => dget text_eqb d k end.
Proof.
  induction ms as [|x ms IH]; intros d; [reflexivity|]. cbn [with_fields rev]. rewrite IH. clear IH.
  assert (Q : forall l : list (text * cattr V), dget text_eqb (l ++ [x]) k = match dget text_eqb l k with Some a => Some a | None => dget text_eqb [x] k end).
  { induction l as [|[k' a] l IH]; [reflexivity|]. cbn [app dget]. destruct (text_eqb k' k); [reflexivity|exact IH]. }
  rewrite Q. destruct (dget text_eqb (rev ms) k); [reflexivity|]. destruct x as [kx ax]. cbn [dget fst snd].
  destruct (text_eqb kx k) eqn:E; [apply text_eqb_spec in E; subst; apply dget_dset_same; exact text_eqb_spec|].
  apply dget_dset_other; [exact text_eqb_spec|]. intros ->. rewrite text_eqb_refl in E. discriminate.
Qed.
(** C80.  prototype( name, members ): the class has the name; the last member of
    each name is its attribute; under all other names it shows what its bases
    do.  The bases are unchanged. *)
Theorem C80_prototype : forall w c name bases ms, ~ In c bases -> ~ In (lit "PROTO") (map fst ms) -> name <> [] ->
  let w' := prototype V w c name bases ms in
  protoName V w' c = Ok (inl name) /\
  (forall l k a r, ms = l ++ (k, a) :: r -> ~ In k (map fst r) -> cls_attr w' c k = Some a) /\
  (forall k, ~ In k (map fst ms) -> k <> lit "PROTO" -> cls_attr w' c k = first_attr V w bases k) /\
  (forall b k, b <> c -> ~ In c (w_mro V w b) -> cls_attr w' b k = cls_attr w b k).
Proof.
  intros w c name bases ms Nb Np Ne w'.
  assert (R : forall cs k, ~ In c cs -> first_attr V w' cs k = first_attr V w cs k).
  { intros cs k. induction cs as [|b cs IH]; intros N; [reflexivity|]. cbn [first_attr]. rewrite IH by (intros I; apply N; right; exact I).
    subst w'. cbn [prototype w_dict]. rewrite upd_other by (intros ->; apply N; left; reflexivity). reflexivity. }
  assert (G : forall k, cls_attr w' c k = match dget text_eqb (rev ms) k with Some a => Some a
                                          | None => if text_eqb (lit "PROTO") k then Some (CStr V name) else first_attr V w bases k end).
  { intros k. unfold Class_Model.cls_attr. subst w'. cbn [prototype w_mro]. rewrite upd_same. cbn [first_attr]. fold (prototype V w c name bases ms). rewrite R by exact Nb.
    cbn [prototype w_dict]. rewrite upd_same, with_fields_get. destruct (dget text_eqb (rev ms) k); [reflexivity|]. cbn [dget]. destruct (text_eqb (lit "PROTO") k); reflexivity. }
  split; [|split; [|split]].
  - unfold protoName. rewrite G. assert (X : dget text_eqb (rev ms) (lit "PROTO") = None).
    { apply (dget_None_notin text_eqb text_eqb_spec). unfold dkeys. rewrite map_rev. intros I. apply Np. apply in_rev. exact I. }
    rewrite X, text_eqb_refl. destruct name; [contradiction|reflexivity].
  - intros l k a r -> Hr. rewrite G. rewrite rev_app_distr. cbn [rev]. rewrite <- app_assoc. cbn [app].
    assert (X : dget text_eqb (rev r) k = None) by (apply (dget_None_notin text_eqb text_eqb_spec); unfold dkeys; rewrite map_rev; intros I; apply Hr; apply in_rev; exact I).
    clear - X. induction (rev r) as [|[k' a'] q IH]; cbn [app dget] in *; [rewrite text_eqb_refl; reflexivity|]. destruct (text_eqb k' k); [discriminate|exact (IH X)].
  - intros k Hk Hp. rewrite G. assert (X : dget text_eqb (rev ms) k = None) by (apply (dget_None_notin text_eqb text_eqb_spec); unfold dkeys; rewrite map_rev; intros I; apply Hk; apply in_rev; exact I).
    rewrite X. destruct (text_eqb (lit "PROTO") k) eqn:E; [apply text_eqb_spec in E; congruence|reflexivity].
  - intros b k Hb Hm. unfold Class_Model.cls_attr. replace (w_mro V w' b) with (w_mro V w b) by (subst w'; cbn [prototype w_mro]; rewrite upd_other by exact Hb; reflexivity).
    apply R. exact Hm.
Qed.
End Classes.
Print Assumptions C77_constructor_is_assignment.
Print Assumptions C77_constructed_node.
Print Assumptions C77_other_keywords_refused.
Print Assumptions C77_aliases.
Print Assumptions C77_events_as_keywords_refuted.
Print Assumptions C78_added_field_is_found.
Print Assumptions C78_nothing_else_changes.
Print Assumptions C78_remove_undoes_add.
Print Assumptions C78_listed_fields_can_be_removed_refuted.
Print Assumptions C78_removed_shows_base.
Print Assumptions C79_class_value_reads_back.
Print Assumptions C79_unset_class_value.
Print Assumptions C79_reading_is_silent.
Print Assumptions C79_reading_a_class_is_silent.
Print Assumptions C79_reading_leaves_field_intact_refuted.
Print Assumptions C79_class_values_can_be_deleted_refuted.
Print Assumptions C80_name_reads_back.
Print Assumptions C80_others_keep_their_names.
Print Assumptions C80_prototype.

(** *** a concrete world: Node with DEF and externalURL, Sphere with a radius and
    an event; numbers are stored without their tens, 100 and above are refused *)
Definition ex_fname (f : nat) : text := match f with 0 => lit " DEF" | 1 => lit "externalURL" | 2 => lit "radius" | _ => lit "color" end.
Definition ex_ename (e : nat) : text := lit "touched".
Definition ex_coerce (f v : nat) : res nat := if v <? 100 then Ok (v mod 10) else Exc TypeError.
Definition ex_world : world nat := mkw nat
  (fun c => match c with
            | 0 => [(lit "DEF", CField nat 0); (lit "externalURL", CField nat 1); (lit "PROTO", CStr nat [])]
            | 1 => [(lit "radius", CField nat 2); (lit "touched", CEvent nat 0); (lit "PROTO", CStr nat (lit "Sphere"))]
            | _ => []
            end)
  (fun c => match c with 0 => [0] | c => [c; 0] end)
  (fun c => match c with 0 => lit "Node" | _ => lit "Sphere" end) (fun n => 1) (fun n => []) [].
Lemma ex_wf : wf nat ex_world.
Proof. intros [|[|c]]; repeat constructor; cbn; intuition discriminate. Qed.
Example C77_demo : exists w', init nat ex_fname ex_ename ex_coerce ex_world 5 [(lit "radius", 42); (lit "DEF", 7)] = (w', Ok tt) /\
  node_getattr nat ex_fname ex_ename (fun _ => 0) ex_coerce w' 5 (lit "radius") = (w', Ok (XVal nat 2)) /\
  w_log nat w' = [SetField nat (OfNode 5) 2 2; SetField nat (OfNode 5) 0 7].
Proof.
  destruct (C77_constructed_node nat ex_fname ex_ename (fun _ => 0) ex_coerce ex_world 5
    [mkarg nat (lit "radius") 2 42 2; mkarg nat (lit "DEF") 0 7 7]) as (w' & H1 & H2 & _ & _ & _ & H3).
  - reflexivity.
  - repeat constructor.
  - repeat constructor; cbn; intuition discriminate.
  - exists w'. split; [exact H1|]. split; [exact (H2 _ (or_introl eq_refl))|exact H3].
Qed.
Example C77_demo_errors :
  snd (init nat ex_fname ex_ename ex_coerce ex_world 5 [(lit "radius", 42); (lit "size", 7)]) = Exc AttributeError /\
  snd (init nat ex_fname ex_ename ex_coerce ex_world 5 [(lit "PROTO", 7)]) = Exc TypeError /\
  snd (init nat ex_fname ex_ename ex_coerce ex_world 5 [(lit " DEF", 7)]) = Exc TypeError /\
  snd (init nat ex_fname ex_ename ex_coerce ex_world 5 [(lit "touched", 7)]) = Exc AttributeError /\
  snd (init nat ex_fname ex_ename ex_coerce ex_world 5 [(lit "radius", 100)]) = Exc ValueError /\
  snd (init nat ex_fname ex_ename ex_coerce ex_world 5 [(lit "set_radius", 7)]) = Ok tt.
Proof. vm_compute. auto 10. Qed.
Example C77_alias_demo : resolves (as_mro nat ex_fname ex_ename ex_world 1) (lit "set_radius") (FAttr (AField 2 (lit "radius"))).
Proof.
  assert (W := wf_as_mro nat ex_fname ex_ename ex_world 1 ex_wf).
  pose proof (C58_lookup_follows_documented_order _ (lit "set_radius") W) as H. vm_compute in H. exact H.
Qed.
Example C78_demo : cls_attr nat (addField nat ex_fname ex_world 0 3) 1 (lit "color") = Some (CField nat 3) /\
  In (AField 3 (lit "color")) (getFields (as_mro nat ex_fname ex_ename (addField nat ex_fname ex_world 0 3) 1) false) /\
  removeField nat ex_fname ex_world 0 0 = (ex_world, Exc AttributeError).
Proof.
  destruct (C78_added_field_is_found nat ex_fname ex_ename ex_world 0 3 1 [1] [] ex_wf eq_refl) as (H1 & _ & H2).
  - intros b [<-|[]]. split; [discriminate|reflexivity].
  - split; [exact H1|]. split; [exact H2|]. apply C78_listed_fields_can_be_removed_refuted. reflexivity.
Qed.
Example C79_demo : let w1 := fst (cls_fget nat ex_fname (fun _ => 0) ex_coerce ex_world 1 1) in
  (exists w2, node_setattr nat ex_fname ex_ename ex_coerce ex_world 5 (lit "externalURL") 42 = (w2, Ok tt) /\
     dget text_eqb (w_inst nat w2 5) (lit "externalURL") = Some 2 /\ w_log nat w2 = [SetField nat (OfNode 5) 1 2]) /\
  exists w2, node_setattr nat ex_fname ex_ename ex_coerce w1 5 (lit "externalURL") 42 = (w2, Ok tt) /\
     dget text_eqb (w_inst nat w2 5) (lit "externalURL") = Some 42 /\ w_log nat w2 = [].
Proof.
  destruct (C79_reading_leaves_field_intact_refuted nat ex_fname ex_ename (fun _ => 0) ex_coerce ex_world 5 1 42 0 [0]) as (H1 & H2); try reflexivity.
  split; [exact (H1 2 eq_refl)|exact H2].
Qed.
Example C80_demo : protoName nat ex_world 1 = Ok (inl (lit "Sphere")) /\ protoName nat ex_world 0 = Ok (inl (lit "Node")) /\
  protoName nat (prototype nat ex_world 2 (lit "Ball") [1; 0] [(lit "color", CField nat 3)]) 2 = Ok (inl (lit "Ball")) /\
  cls_attr nat (prototype nat ex_world 2 (lit "Ball") [1; 0] [(lit "color", CField nat 3)]) 2 (lit "radius") = Some (CField nat 2).
Proof. vm_compute. auto. Qed.
