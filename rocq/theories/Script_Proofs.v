(** Reading Scripts: what is read later leaves a Script as it is.  For P_Script. *)
From Coq Require Import Reals SpecFloat.
From Flocq Require Import Core.Core IEEE754.BinarySingleNaN.
From Verif Require Import Base Text PyDict PyDict_Proofs Float Coerce_Model Coerce_Spec Grammar_Model Grammar_Proofs Lex_Spec Lex_Proofs
  Doc_Spec Doc_Proofs SceneGraph_Model VrmlStr_Model VrmlStr_Values Scene_Model Scene_Spec Build_Model Reading_Spec Reading_Proofs Reading_Facts Script_Spec.
Local Open Scope nat_scope.
Local Open Scope list_scope.

(** *** no node other than a Script has the type Script *)
Fixpoint typed_item (i : sitem) : bool :=
  match i with
  | SNode _ gi l => negb (text_eqb gi script_gi) && forallb (fun p => match snd p with SVal its => forallb typed_item its | SIs _ => true end) l
  | SScript _ l => forallb (fun x => match x with SSField _ _ _ (SVal its) | SSAttr _ (SVal its) => forallb typed_item its | _ => true end) l
  | _ => true
  end.
Definition typed_sel (x : ssel) : bool :=
  match x with SSField _ _ _ (SVal its) | SSAttr _ (SVal its) => forallb typed_item its | _ => true end.
Definition typed_attr (p : text * sval) : bool := match snd p with SVal its => forallb typed_item its | SIs _ => true end.
Definition typed_root (r : sroot) : bool := match r with SRItem i => typed_item i | _ => true end.
Lemma not_script gi : starts_with (lit "Script") gi = false -> text_eqb gi script_gi = false.
Proof. intros H. destruct (text_eqb gi script_gi) eqn:E; [|reflexivity]. apply text_eqb_spec in E. subst. vm_compute in H. discriminate. Qed.
Lemma safe_not_script gi : safe_name gi = true -> text_eqb gi script_gi = false.
Proof. intros H. destruct (text_eqb gi script_gi) eqn:E; [|reflexivity]. apply text_eqb_spec in E. subst. vm_compute in H. discriminate. Qed.
Lemma doc_typed :
  (forall i k, ok_item i k -> typed_item (sk_item i) = true) /\
  (forall n, ok_node n -> typed_item (sk_node n) = true) /\
  (forall l k, ok_attrs l k -> forallb typed_attr (sk_attrs l) = true) /\
  (forall f k, ok_field f k -> forallb typed_item (sk_field f) = true) /\
  (forall l br k, ok_items br l k -> forallb typed_item (sk_items l) = true) /\
  (forall l k, ok_selems l k -> forallb typed_sel (sk_selems l) = true).
Proof.
  apply doc_mut; cbn [ok_item ok_node ok_attrs ok_field ok_items ok_selems sk_item sk_node sk_attrs sk_field sk_items sk_selems]; try (intros; reflexivity).
  - intros n IH k H. exact (IH H).
  - intros d gi w1 w2 l IH (Hd & _ & _ & Hl). cbn [typed_item]. fold typed_attr. apply andb_true_iff. split; [|exact (IH _ Hl)].
    destruct d as [[[w nm] w']|]; [rewrite not_script by apply Hd|rewrite safe_not_script by exact Hd]; reflexivity.
  - intros d w1 w2 l IH (Hd & _ & _ & Hl). cbn [typed_item]. fold typed_sel. exact (IH _ Hl).
  - intros nm w f IHf l IHl k (_ & _ & _ & Hf & Hl). cbn [forallb]. apply andb_true_iff. split; [exact (IHf _ Hf)|exact (IHl _ Hl)].
  - intros nm w w1 pn w2 l IHl k H. cbn [forallb]. apply (IHl k). apply H.
  - intros w l IH w' k (_ & _ & H). exact (IH _ _ H).
  - intros l IH k (_ & H). exact (IH _ _ H).
  - intros i IHi w l IHl br k (_ & Hi & _ & Hl). cbn [forallb]. apply andb_true_iff. split; [exact (IHi _ Hi)|exact (IHl _ _ Hl)].
  - intros ex w ty w1 nm w2 f IHf l IHl k (_ & _ & Hf & Hl). cbn [forallb]. apply andb_true_iff. split; [exact (IHf _ Hf)|exact (IHl _ Hl)].
  - intros ex w ty w1 nm w2 w3 pn w4 l IHl k H. cbn [forallb]. apply (IHl k). apply H.
  - intros ex w ty w1 nm w2 l IHl k H. cbn [forallb]. apply (IHl k). apply H.
  - intros ex w ty w1 nm w2 w3 pn w4 l IHl k H. cbn [forallb]. apply (IHl k). apply H.
  - intros nm w f IHf l IHl k (_ & _ & _ & _ & Hf & Hl). cbn [forallb]. apply andb_true_iff. split; [exact (IHf _ Hf)|exact (IHl _ Hl)].
  - intros nm w w1 pn w2 l IHl k H. cbn [forallb]. apply (IHl k). apply H.
Qed.
Lemma roots_typed :
  (forall r k, ok_root r k -> typed_root (sk_root r) = true) /\
  (forall l k, ok_roots l k -> forallb typed_root (sk_roots l) = true).
Proof.
  apply root_mut_all; cbn [ok_root ok_roots sk_root sk_roots]; try (intros; reflexivity).
  - intros n k H. apply (proj1 (proj2 doc_typed) n H).
  - intros r IHr w l IHl k (Hr & _ & Hl). cbn [forallb]. apply andb_true_iff. split; [exact (IHr _ Hr)|exact (IHl _ Hl)].
Qed.
Lemma doc_is_typed d : ok_doc d -> forallb typed_root (sk_doc d) = true.
Proof. destruct d as [h w l]. intros (_ & _ & H & _). exact (proj2 roots_typed l _ H). Qed.

(** *** Scripts are left alone *)
Section Alone.
Variable P : prims.
Variable base : list (text * list fdecl).
Variable inp : bool.
Variable e : list (text * pdef).
(** script [m] is as before *)
Definition same (m : nat) (st st' : rstate) : Prop :=
  (forall x, member_of st' m x = member_of st m x) /\ (forall x, value_set st' m x = value_set st m x).
Lemma same_refl m st : same m st st. Proof. split; reflexivity. Qed.
Lemma same_trans m a b c : same m a b -> same m b c -> same m a c.
Proof. intros [A B] [C D]. split; intros x; [rewrite C|rewrite D]; auto. Qed.
Definition is_script (st : rstate) (m : nat) : Prop := exists d, nth_error (r_nodes st) m = Some (script_gi, d).
Definition going (X : nat -> Prop) (st st' : rstate) : Prop := later st st' /\ forall m, is_script st m -> ~ X m -> same m st st'.
Definition none (m : nat) : Prop := False.
Lemma later_node st st' m x : later st st' -> nth_error (r_nodes st) m = Some x -> nth_error (r_nodes st') m = Some x.
Proof. intros (l & E) H. rewrite E. rewrite nth_error_app1; [exact H|]. apply nth_error_Some. rewrite H. discriminate. Qed.
Lemma later_script st st' m : later st st' -> is_script st m -> is_script st' m.
Proof. intros L (d & E). exists d. exact (later_node _ _ _ _ L E). Qed.
Lemma going_refl X st : going X st st.
Proof. split; [apply later_refl|]. intros. apply same_refl. Qed.
Lemma going_trans X a b c : going X a b -> going X b c -> going X a c.
Proof. intros [L1 S1] [L2 S2]. split; [exact (later_trans _ _ _ L1 L2)|]. intros m H N. exact (same_trans _ _ _ _ (S1 m H N) (S2 m (later_script _ _ _ L1 H) N)). Qed.
Lemma going_more (X Y : nat -> Prop) a b : (forall m, X m -> Y m) -> going X a b -> going Y a b.
Proof. intros I [L G]. split; [exact L|]. intros m H N. apply G; auto. Qed.
Lemma going_is X pn n nm st : going X st (with_is pn n nm st).
Proof. split; [exists []; cbn; rewrite app_nil_r; reflexivity|]. intros. split; reflexivity. Qed.
Lemma going_maps X n ms : forall st, going X st (with_maps n ms st).
Proof.
  unfold with_maps. induction ms as [|m ms IH]; intros st; cbn [fold_left]; [apply going_refl|].
  exact (going_trans _ _ _ _ (going_is X _ _ _ st) (IH _)).
Qed.
Lemma going_enter X d gi st : going X st (enter_node d gi st).
Proof. split; [eexists; reflexivity|]. intros. split; reflexivity. Qed.
Lemma going_member n nm m st : going (eq n) st (with_member n nm m st).
Proof.
  split; [exists []; cbn; rewrite app_nil_r; reflexivity|]. intros k _ N. split; intros x; [|reflexivity].
  rewrite member_of_with. destruct (n =? k) eqn:E; [|reflexivity]. apply Nat.eqb_eq in E. contradiction.
Qed.
Lemma find_none {A} (f : A -> bool) l : (forall x, In x l -> f x = false) -> find f l = None.
Proof. induction l as [|x l IH]; intros H; [reflexivity|]. cbn [find]. rewrite (H x) by (left; reflexivity). apply IH. intros y Hy. apply H. right. exact Hy. Qed.
Lemma going_sets l st : going (fun m => In m (map (fun x => fst (fst x)) l)) st (with_sets l st).
Proof.
  split; [exists []; cbn; rewrite app_nil_r; reflexivity|]. intros k _ N. split; intros x; [reflexivity|].
  rewrite value_set_old, find_none; [reflexivity|]. intros y Hy. destruct (fst (fst y) =? k) eqn:E; [|reflexivity].
  apply Nat.eqb_eq in E. exfalso. apply N. rewrite <- E. exact (in_map (fun x => fst (fst x)) _ _ Hy).
Qed.
Lemma going_set n gi f v st d : text_eqb gi script_gi = false -> nth_error (r_nodes st) n = Some (gi, d) -> going none st (set_value e n gi f v st).
Proof.
  intros G Nn. split.
  - unfold set_value. destruct (passed_on e gi f); exists []; cbn; rewrite app_nil_r; reflexivity.
  - intros m (dm & Em) _. unfold set_value. destruct (passed_on e gi f); apply going_sets; try (exists dm; exact Em).
    + rewrite map_map. cbn [fst]. rewrite map_id. intros H. apply filter_In in H as [_ H]. rewrite Em in H.
      apply text_eqb_spec in H. rewrite <- H, text_eqb_refl in G. discriminate.
    + cbn [map fst In]. intros [<-|[]]. rewrite Nn in Em. injection Em as -> _. rewrite text_eqb_refl in G. discriminate.
Qed.
Lemma entered d gi st : nth_error (r_nodes (enter_node d gi st)) (r_next st) = Some (gi, match d with Some x => x | None => [] end).
Proof. cbn [enter_node r_nodes]. unfold r_next. rewrite nth_error_app2, Nat.sub_diag by lia. reflexivity. Qed.
Lemma going_new (st st1 st' : rstate) : later st st1 -> r_next st < r_next st1 -> going none st st1 -> going (eq (r_next st)) st1 st' -> going none st st'.
Proof.
  intros L Lt [_ G1] [L2 G2]. split; [exact (later_trans _ _ _ L L2)|]. intros m H N.
  refine (same_trans _ _ _ _ (G1 m H N) (G2 m (later_script _ _ _ L H) _)). intros <-. destruct H as (d & H).
  unfold r_next in H. assert (nth_error (r_nodes st) (List.length (r_nodes st)) <> None) as K by (rewrite H; discriminate). apply nth_error_Some in K. lia.
Qed.
Theorem all_going :
  (forall st i st' r, item_reads P base inp e st i st' r -> typed_item i = true -> going none st st') /\
  (forall st l st' rs, items_read P base inp e st l st' rs -> forallb typed_item l = true -> going none st st') /\
  (forall n gi fs st l st', attrs_read P base inp e n gi fs st l st' -> text_eqb gi script_gi = false -> forallb typed_attr l = true ->
     (exists d, nth_error (r_nodes st) n = Some (gi, d)) -> going none st st') /\
  (forall st f its st' v, value_reads P base inp e st f its st' v -> forallb typed_item its = true -> going none st st') /\
  (forall st ex ty its st' m, member_reads P base inp e st ex ty its st' m -> forallb typed_item its = true -> going none st st') /\
  (forall n st ms l st' ms', sdecls_read P base inp e n st ms l st' ms' -> forallb typed_sel l = true -> going (eq n) st st') /\
  (forall n st l st', sattrs_read P base inp e n st l st' -> forallb typed_sel l = true -> going (eq n) st st').
Proof.
  apply item_reads_all; try (intros; apply going_refl).
  - intros st d gi fs l st' _ _ _ IH H. cbn [typed_item] in H. fold typed_attr in H. apply andb_true_iff in H as [G H]. apply negb_true_iff in G.
    refine (going_trans _ _ _ _ (going_enter _ d gi st) (IH G H _)). eexists. apply entered.
  - intros st d l st1 ms st' _ IH1 _ _ IH2 H. cbn [typed_item] in H. fold typed_sel in H.
    refine (going_new st (enter_node d script_gi st) st' (proj1 (going_enter none _ _ _)) _ (going_enter _ _ _ _) _).
    + unfold r_next. cbn [enter_node r_nodes]. rewrite app_length. cbn. lia.
    + exact (going_trans _ _ _ _ (IH1 H) (going_trans _ _ _ _ (going_maps _ _ _ _) (IH2 H))).
  - intros st i st1 r l st' rs _ IH1 _ IH2 H. cbn [forallb] in H. apply andb_true_iff in H as [H1 H2]. exact (going_trans _ _ _ _ (IH1 H1) (IH2 H2)).
  - intros n gi fs st f its st1 v l st' _ _ IH1 _ IH2 G H (d & Nn). cbn [forallb] in H. apply andb_true_iff in H as [H1 H2].
    pose proof (IH1 H1) as G1. pose proof (later_node _ _ _ _ (proj1 G1) Nn) as Nn1. pose proof (going_set n gi f v st1 d G Nn1) as G2.
    refine (going_trans _ _ _ _ G1 (going_trans _ _ _ _ G2 (IH2 G H2 _))). exists d. exact (later_node _ _ _ _ (proj1 G2) Nn1).
  - intros n gi fs st nm pn l st' _ _ IH G H (d & Nn). cbn [forallb] in H. apply andb_true_iff in H as [H1 H2].
    refine (going_trans _ _ _ _ (going_is _ _ _ _ _) (IH G H2 _)). exists d. exact Nn.
  - intros st f i its st' r _ _ IH H. cbn [forallb] in H. apply andb_true_iff in H as [H1 H2]. auto.
  - auto.
  - intros st ex i its st' r _ IH H. cbn [forallb] in H. apply andb_true_iff in H as [H1 H2]. auto.
  - auto.
  - intros n st ms ex ty nm its st1 m l st' ms' _ _ IH1 _ IH2 H. cbn [forallb] in H. apply andb_true_iff in H as [H1 H2].
    refine (going_trans _ _ _ _ (going_more none _ _ _ _ (IH1 H1)) (going_trans _ _ _ _ (going_member _ _ _ _) (IH2 H2))). intros ? [].
  - intros n st ms ex ty nm k pn l st' ms' _ _ _ IH H. cbn [forallb] in H. apply andb_true_iff in H as [H1 H2].
    exact (going_trans _ _ _ _ (going_member _ _ _ _) (IH H2)).
  - intros n st ms out ty nm pn l st' ms' _ _ _ IH H. cbn [forallb] in H. apply andb_true_iff in H as [H1 H2].
    exact (going_trans _ _ _ _ (going_member _ _ _ _) (IH H2)).
  - intros n st ms nm v l st' ms' _ IH H. cbn [forallb] in H. apply andb_true_iff in H as [H1 H2]. auto.
  - intros n st x l st' _ _ IH H. cbn [forallb] in H. apply andb_true_iff in H as [H1 H2]. auto.
  - intros n st f its st1 v l st' _ _ IH1 _ IH2 H. cbn [forallb] in H. apply andb_true_iff in H as [H1 H2].
    refine (going_trans _ _ _ _ (going_more none _ _ _ _ (IH1 H1)) (going_trans _ _ _ _ (going_more _ _ _ _ _ (going_sets _ _)) (IH2 H2))); [intros ? []|].
    cbn. intros m [<-|[]]. reflexivity.
  - intros n st nm pn l st' _ _ _ IH H. cbn [forallb] in H. apply andb_true_iff in H as [H1 H2]. exact (going_trans _ _ _ _ (going_is _ _ _ _ _) (IH H2)).
Qed.
End Alone.

(** *** the same for the entries of a scene *)
Lemma root_going P base inp e s r s' : root_reads P base inp e s r s' -> typed_root r = true -> going none (snd s) (snd s').
Proof.
  destruct 1; cbn [typed_root snd]; intros Ty; try apply going_refl.
  - apply (proj1 (all_going P base inp (tab ++ e))) in H; [|exact Ty]. apply (going_trans _ _ _ _ H). split; [exists []; cbn; rewrite app_nil_r; reflexivity|]. split; reflexivity.
  - split; [exists []; cbn; rewrite app_nil_r; reflexivity|]. split; reflexivity.
Qed.
Lemma roots_going P base l : forall inp e s s', roots_read P base inp e s l s' -> forallb typed_root l = true -> going none (snd s) (snd s').
Proof.
  induction l as [|r l IH]; intros inp e s s' H T; inversion H; subst; [apply going_refl|]. cbn [forallb] in T. apply andb_true_iff in T as [T1 T2].
  match goal with A : root_reads _ _ _ _ _ _ _ |- _ => apply root_going in A; [|exact T1] end. eapply going_trans; [eassumption|]. eauto.
Qed.

(** *** the declarations and attributes of a Script *)
Section Script.
Variable P : prims.
Variable base : list (text * list fdecl).
Variable inp : bool.
Variable e : list (text * pdef).
Lemma later_with_member n nm m st : later st (with_member n nm m st).
Proof. exists []. cbn. rewrite app_nil_r. reflexivity. Qed.
Lemma decl_step n nm m st x : member_of (with_member n nm m st) n x = if text_eqb nm x then Some m else member_of st n x.
Proof. rewrite member_of_with, Nat.eqb_refl. reflexivity. Qed.
Definition declared (st' st : rstate) (n : nat) (l : list ssel) (x : text) : Prop :=
  match last_decl l x with
  | None => member_of st' n x = member_of st n x
  | Some (SSField ex ty _ (SVal its)) => exists st1 st2 m, member_reads P base inp e st1 ex ty its st2 m /\ member_of st' n x = Some m
  | Some (SSField ex ty _ (SIs _)) => exists k d, kind_of ty = Some k /\ member_of st' n x = Some (SMField ex k d)
  | Some (SSEvent out ty _ _) => member_of st' n x = Some (SMEvent out ty)
  | Some (SSAttr _ _) => False
  end.
Lemma decls_give l : forall n st ms st' ms', sdecls_read P base inp e n st ms l st' ms' -> forallb typed_sel l = true -> is_script st n ->
  (forall x, value_set st' n x = value_set st n x) /\ (forall x, declared st' st n l x) /\ incl ms ms' /\
  (forall s, In s l -> has_is s = true -> match s with SSAttr _ _ => True | _ => ms' <> [] end).
Proof.
  induction l as [|s l IH]; intros n st ms st' ms' H T Sc; inversion H; subst; clear H.
  - repeat split; try (intros x; reflexivity). + intros y Hy. exact Hy. + intros s [].
  - cbn [forallb] in T. apply andb_true_iff in T as [T1 T2]. cbn [typed_sel] in T1.
    match goal with M : member_reads _ _ _ _ _ _ _ _ _ _ |- _ => pose proof (proj1 (proj2 (proj2 (proj2 (proj2 (all_going P base inp e))))) _ _ _ _ _ _ M T1) as G end.
    match goal with R : sdecls_read _ _ _ _ _ _ _ _ _ _ |- _ => apply IH in R as (V & D & I & Is); [|exact T2|] end.
    2: { apply (later_script _ _ _ (later_with_member _ _ _ _)). exact (later_script _ _ _ (proj1 G) Sc). }
    destruct (proj2 G n Sc (fun f => f)) as [Gm Gv]. split; [|split; [|split]].
    + intros x. rewrite V. exact (Gv x).
    + intros x. specialize (D x). unfold declared in *. cbn [last_decl]. destruct (last_decl l x) as [y|] eqn:E; [exact D|]. cbn [declares].
      rewrite decl_step in D. destruct (text_eqb nm x); [eauto 6|]. rewrite D. apply Gm.
    + exact I.
    + intros s [<-|Hs]; [discriminate|]. apply Is. exact Hs.
  - cbn [forallb] in T. apply andb_true_iff in T as [T1 T2].
    match goal with R : sdecls_read _ _ _ _ _ _ _ _ _ _ |- _ => apply IH in R as (V & D & I & Is); [|exact T2|] end.
    2: exact (later_script _ _ _ (later_with_member _ _ _ _) Sc).
    split; [|split; [|split]].
    + intros x. rewrite V. reflexivity.
    + intros x. specialize (D x). unfold declared in *. cbn [last_decl]. destruct (last_decl l x) as [y|] eqn:E; [exact D|]. cbn [declares].
      rewrite decl_step in D. destruct (text_eqb nm x); [eauto|exact D].
    + intros y Hy. apply I. apply in_or_app. left. exact Hy.
    + intros s [<-|Hs]; [|apply Is; exact Hs]. intros _ ->. destruct (I (pn, nm)). apply in_or_app. right. left. reflexivity.
  - cbn [forallb] in T. apply andb_true_iff in T as [T1 T2].
    match goal with R : sdecls_read _ _ _ _ _ _ _ _ _ _ |- _ => apply IH in R as (V & D & I & Is); [|exact T2|] end.
    2: exact (later_script _ _ _ (later_with_member _ _ _ _) Sc).
    split; [|split; [|split]].
    + intros x. rewrite V. reflexivity.
    + intros x. specialize (D x). unfold declared in *. cbn [last_decl]. destruct (last_decl l x) as [y|] eqn:E; [exact D|]. cbn [declares].
      rewrite decl_step in D. destruct (text_eqb nm x); [eauto|exact D].
    + intros y Hy. apply I. apply in_or_app. left. exact Hy.
    + intros s [<-|Hs]; [|apply Is; exact Hs]. cbn [has_is]. destruct pn as [pn|]; [|discriminate]. intros _ ->. destruct (I (pn, nm)). apply in_or_app. right. left. reflexivity.
  - cbn [forallb] in T. apply andb_true_iff in T as [T1 T2].
    match goal with R : sdecls_read _ _ _ _ _ _ _ _ _ _ |- _ => apply IH in R as (V & D & I & Is); [|exact T2|exact Sc] end.
    split; [exact V|]. split; [|split; [exact I|]].
    + intros x. specialize (D x). unfold declared in *. cbn [last_decl]. destruct (last_decl l x) as [y|] eqn:E; [exact D|]. cbn [declares]. exact D.
    + intros s [<-|Hs]; [exact (fun _ => Logic.I)|apply Is; exact Hs].
Qed.
Definition set_to (st' st : rstate) (n : nat) (l : list ssel) (x : text) : Prop :=
  match last_attr l x with
  | None => value_set st' n x = value_set st n x
  | Some (SVal its) => exists f st1 st2 v, f_name f = x /\ script_field st n f /\ value_reads P base inp e st1 f its st2 v /\ value_set st' n x = Some v
  | Some (SIs _) => True
  end.
Lemma attrs_give l : forall n st st', sattrs_read P base inp e n st l st' -> forallb typed_sel l = true -> is_script st n ->
  (forall x, member_of st' n x = member_of st n x) /\ (forall x, set_to st' st n l x) /\
  (forall x v, In (SSAttr x v) l -> match v with SVal _ => exists f, f_name f = x /\ script_field st n f | SIs _ => inp = true end).
Proof.
  induction l as [|s l IH]; intros n st st' H T Sc; inversion H; subst; clear H.
  - repeat split. intros x v [].
  - cbn [forallb] in T. apply andb_true_iff in T as [T1 T2].
    match goal with R : sattrs_read _ _ _ _ _ _ _ _ |- _ => apply IH in R as (M & A & F); [|exact T2|exact Sc] end.
    split; [exact M|]. split.
    + intros x. specialize (A x). unfold set_to in *. cbn [last_attr]. destruct (last_attr l x); [exact A|]. destruct s; try exact A. contradiction.
    + intros x v [->|Hx]; [contradiction|]. apply F. exact Hx.
  - cbn [forallb] in T. apply andb_true_iff in T as [T1 T2]. cbn [typed_sel] in T1.
    match goal with M : value_reads _ _ _ _ _ _ _ _ _ |- _ => pose proof (proj1 (proj2 (proj2 (proj2 (all_going P base inp e)))) _ _ _ _ _ M T1) as G end.
    match goal with R : sattrs_read _ _ _ _ _ _ _ _ |- _ => apply IH in R as (M & A & F); [|exact T2|] end.
    2: { destruct (later_script _ _ _ (proj1 G) Sc) as (d & E). exists d. exact E. }
    destruct (proj2 G n Sc (fun f => f)) as [Gm Gv].
    assert (Fs : forall g, script_field (with_sets [(n, f_name f, v)] st1) n g <-> script_field st n g).
    { intros g. unfold script_field. change (member_of (with_sets [(n, f_name f, v)] st1) n (f_name g)) with (member_of st1 n (f_name g)). rewrite Gm. tauto. }
    split; [|split].
    + intros x. rewrite M. exact (Gm x).
    + intros x. specialize (A x). unfold set_to in *. cbn [last_attr]. destruct (last_attr l x) as [[its'|pn]|] eqn:E; [|exact A|].
      * destruct A as (g & a & b & w & E1 & E2 & E3). exists g, a, b, w. apply Fs in E2. tauto.
      * destruct (text_eqb (f_name f) x) eqn:Ex.
        -- apply text_eqb_spec in Ex. exists f, st, st1, v. split; [exact Ex|]. split; [assumption|]. split; [assumption|].
           rewrite A, value_set_old. cbn [find fst snd]. rewrite Nat.eqb_refl. subst x. rewrite text_eqb_refl. reflexivity.
        -- rewrite A, value_set_old. cbn [find fst snd]. rewrite Ex, andb_false_r. apply Gv.
    + intros x w [Q|Hx]; [injection Q as <- <-; eauto|]. specialize (F x w Hx). destruct w; [|exact F]. destruct F as (g & E & F). exists g. apply Fs in F. tauto.
  - cbn [forallb] in T. apply andb_true_iff in T as [T1 T2].
    match goal with R : sattrs_read _ _ _ _ _ _ _ _ |- _ => apply IH in R as (M & A & F); [|exact T2|exact Sc] end.
    split; [exact M|]. split.
    + intros x. specialize (A x). unfold set_to in *. cbn [last_attr]. destruct (last_attr l x); [exact A|]. destruct (text_eqb nm x); [exact Logic.I|exact A].
    + intros x v [Q|Hx]; [injection Q as <- <-; assumption|]. apply F. exact Hx.
Qed.
End Script.
