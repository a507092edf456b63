(** Scenes that were read from documents without PROTOs: nodes without name
    occur once, and no node is lost. *)
From Coq Require Import Reals SpecFloat.
From Flocq Require Import Core.Core IEEE754.BinarySingleNaN.
From Verif Require Import Base Text PyDict PyDict_Proofs Float Coerce_Model Grammar_Model Lex_Spec Lex_Proofs Doc_Spec Doc_Proofs SceneGraph_Model
  VrmlStr_Model VrmlStr_Values Scene_Model Scene_Spec Build_Model Reading_Spec Reading_Proofs Reading_Facts.
Local Open Scope nat_scope.
Local Open Scope list_scope.
Notation RNode := Scene_Model.RNode.

(** *** names are names *)
Fixpoint real_item (i : sitem) : bool :=
  match i with
  | SUse nm => is_name nm
  | SNode d _ l => match d with Some nm => is_name nm | None => true end &&
                   forallb (fun p => match snd p with SVal its => forallb real_item its | SIs _ => true end) l
  | _ => true
  end.
Definition real_attr (p : text * sval) : bool := match snd p with SVal its => forallb real_item its | SIs _ => true end.
Definition real_root (r : sroot) : bool :=
  match r with
  | SRItem i => real_item i && nodeish i && match i with SNull => false | _ => true end
  | SRRoute a af b bf => is_name a && is_name af && is_name b && is_name bf
  | SRProto _ _ _ | SRExtern _ _ _ => true
  end.
Lemma doc_real :
  (forall i k, ok_item i k -> real_item (sk_item i) = true) /\
  (forall n, ok_node n -> real_item (sk_node n) = true) /\
  (forall l k, ok_attrs l k -> forallb real_attr (sk_attrs l) = true) /\
  (forall f k, ok_field f k -> forallb real_item (sk_field f) = true) /\
  (forall l br k, ok_items br l k -> forallb real_item (sk_items l) = true).
Proof.
  enough (Q : (forall i k, ok_item i k -> real_item (sk_item i) = true) /\
    (forall n, ok_node n -> real_item (sk_node n) = true) /\
    (forall l k, ok_attrs l k -> forallb real_attr (sk_attrs l) = true) /\
    (forall f k, ok_field f k -> forallb real_item (sk_field f) = true) /\
    (forall l br k, ok_items br l k -> forallb real_item (sk_items l) = true) /\
    (forall l : selems, True)) by (destruct Q as (Q1 & Q2 & Q3 & Q4 & Q5 & _); auto).
  apply doc_mut; try (intros; exact Logic.I); cbn [ok_item ok_node ok_attrs ok_field ok_items sk_item sk_node sk_attrs sk_field sk_items]; try (intros; reflexivity).
  - intros w nm k (_ & H & _). exact H.
  - intros n IH k H. exact (IH H).
  - intros d gi w1 w2 l IH (Hd & _ & _ & Hl). cbn [real_item]. fold real_attr. apply andb_true_iff. split; [|exact (IH _ Hl)].
    destruct d as [[[w nm] w']|]; [|reflexivity]. apply Hd.
  - intros nm w f IHf l IHl k (_ & _ & _ & Hf & Hl). cbn [forallb]. apply andb_true_iff. split; [exact (IHf _ Hf)|exact (IHl _ Hl)].
  - intros nm w w1 pn w2 l IHl k H. cbn [forallb]. apply (IHl k). apply H.
  - intros w l IH w' k (_ & _ & H). exact (IH _ _ H).
  - intros l IH k (_ & H). exact (IH _ _ H).
  - intros i IHi w l IHl br k (_ & Hi & _ & Hl). cbn [forallb]. apply andb_true_iff. split; [exact (IHi _ Hi)|exact (IHl _ _ Hl)].
Qed.
Lemma roots_real : forall l k, ok_roots l k -> forallb real_root (sk_roots l) = true.
Proof.
  induction l as [|r w l IH]; intros k; [reflexivity|]. cbn [ok_roots sk_roots forallb]. intros (Hr & _ & Hl).
  apply andb_true_iff. split; [|exact (IH _ Hl)]. destruct r as [n|w1 nm|w1 a af w2 w3 b bf| |]; cbn [sk_root real_root]; [| | |reflexivity|reflexivity].
  - rewrite (proj1 (proj2 doc_real) n Hr). destruct n; reflexivity.
  - cbn in Hr. cbn. rewrite (proj1 (proj2 Hr)). reflexivity.
  - destruct Hr as (H & _). inversion H as [|? ? Ha H1]; subst. inversion H1 as [|? ? Haf H2]; subst. inversion H2 as [|? ? Hb H3]; subst.
    inversion H3 as [|? ? Hbf _]; subst. rewrite Ha, Haf, Hb, Hbf. reflexivity.
Qed.

(** *** documents without Scripts *)
Section Plain.
Variable P : prims.
Variable base : list (text * list fdecl).
Variable inp : bool.
Variable e : list (text * pdef).
Notation item_reads := (item_reads P base inp e).
Notation items_read := (items_read P base inp e).
Notation attrs_read := (attrs_read P base inp e).
Notation value_reads := (value_reads P base inp e).
Definition no_script_attr (p : text * sval) : bool := match snd p with SVal its => forallb no_script its | SIs _ => true end.
Variable P1 : rstate -> sitem -> rstate -> nref -> Prop.
Variable P2 : rstate -> list sitem -> rstate -> list nref -> Prop.
Variable P3 : nat -> text -> list fdecl -> rstate -> list (text * sval) -> rstate -> Prop.
Variable P4 : rstate -> fdecl -> list sitem -> rstate -> val -> Prop.
Lemma plain_reads_ind :
  (forall st, P1 st SNull st RNull) ->
  (forall st nm n, named_node st nm = Some n -> P1 st (SUse nm) st (RNode n)) ->
  (forall st d gi fs l st', proto (types base e) gi = Some fs -> maps_declared base e gi ->
     attrs_read (r_next st) gi fs (enter_node d gi st) l st' -> P3 (r_next st) gi fs (enter_node d gi st) l st' ->
     P1 st (SNode d gi l) st' (RNode (r_next st))) ->
  (forall st, P2 st [] st []) ->
  (forall st i st1 r l st' rs, item_reads st i st1 r -> P1 st i st1 r -> items_read st1 l st' rs -> P2 st1 l st' rs -> P2 st (i :: l) st' (r :: rs)) ->
  (forall n gi fs st, P3 n gi fs st [] st) ->
  (forall n gi fs st f its st1 v l st', In f fs -> value_reads st f its st1 v -> P4 st f its st1 v ->
     attrs_read n gi fs (set_value e n gi f v st1) l st' -> P3 n gi fs (set_value e n gi f v st1) l st' ->
     P3 n gi fs st ((f_name f, SVal its) :: l) st') ->
  (forall n gi fs st nm pn l st', inp = true -> attrs_read n gi fs (with_is pn n nm st) l st' -> P3 n gi fs (with_is pn n nm st) l st' ->
     P3 n gi fs st ((nm, SIs pn) :: l) st') ->
  (forall st f t d its v, f_kind f = KVal t d -> forallb plain its = true -> read_value P t (map et_item its) = Ok v -> P4 st f its st (VPv v)) ->
  (forall st f i its st' r, f_kind f = KNode -> item_reads st i st' r -> P1 st i st' r -> P4 st f (i :: its) st' (VRef r)) ->
  (forall st f o its st' rs, f_kind f = KNodes o -> items_read st its st' rs -> P2 st its st' rs -> P4 st f its st' (VRefs rs)) ->
  (forall st f o its, f_kind f = KNodes o -> forallb plain its = true -> P4 st f its st (VRefs [])) ->
  (forall st i st' r, item_reads st i st' r -> no_script i = true -> P1 st i st' r) /\
  (forall st l st' rs, items_read st l st' rs -> forallb no_script l = true -> P2 st l st' rs) /\
  (forall n gi fs st l st', attrs_read n gi fs st l st' -> forallb no_script_attr l = true -> P3 n gi fs st l st') /\
  (forall st f its st' v, value_reads st f its st' v -> forallb no_script its = true -> P4 st f its st' v).
Proof.
  intros.
  enough (Q : (forall st i st' r, item_reads st i st' r -> no_script i = true -> P1 st i st' r) /\
    (forall st l st' rs, items_read st l st' rs -> forallb no_script l = true -> P2 st l st' rs) /\
    (forall n gi fs st l st', attrs_read n gi fs st l st' -> forallb no_script_attr l = true -> P3 n gi fs st l st') /\
    (forall st f its st' v, value_reads st f its st' v -> forallb no_script its = true -> P4 st f its st' v) /\
    (forall st ex ty its st' m, member_reads P base inp e st ex ty its st' m -> True) /\
    (forall n st ms l st' ms', sdecls_read P base inp e n st ms l st' ms' -> True) /\
    (forall n st l st', sattrs_read P base inp e n st l st' -> True)).
  { destruct Q as (Q1 & Q2 & Q3 & Q4 & _). auto. }
  apply (item_reads_all P base inp e); auto; cbn [forallb no_script no_script_attr snd]; try discriminate.
  - intros. match goal with X : _ -> P3 _ _ _ _ _ _ |- _ => specialize (X ltac:(assumption)) end. eauto.
  - intros. match goal with X : _ && _ = true |- _ => apply andb_true_iff in X as [X1 X2] end. eauto.
  - intros. match goal with X : _ && _ = true |- _ => apply andb_true_iff in X as [X1 X2] end. eauto.
  - intros. eauto.
  - intros. match goal with X : _ && _ = true |- _ => apply andb_true_iff in X as [X1 X2] end. eauto.
  - intros. eauto.
  - intros. eauto.
Qed.
End Plain.

Section Reload.
Variable P : prims.
Variable base : list (text * list fdecl).
Notation item_reads := (item_reads P base false []).
Notation items_read := (items_read P base false []).
Notation attrs_read := (attrs_read P base false []).
Notation value_reads := (value_reads P base false []).

(** every name in the table is that of its node *)
Definition names_ok (st : rstate) : Prop :=
  (forall nm m, In (nm, m) (r_names st) -> exists gi, nth_error (r_nodes st) m = Some (gi, nm)) /\
  (forall m gi nm, nth_error (r_nodes st) m = Some (gi, nm) -> nm <> [] -> is_name nm = true /\ In (nm, m) (r_names st)).
Definition unnamed (st : rstate) (n : nat) : Prop := forall gi nm, nth_error (r_nodes st) n = Some (gi, nm) -> nm = [].
Definition cnt (l : list nat) (n : nat) : nat := count_occ Nat.eq_dec l n.
Definition sets_refs (st : rstate) : list nat := flat_map (fun x => ref_ids (snd x)) (r_sets st) ++ ref_ids (VRefs (r_kids st)).
Definition between (a n b : nat) : nat := if (a <=? n) && (n <? b) then 1 else 0.
Lemma between_app a b c n : a <= b -> b <= c -> between a n b + between b n c = between a n c.
Proof.
  unfold between. intros. destruct (Nat.leb_spec a n), (Nat.ltb_spec n b), (Nat.leb_spec b n), (Nat.ltb_spec n c); cbn; lia.
Qed.
Lemma cnt_app l l' n : cnt (l ++ l') n = cnt l n + cnt l' n.
Proof. apply count_occ_app. Qed.
Lemma set_is n gi f v st : set_value [] n gi f v st = with_sets [(n, f_name f, v)] st.
Proof. reflexivity. Qed.
Lemma later_next st st' : later st st' -> r_next st <= r_next st'.
Proof. intros [l E]. unfold r_next. rewrite E, app_length. lia. Qed.
Lemma later_unnamed st st' n : later st st' -> unnamed st' n -> unnamed st n.
Proof. intros L U gi nm H. eapply U. eapply later_nth; [exact L|exact H]. Qed.
Lemma named_in st nm m : named_node st nm = Some m -> In (nm, m) (r_names st).
Proof. unfold named_node. apply (dget_In text_eqb text_eqb_spec). Qed.
Lemma enter_later d gi st : later st (enter_node d gi st).
Proof. eexists. reflexivity. Qed.
Lemma enter_next d gi st : r_next (enter_node d gi st) = S (r_next st).
Proof. unfold r_next, enter_node. cbn [r_nodes]. rewrite app_length. cbn. lia. Qed.
Lemma enter_names d gi st : (forall nm, d = Some nm -> is_name nm = true) -> names_ok st -> names_ok (enter_node d gi st).
Proof.
  intros Dn (A & B). split.
  - intros nm m H. cbn [enter_node r_names] in H.
    assert (Old : In (nm, m) (r_names st) -> exists g, nth_error (r_nodes (enter_node d gi st)) m = Some (g, nm)).
    { intros H'. destruct (A nm m H') as (g & E). exists g. eapply later_nth; [apply enter_later|exact E]. }
    destruct d as [x|]; [|auto]. destruct H as [E|H]; [|auto]. injection E as -> <-. exists gi. cbn [enter_node r_nodes].
    rewrite nth_snoc. unfold r_next. rewrite Nat.eqb_refl. reflexivity.
  - intros m g nm H Hn. cbn [enter_node r_nodes] in H. rewrite nth_snoc in H. destruct (m =? List.length (r_nodes st)) eqn:E.
    + apply Nat.eqb_eq in E. subst m. injection H as <- <-. destruct d as [x|]; [|contradiction]. split; [apply Dn; reflexivity|].
      cbn [enter_node r_names]. left. reflexivity.
    + destruct (B m g nm H Hn) as (Q & I). split; [exact Q|]. cbn [enter_node r_names]. destruct d; [right|]; exact I.
Qed.

(** *** nodes without name occur once *)
Definition grown (st st' : rstate) (l : list nat) : Prop :=
  names_ok st' /\ later st st' /\
  forall n, unnamed st' n -> cnt (sets_refs st') n + cnt l n <= cnt (sets_refs st) n + between (r_next st) n (r_next st').
Lemma refs_once :
  (forall st i st' r, item_reads st i st' r -> no_script i = true -> real_item i = true -> names_ok st -> grown st st' (ref_ids (VRef r))) /\
  (forall st l st' rs, items_read st l st' rs -> forallb no_script l = true -> forallb real_item l = true -> names_ok st -> grown st st' (ref_ids (VRefs rs))) /\
  (forall n gi fs st l st', attrs_read n gi fs st l st' -> forallb no_script_attr l = true -> forallb real_attr l = true -> names_ok st -> grown st st' []) /\
  (forall st f its st' v, value_reads st f its st' v -> forallb no_script its = true -> forallb real_item its = true -> names_ok st -> grown st st' (ref_ids v)).
Proof.
  apply (plain_reads_ind P base false []); cbn [forallb real_item].
  - intros st _ N. split; [exact N|]. split; [apply later_refl|]. intros n _. cbn. lia.
  - intros st nm m E Hn N. split; [exact N|]. split; [apply later_refl|]. intros n U. cbn.
    destruct (Nat.eq_dec m n) as [->|]; [|cbn; lia]. exfalso. destruct (proj1 N nm n (named_in _ _ _ E)) as (g & Q). apply U in Q. subst nm. discriminate.
  - intros st d gi fs l st' Pr _ _ IH Hn N. fold real_attr in Hn. apply andb_true_iff in Hn as [Hd Hl].
    destruct (IH Hl) as (N' & L & C). { apply enter_names; [|exact N]. intros nm ->. exact Hd. }
    split; [exact N'|]. split; [eapply later_trans; [apply enter_later|exact L]|]. intros n U. specialize (C n U). cbn [ref_ids].
    pose proof (later_next _ _ L) as Nx. rewrite enter_next in *. replace (sets_refs (enter_node d gi st)) with (sets_refs st) in C by reflexivity.
    rewrite <- (between_app (r_next st) (S (r_next st)) (r_next st')) by lia. unfold between at 1. cbn [cnt count_occ].
    destruct (Nat.eq_dec (r_next st) n) as [Q|Ne], (Nat.leb_spec (r_next st) n), (Nat.ltb_spec n (S (r_next st))); cbn in *; try lia.
  - intros st _ N. split; [exact N|]. split; [apply later_refl|]. intros n _. cbn. lia.
  - intros st i st1 r l st' rs _ IH1 _ IH2 Hn N. apply andb_true_iff in Hn as [H1 H2]. destruct (IH1 H1 N) as (N1 & L1 & C1). destruct (IH2 H2 N1) as (N2 & L2 & C2).
    split; [exact N2|]. split; [eapply later_trans; eassumption|]. intros n U. specialize (C2 n U).
    rewrite <- (between_app (r_next st) (r_next st1) (r_next st')) by (eapply later_next; eassumption).
    assert (Q : cnt (ref_ids (VRefs (r :: rs))) n = cnt (ref_ids (VRef r)) n + cnt (ref_ids (VRefs rs)) n) by (destruct r; cbn [ref_ids flat_map]; [reflexivity|apply cnt_app]).
    rewrite Q. specialize (C1 n (later_unnamed _ _ _ L2 U)). lia.
  - intros n gi fs st _ N. split; [exact N|]. split; [apply later_refl|]. intros m _. cbn. lia.
  - intros n gi fs st f its st1 v l st' Hf _ IH1 _ IH2 Hn N. apply andb_true_iff in Hn as [H1 H2]. destruct (IH1 H1 N) as (N1 & L1 & C1).
    rewrite set_is in IH2. destruct (IH2 H2 N1) as (N2 & L2 & C2). change (later st1 st') in L2.
    split; [exact N2|]. split; [eapply later_trans; eassumption|]. intros m U. specialize (C2 m U). specialize (C1 m (later_unnamed _ _ _ L2 U)).
    change (r_next (with_sets [(n, f_name f, v)] st1)) with (r_next st1) in C2.
    rewrite <- (between_app (r_next st) (r_next st1) (r_next st')) by (eapply later_next; eassumption).
    assert (Q : cnt (sets_refs (with_sets [(n, f_name f, v)] st1)) m = cnt (ref_ids v) m + cnt (sets_refs st1) m)
      by (unfold sets_refs, with_sets; cbn [r_sets r_kids flat_map app snd]; rewrite <- app_assoc, cnt_app; reflexivity).
    lia.
  - intros n gi fs st nm pn l st' Q. discriminate.
  - intros st f t d its v _ _ _ _ N. split; [exact N|]. split; [apply later_refl|]. intros m _. cbn. lia.
  - intros st f i its st' r _ _ IH H N. apply andb_true_iff in H as [H _]. exact (IH H N).
  - intros st f o its st' rs _ _ IH H N. exact (IH H N).
  - intros st f o its _ _ _ N. split; [exact N|]. split; [apply later_refl|]. intros m _. cbn. lia.
Qed.

(** *** what is set stays set *)
Lemma kept :
  (forall st i st' r, item_reads st i st' r -> sets_below st ->
     sets_below st' /\ r_next st <= r_next st' /\ forall m f, m < r_next st -> value_set st' m f = value_set st m f) /\
  (forall st l st' rs, items_read st l st' rs -> sets_below st ->
     sets_below st' /\ r_next st <= r_next st' /\ forall m f, m < r_next st -> value_set st' m f = value_set st m f) /\
  (forall n gi fs st l st', attrs_read n gi fs st l st' -> n < r_next st -> sets_below st ->
     sets_below st' /\ r_next st <= r_next st' /\
     forall m f, m < r_next st -> m <> n \/ ~ In f (map fst l) -> value_set st' m f = value_set st m f) /\
  (forall st f its st' v, value_reads st f its st' v -> sets_below st ->
     sets_below st' /\ r_next st <= r_next st' /\ forall m f, m < r_next st -> value_set st' m f = value_set st m f) /\
  (forall st ex ty its st' y, member_reads P base false [] st ex ty its st' y -> sets_below st ->
     sets_below st' /\ r_next st <= r_next st' /\ forall m f, m < r_next st -> value_set st' m f = value_set st m f) /\
  (forall n st ms l st' ms', sdecls_read P base false [] n st ms l st' ms' -> sets_below st ->
     sets_below st' /\ r_next st <= r_next st' /\ forall m f, m < r_next st -> value_set st' m f = value_set st m f) /\
  (forall n st l st', sattrs_read P base false [] n st l st' -> n < r_next st -> sets_below st ->
     sets_below st' /\ r_next st <= r_next st' /\ forall m f, m < r_next st -> m <> n -> value_set st' m f = value_set st m f).
Proof.
  apply (item_reads_all P base false []); auto.
  - intros st d gi fs l st' _ _ _ IH B. destruct IH as (B' & L & V).
    + rewrite enter_next. lia.
    + unfold sets_below in *. rewrite enter_next. eapply Forall_impl; [|exact B]. cbn. intros; lia.
    + rewrite enter_next in *. split; [exact B'|]. split; [lia|]. intros m f Hm. rewrite V; [reflexivity|lia|left; lia].
  - intros st d l st1 ms st' _ IH1 Em _ IH2 B. assert (ms = []) as -> by (destruct Em; [assumption|discriminate]). cbn [with_maps fold_left] in *.
    destruct IH1 as (B1 & L1 & V1).
    { unfold sets_below in *. rewrite enter_next. eapply Forall_impl; [|exact B]. cbn. intros; lia. }
    rewrite enter_next in *. destruct IH2 as (B' & L & V); [lia|exact B1|].
    split; [exact B'|]. split; [lia|]. intros m f Hm. rewrite V by lia. rewrite V1 by lia. reflexivity.
  - intros st i st1 r l st' rs _ IH1 _ IH2 B. destruct (IH1 B) as (B1 & L1 & V1). destruct (IH2 B1) as (B2 & L2 & V2).
    split; [exact B2|]. split; [lia|]. intros m f Hm. rewrite V2 by lia. apply V1. exact Hm.
  - intros n gi fs st f its st1 v l st' _ _ IH1 _ IH2 Hn B. destruct (IH1 B) as (B1 & L1 & V1). rewrite set_is in IH2.
    destruct IH2 as (B2 & L2 & V2); [cbn; unfold r_next in *; cbn; lia|constructor; [unfold r_next in *; cbn in *; lia|exact B1]|].
    change (r_next (with_sets [(n, f_name f, v)] st1)) with (r_next st1) in *.
    split; [exact B2|]. split; [lia|]. intros m g Hm C. rewrite V2; [|lia|cbn in C; tauto]. rewrite value_set_old. cbn [find fst snd].
    destruct (n =? m) eqn:E; [|apply V1; exact Hm]. apply Nat.eqb_eq in E. subst m. destruct (text_eqb (f_name f) g) eqn:E2; [|apply V1; exact Hm].
    apply text_eqb_spec in E2. subst g. destruct C as [C|C]; [congruence|exfalso; apply C; left; reflexivity].
  - intros n gi fs st nm pn l st' Q. discriminate.
  - intros n st ms ex ty nm its st1 m l st' ms' _ _ IH1 _ IH2 B. destruct (IH1 B) as (B1 & L1 & V1). destruct (IH2 B1) as (B2 & L2 & V2).
    change (r_next (with_member n nm m st1)) with (r_next st1) in *.
    split; [exact B2|]. split; [lia|]. intros k g Hk. rewrite V2 by lia. apply V1. exact Hk.
  - intros n st f its st1 v l st' _ _ IH1 _ IH2 Hn B. destruct (IH1 B) as (B1 & L1 & V1).
    destruct IH2 as (B2 & L2 & V2); [cbn; unfold r_next in *; cbn; lia|constructor; [unfold r_next in *; cbn in *; lia|exact B1]|].
    change (r_next (with_sets [(n, f_name f, v)] st1)) with (r_next st1) in *.
    split; [exact B2|]. split; [lia|]. intros m g Hm C. rewrite V2; [|lia|exact C]. rewrite value_set_old. cbn [find fst snd].
    destruct (n =? m) eqn:E; [|apply V1; exact Hm]. apply Nat.eqb_eq in E. congruence.
Qed.

(** *** no node is lost *)
Inductive path (st : rstate) : nat -> nat -> Prop :=
| pa_refl n : path st n n
| pa_step m f v x n : value_set st m f = Some v -> In x (ref_ids v) -> path st x n -> path st m n.
Definition ext (st st' : rstate) : Prop := forall m f v, value_set st m f = Some v -> value_set st' m f = Some v.
Lemma path_ext st st' m n : ext st st' -> path st m n -> path st' m n.
Proof. intros E H. induction H; [constructor|]. econstructor; [apply E; eassumption|eassumption|assumption]. Qed.
Lemma path_trans st a b c : path st a b -> path st b c -> path st a c.
Proof. intros H. induction H; [auto|]. intros H2. econstructor; eauto. Qed.
Lemma set_below st m f v : sets_below st -> value_set st m f = Some v -> m < r_next st.
Proof.
  unfold value_set, sets_below. intros B H. destruct (find _ (r_sets st)) as [[[a g] w]|] eqn:E; [|discriminate]. apply find_some in E as (I & E).
  rewrite Forall_forall in B. specialize (B _ I). cbn in *. apply andb_true_iff in E as [E _]. apply Nat.eqb_eq in E. lia.
Qed.
Definition found (st st' : rstate) (l : list nat) : Prop :=
  ext st st' /\ forall k, r_next st <= k < r_next st' -> exists x, In x l /\ path st' x k.
Lemma ext_of st st' : sets_below st -> (forall m f, m < r_next st -> value_set st' m f = value_set st m f) -> ext st st'.
Proof. intros B V m f v H. rewrite V; [exact H|]. eapply set_below; eassumption. Qed.
Lemma none_lost :
  (forall st i st' r, item_reads st i st' r -> no_script i = true -> attrs_once i -> sets_below st -> found st st' (ref_ids (VRef r))) /\
  (forall st l st' rs, items_read st l st' rs -> forallb no_script l = true -> fold_right (fun x r => attrs_once x /\ r) True l -> sets_below st -> found st st' (ref_ids (VRefs rs))) /\
  (forall n gi fs st l st', attrs_read n gi fs st l st' -> forallb no_script_attr l = true ->
     fold_right (fun p q => match snd p with SVal its => fold_right (fun x r => attrs_once x /\ r) True its | SIs _ => True end /\ q) True l ->
     NoDup (map fst l) -> n < r_next st -> (forall f, In f (map fst l) -> value_set st n f = None) -> sets_below st -> found st st' [n]) /\
  (forall st f its st' v, value_reads st f its st' v -> forallb no_script its = true -> fold_right (fun x r => attrs_once x /\ r) True its -> sets_below st -> found st st' (ref_ids v)).
Proof.
  apply (plain_reads_ind P base false []); cbn [attrs_once fold_right].
  - intros st _ _. split; [intros m f v H; exact H|lia].
  - intros st nm n _ _ _. split; [intros m f v H; exact H|lia].
  - intros st d gi fs l st' _ _ A IH (Nd & O) B.
    assert (B1 : sets_below (enter_node d gi st)) by (unfold sets_below in *; rewrite enter_next; eapply Forall_impl; [|exact B]; cbn; intros; lia).
    destruct (IH O Nd) as (E & F); [rewrite enter_next; lia| |exact B1|].
    { intros f _. exact (value_set_next st f B). }
    split; [exact E|]. cbn [ref_ids]. intros k Hk. destruct (Nat.eq_dec k (r_next st)) as [->|]; [exists (r_next st); split; [left; reflexivity|constructor]|].
    apply F. rewrite enter_next. lia.
  - intros st _ _. split; [intros m f v H; exact H|lia].
  - intros st i st1 r l st' rs R1 IH1 R2 IH2 (O1 & O2) B. destruct (proj1 kept _ _ _ _ R1 B) as (B1 & L1 & V1). destruct (proj1 (proj2 kept) _ _ _ _ R2 B1) as (B2 & L2 & V2).
    destruct (IH1 O1 B) as (E1 & F1). destruct (IH2 O2 B1) as (E2 & F2). split; [intros m f v H; auto|]. intros k Hk.
    assert (Q : forall x, In x (ref_ids (VRef r)) \/ In x (ref_ids (VRefs rs)) -> In x (ref_ids (VRefs (r :: rs)))).
    { intros x [H|H]; cbn [ref_ids flat_map] in *; [destruct r; [destruct H|]; cbn in *; tauto|]. apply in_or_app. right. exact H. }
    destruct (Nat.lt_ge_cases k (r_next st1)) as [Lk|Lk].
    + destruct (F1 k) as (x & Hx & Px); [lia|]. exists x. split; [auto|eapply path_ext; eassumption].
    + destruct (F2 k) as (x & Hx & Px); [lia|]. exists x. auto.
  - intros n gi fs st _ _ _ _ _. split; [intros m f v H; exact H|lia].
  - intros n gi fs st f its st1 v l st' Hf R1 IH1 R2 IH2 (O1 & O2) Nd Hn Un B. cbn [map fst snd] in *. rewrite set_is in R2, IH2.
    inversion Nd as [|? ? Nf Nd']; subst.
    destruct (proj1 (proj2 (proj2 (proj2 kept))) _ _ _ _ _ R1 B) as (B1 & L1 & V1). destruct (IH1 O1 B) as (E1 & F1).
    set (st2 := with_sets [(n, f_name f, v)] st1) in *. assert (Nx : r_next st2 = r_next st1) by reflexivity.
    assert (V2 : forall m g, value_set st2 m g = if (n =? m) && text_eqb (f_name f) g then Some v else value_set st1 m g)
      by (intros m g; unfold st2; rewrite value_set_old; cbn [find fst snd]; destruct ((n =? m) && text_eqb (f_name f) g); reflexivity).
    assert (E12 : ext st1 st2).
    { intros m g w H. rewrite V2. destruct ((n =? m) && text_eqb (f_name f) g) eqn:E; [|exact H]. exfalso. apply andb_true_iff in E as [Em Eg].
      apply Nat.eqb_eq in Em. apply text_eqb_spec in Eg. subst m g. rewrite V1, Un in H by (auto; left; reflexivity). discriminate. }
    assert (Un2 : forall g, In g (map fst l) -> value_set st2 n g = None).
    { intros g Hg. rewrite V2, Nat.eqb_refl. cbn [andb]. destruct (text_eqb (f_name f) g) eqn:E; [apply text_eqb_spec in E; subst g; contradiction|].
      rewrite V1 by exact Hn. apply Un. right. exact Hg. }
    assert (B2 : sets_below st2) by (constructor; [cbn; unfold r_next in *; cbn; lia|exact B1]).
    destruct (IH2 O2 Nd') as (E2 & F2); [lia|exact Un2|exact B2|].
    split; [intros m g w H; auto|]. intros k Hk. destruct (Nat.lt_ge_cases k (r_next st1)) as [Lk|Lk].
    + destruct (F1 k) as (x & Hx & Px); [lia|]. exists n. split; [left; reflexivity|]. apply (pa_step st' n (f_name f) v x).
      * apply E2. rewrite V2, Nat.eqb_refl, text_eqb_refl. reflexivity.
      * exact Hx.
      * eapply path_ext; [|exact Px]. intros m g w H. auto.
    + apply F2. lia.
  - intros n gi fs st nm pn l st' Q. discriminate.
  - intros st f t d its v _ _ _ _ _. split; [intros m g w H; exact H|lia].
  - intros st f i its st' r _ _ IH (O & _) B. exact (IH O B).
  - intros st f o its st' rs _ _ IH O B. exact (IH O B).
  - intros st f o its _ _ _ _. split; [intros m g w H; exact H|lia].
Qed.

(** *** whole documents *)
Definition at_least (l l' : list nref) : Prop := exists k, l' = l ++ k /\ ~ In RNull k.
Definition whole (st st' : rstate) (l : list sroot) : Prop :=
  names_ok st' /\ later st st' /\ sets_below st' /\
  (forall n, unnamed st' n -> cnt (sets_refs st') n <= cnt (sets_refs st) n + between (r_next st) n (r_next st')) /\
  at_least (r_kids st) (r_kids st') /\
  (forall r, In r (r_routes st') -> In r (r_routes st) \/
     (is_name (snd (fst r)) = true /\ is_name (snd (snd r)) = true /\ fst (fst r) < r_next st' /\ fst (snd r) < r_next st')) /\
  (Forall attrs_once_root l -> ext st st' /\ forall k, r_next st <= k < r_next st' -> exists x, In (RNode x) (r_kids st') /\ path st' x k).
Lemma at_least_refl l : at_least l l.
Proof. exists []. rewrite app_nil_r. split; auto. Qed.
Lemma whole_app st st1 st2 r l : whole st st1 [r] -> whole st1 st2 l -> whole st st2 (r :: l).
Proof.
  intros (N1 & L1 & B1 & C1 & (k1 & K1 & U1) & R1 & F1) (N2 & L2 & B2 & C2 & (k2 & K2 & U2) & R2 & F2). pose proof (later_next _ _ L2) as Nx.
  split; [exact N2|]. split; [eapply later_trans; eassumption|]. split; [exact B2|]. split; [|split; [|split]].
  - intros n U. specialize (C2 n U). specialize (C1 n (later_unnamed _ _ _ L2 U)).
    rewrite <- (between_app (r_next st) (r_next st1) (r_next st2)) by (eapply later_next; eassumption). lia.
  - exists (k1 ++ k2). rewrite K2, K1, app_assoc. split; [reflexivity|]. intros H. apply in_app_iff in H as [H|H]; auto.
  - intros x Hx. destruct (R2 x Hx) as [H|H]; [|right; exact H]. destruct (R1 x H) as [H1|(A & B & C & D)]; [left; exact H1|right].
    split; [exact A|]. split; [exact B|]. lia.
  - intros O. inversion O as [|? ? O1 O2]; subst. destruct (F1 (Forall_cons _ O1 (Forall_nil _))) as (E1 & G1). destruct (F2 O2) as (E2 & G2).
    split; [intros m f v H; auto|]. intros k Hk. destruct (Nat.lt_ge_cases k (r_next st1)) as [Lk|Lk].
    + destruct (G1 k) as (x & Hx & Px); [lia|]. exists x. split; [rewrite K2; apply in_or_app; left; exact Hx|eapply path_ext; eassumption].
    + apply G2. lia.
Qed.
Lemma root_whole st r s' : root_reads P base false [] ([], st) r s' -> no_proto r = true -> no_scripts r = true -> real_root r = true -> names_ok st -> sets_below st ->
  fst s' = [] /\ whole st (snd s') [r].
Proof.
  intros H Np Ns Hr N B. inversion H; subst; [| |discriminate|discriminate].
  - cbn [app fst snd] in *. split; [reflexivity|]. match goal with X : Reading_Spec.item_reads _ _ _ _ _ _ _ _ |- _ => rename X into R end.
    cbn [real_root] in Hr. apply andb_true_iff in Hr as [Hr Nn]. apply andb_true_iff in Hr as [Hr _].
    destruct (proj1 refs_once _ _ _ _ R Ns Hr N) as (N' & L & C). destruct (proj1 kept _ _ _ _ R B) as (B' & Lx & V).
    assert (Nr : r0 <> RNull) by (inversion R; subst; [discriminate Nn|discriminate|discriminate|discriminate]).
    assert (Kd : r_kids st' = r_kids st).
    { assert (Q : (forall st i st' r, item_reads st i st' r -> no_script i = true -> r_kids st' = r_kids st /\ r_routes st' = r_routes st) /\
        (forall st i st' r, items_read st i st' r -> forallb no_script i = true -> r_kids st' = r_kids st /\ r_routes st' = r_routes st) /\
        (forall n gi fs st l st', attrs_read n gi fs st l st' -> forallb no_script_attr l = true -> r_kids st' = r_kids st /\ r_routes st' = r_routes st) /\
        (forall st f its st' v, value_reads st f its st' v -> forallb no_script its = true -> r_kids st' = r_kids st /\ r_routes st' = r_routes st)).
      { apply (plain_reads_ind P base false []); auto; cbn; intros; try discriminate; intuition congruence. }
      apply (proj1 Q _ _ _ _ R Ns). }
    assert (Rt : r_routes st' = r_routes st).
    { assert (Q : (forall st i st' r, item_reads st i st' r -> no_script i = true -> r_routes st' = r_routes st) /\
        (forall st i st' r, items_read st i st' r -> forallb no_script i = true -> r_routes st' = r_routes st) /\
        (forall n gi fs st l st', attrs_read n gi fs st l st' -> forallb no_script_attr l = true -> r_routes st' = r_routes st) /\
        (forall st f its st' v, value_reads st f its st' v -> forallb no_script its = true -> r_routes st' = r_routes st)).
      { apply (plain_reads_ind P base false []); auto; cbn; intros; try discriminate; congruence. }
      apply (proj1 Q _ _ _ _ R Ns). }
    split; [exact N'|]. split; [exact L|]. split; [exact B'|]. split; [|split; [|split]].
    + intros n U. specialize (C n U). change (r_next (with_kid r0 st')) with (r_next st').
      assert (Q : cnt (sets_refs (with_kid r0 st')) n = cnt (sets_refs st') n + cnt (ref_ids (VRef r0)) n).
      { unfold sets_refs, with_kid. cbn [r_sets r_kids ref_ids]. rewrite flat_map_app, !cnt_app. cbn [flat_map]. rewrite app_nil_r. destruct r0; cbn; lia. }
      lia.
    + exists [r0]. cbn. rewrite Kd. split; [reflexivity|]. intros [Q|[]]. congruence.
    + intros x Hx. left. cbn in Hx. rewrite Rt in Hx. exact Hx.
    + intros O. inversion O as [|? ? O1 _]; subst. destruct (proj1 none_lost _ _ _ _ R Ns O1 B) as (E & F). split; [exact E|].
      intros k Hk. destruct (F k Hk) as (x & Hx & Px). exists x. split; [|eapply path_ext; [|exact Px]; intros a0 b0 c0 H0; exact H0]. cbn [with_kid r_kids]. apply in_or_app. right. destruct r0; [destruct Hx|].
      destruct Hx as [<-|[]]. left. reflexivity.
  - split; [reflexivity|]. cbn [real_root] in Hr. apply andb_true_iff in Hr as [Hr H3]. apply andb_true_iff in Hr as [Hr H2]. apply andb_true_iff in Hr as [_ H1].
    split; [exact N|]. split; [exists []; cbn; rewrite app_nil_r; reflexivity|]. split; [exact B|]. split; [|split; [|split]].
    + intros k _. change (cnt (sets_refs st) k <= cnt (sets_refs st) k + between (r_next st) k (r_next st)). lia.
    + apply at_least_refl.
    + intros x Hx. cbn in Hx. apply in_app_iff in Hx as [Hx|[<-|[]]]; [left; exact Hx|right]. cbn [fst snd].
      split; [exact H1|]. split; [exact H3|].
      assert (Q : forall nm y, named_node st nm = Some y -> y < r_next (with_route (n, af, (m, bf)) st)).
      { intros nm y E. apply named_in in E. destruct (proj1 N nm y E) as (g & Z). apply nth_error_Some. cbn. congruence. }
      split; eapply Q; eassumption.
    + intros _. split; [intros x f v E; exact E|]. cbn. unfold r_next. cbn. lia.
Qed.
Lemma roots_whole l : forall st s', roots_read P base false [] ([], st) l s' -> forallb no_proto l = true -> forallb no_scripts l = true -> forallb real_root l = true ->
  names_ok st -> sets_below st -> fst s' = [] /\ whole st (snd s') l.
Proof.
  induction l as [|r l IH]; intros st s' H Np Ns Hr N B; inversion H; subst.
  - split; [reflexivity|]. split; [exact N|]. split; [apply later_refl|]. split; [exact B|]. split; [intros k _; cbn; lia|].
    split; [apply at_least_refl|]. split; [auto|]. intros _. split; [intros x f v E; exact E|cbn; lia].
  - cbn [forallb] in *. apply andb_true_iff in Np as [Np1 Np2]. apply andb_true_iff in Ns as [Ns1 Ns2]. apply andb_true_iff in Hr as [Hr1 Hr2].
    match goal with X : root_reads _ _ _ _ _ _ _ |- _ => destruct (root_whole _ _ _ X Np1 Ns1 Hr1 N B) as (E1 & W1) end.
    destruct s1 as [t1 st1]. cbn [fst snd] in *. subst t1.
    match goal with X : roots_read _ _ _ _ _ l _ |- _ => destruct (IH _ _ X Np2 Ns2 Hr2 (proj1 W1) (proj1 (proj2 (proj2 W1)))) as (E2 & W2) end.
    split; [exact E2|]. eapply whole_app; eassumption.
Qed.
(** no node is a Script *)
Definition no_scr (st : rstate) : Prop := Forall (fun x => fst x <> script_gi) (r_nodes st).
Lemma items_no_scr : proto base script_gi = None ->
  (forall st i st' r, item_reads st i st' r -> no_script i = true -> no_scr st -> no_scr st') /\
  (forall st l st' rs, items_read st l st' rs -> forallb no_script l = true -> no_scr st -> no_scr st') /\
  (forall n gi fs st l st', attrs_read n gi fs st l st' -> forallb no_script_attr l = true -> no_scr st -> no_scr st') /\
  (forall st f its st' v, value_reads st f its st' v -> forallb no_script its = true -> no_scr st -> no_scr st').
Proof.
  intros NB. apply (plain_reads_ind P base false []); auto.
  intros st d gi fs l st' Pr _ _ IH H. apply IH. unfold no_scr, enter_node. cbn [r_nodes]. apply Forall_app. split; [exact H|].
  constructor; [|constructor]. cbn [fst]. intros ->. change (proto (types base []) script_gi) with (proto base script_gi) in Pr. congruence.
Qed.
Lemma roots_no_scr : proto base script_gi = None -> forall l st s', roots_read P base false [] ([], st) l s' ->
  forallb no_proto l = true -> forallb no_scripts l = true -> no_scr st -> no_scr (snd s').
Proof.
  intros NB l. induction l as [|r l IH]; intros st s' H Np Ns N; inversion H; subst; [exact N|].
  cbn [forallb] in *. apply andb_true_iff in Np as [Np1 Np2]. apply andb_true_iff in Ns as [Ns1 Ns2].
  match goal with X : root_reads _ _ _ _ _ _ _ |- _ => inversion X; subst end; try discriminate.
  - eapply IH; [eassumption..|]. match goal with X : Reading_Spec.item_reads _ _ _ _ _ _ _ _ |- _ => exact (proj1 (items_no_scr NB) _ _ _ _ X Ns1 N) end.
  - eapply IH; [eassumption..|]. exact N.
Qed.
End Reload.
