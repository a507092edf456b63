(** Whatever is read has no dangling references. *)
From Coq Require Import Reals SpecFloat.
From Flocq Require Import Core.Core IEEE754.BinarySingleNaN.
From Verif Require Import Base Text PyDict PyDict_Proofs Float Coerce_Model Coerce_Spec Grammar_Model SceneGraph_Model SceneGraph_Proofs PyNum PyNum_Proofs
  VrmlStr_Model VrmlStr_Spec Scene_Model Build_Model P_VrmlStr Reading_Proofs Closed_Spec.
Local Open Scope nat_scope.
Local Open Scope list_scope.
Notation RNode := Scene_Model.RNode.

Section TreeInd.
Variable Q : tree -> Prop.
Hypothesis H : forall n s l, Forall Q l -> Q (T n s l).
Fixpoint tree_all (t : tree) : Q t :=
  match t with T n s l => H n s l ((fix all (l : list tree) : Forall Q l :=
    match l with [] => Forall_nil _ | x :: r => Forall_cons _ (tree_all x) (all r) end) l) end.
End TreeInd.

(** *** steps *)
Definition grows (b b' : scene) : Prop := forall n nd, s_node b n = Some nd -> exists nd', s_node b' n = Some nd' /\ n_gi nd' = n_gi nd.
Lemma grows_refl b : grows b b.
Proof. intros n nd H. eauto. Qed.
Lemma grows_trans a b c : grows a b -> grows b c -> grows a c.
Proof. intros A B n nd H. destruct (A n nd H) as (x & Hx & E). destruct (B n x Hx) as (y & Hy & E2). exists y. split; [exact Hy|congruence]. Qed.
Lemma grows_in b b' n : grows b b' -> node_in b n -> node_in b' n.
Proof. intros G [nd H]. destruct (G n nd H) as (x & Hx & _). exists x. exact Hx. Qed.
Lemma grows_ref b b' r : grows b b' -> ref_in b r -> ref_in b' r.
Proof. destruct r; [auto|]. apply grows_in. Qed.
Lemma grows_refs b b' l : grows b b' -> Forall (ref_in b) l -> Forall (ref_in b') l.
Proof. intros G. apply Forall_impl. intros r. apply grows_ref. exact G. Qed.
Lemma grows_fits b b' f v : grows b b' -> fits b f v -> fits b' f v.
Proof.
  unfold fits. intros G. destruct (f_kind f), v; auto; [apply grows_ref; exact G|apply grows_refs; exact G].
Qed.

(** Scripts are left as they are *)
Definition kept (b b' : scene) : Prop := forall m nd, s_node b m = Some nd -> n_gi nd = script_gi -> s_node b' m = Some nd.
Definition kept_but (n : nat) (b b' : scene) : Prop := forall m nd, m <> n -> s_node b m = Some nd -> n_gi nd = script_gi -> s_node b' m = Some nd.
Lemma kept_refl b : kept b b.
Proof. intros m nd H _. exact H. Qed.
Lemma kept_trans a b c : kept a b -> kept b c -> kept a c.
Proof. intros A B m nd H G. apply B; [apply A|]; assumption. Qed.
Lemma kept_weak n a b : kept a b -> kept_but n a b.
Proof. intros A m nd _. apply A. Qed.
Lemma kept_but_trans n a b c : kept_but n a b -> kept_but n b c -> kept_but n a c.
Proof. intros A B m nd N H G. apply B; [|apply A|]; assumption. Qed.

Section Closed.
Variable P : prims.
Variable base : list (text * list fdecl).
Hypothesis Sane : sane P.
Lemma closed0 tys : closed tys scene0.
Proof.
  split; cbn; try constructor; try (intros; contradiction); try discriminate.
  - intros [nd H]. discriminate.
  - lia.
Qed.
Lemma grows_enter d gi b tys : closed tys b -> grows b (name_node d (s_next b) (new_node gi b)).
Proof.
  intros C n nd H. exists nd. split; [|reflexivity]. assert (n < s_next b) by (apply (cl_ids _ _ C); exists nd; exact H).
  destruct d; cbn; (destruct (n =? s_next b) eqn:E; [apply Nat.eqb_eq in E; lia|exact H]).
Qed.
Lemma kept_enter d gi b tys : closed tys b -> kept b (name_node d (s_next b) (new_node gi b)).
Proof.
  intros C n nd H _. assert (n < s_next b) by (apply (cl_ids _ _ C); exists nd; exact H).
  destruct d; cbn; (destruct (n =? s_next b) eqn:E; [apply Nat.eqb_eq in E; lia|exact H]).
Qed.
Lemma enter_closed tys d gi fs b : closed tys b -> node_fields tys (mksn gi [] []) = Some fs -> closed tys (name_node d (s_next b) (new_node gi b)).
Proof.
  intros C Pr. pose proof (grows_enter d gi b tys C) as G. destruct C as [C1 C2 C9 C3 C4 C5 C6 C7 C8].
  assert (Nn : forall m, s_node (name_node d (s_next b) (new_node gi b)) m = if m =? s_next b then Some (mksn gi [] []) else s_node b m)
    by (intros m; destruct d; reflexivity).
  assert (Nd : ndef (s_defs b) (s_next b) = []).
  { destruct (ndef (s_defs b) (s_next b)) eqn:E; [reflexivity|exfalso]. assert (Ne : node_def b (s_next b) <> []) by (unfold node_def; congruence).
    destruct (C7 (s_next b) Ne) as (m & Hm & L). destruct (C6 _ _ Ne Hm) as (Hin & _). apply C1 in Hin. lia. }
  assert (Ndn : forall m, node_def (name_node d (s_next b) (new_node gi b)) m =
    if m =? s_next b then match d with Some nm => nm | None => [] end else node_def b m).
  { intros m. destruct d as [nm|]; cbn; unfold node_def; cbn; unfold set_def; destruct (m =? s_next b) eqn:E; try reflexivity. exact Nd. }
  assert (Gd : forall x, x <> [] -> getDEF (s_defs (name_node d (s_next b) (new_node gi b))) x =
    if match d with Some nm => text_eqb nm x | None => false end then Some (s_next b) else getDEF (s_defs b) x).
  { intros x Hx. assert (H0 : getDEF (s_defs (new_node gi b)) x = getDEF (s_defs b) x).
    { cbn [new_node s_defs]. rewrite get_reg by assumption. rewrite Nd. destruct (text_eqb [] x) eqn:E; [apply text_eqb_spec in E; congruence|reflexivity]. }
    destruct d as [nm|]; [|exact H0]. cbn [name_node s_defs]. rewrite get_reg; [rewrite H0; reflexivity|exact Hx|].
    cbn. unfold set_def. rewrite Nat.eqb_refl. exact Nd. }
  assert (Nx : s_next (name_node d (s_next b) (new_node gi b)) = S (s_next b)) by (destruct d; reflexivity).
  split.
  - intros n. rewrite Nx. unfold node_in. rewrite Nn. destruct (n =? s_next b) eqn:E.
    + apply Nat.eqb_eq in E. subst. split; [lia|eauto].
    + apply Nat.eqb_neq in E. specialize (C1 n). unfold node_in in C1. rewrite C1. lia.
  - intros n nd. rewrite Nn. destruct (n =? s_next b).
    + intros H. injection H as <-. exists fs. split; [exact Pr|]. intros nm v Q. discriminate.
    + intros H. destruct (C2 n nd H) as (fs' & Pr' & V). exists fs'. split; [exact Pr'|]. intros nm v Q. destruct (V nm v Q) as (f & F1 & F2 & F3).
      exists f. split; [exact F1|]. split; [exact F2|]. eapply grows_fits; eassumption.
  - intros n nd nm ex k l. rewrite Nn. destruct (n =? s_next b).
    + intros H. injection H as <-. intros [].
    + intros H Q. destruct (C9 n nd nm ex k l H Q) as (R1 & R2). split; [exact R1|]. eapply grows_refs; eassumption.
  - assert (s_kids (name_node d (s_next b) (new_node gi b)) = s_kids b) as -> by (destruct d; reflexivity). eapply grows_refs; eassumption.
  - assert (s_routes (name_node d (s_next b) (new_node gi b)) = s_routes b) as -> by (destruct d; reflexivity). intros r Hr.
    destruct (C4 r Hr). split; eapply grows_in; eassumption.
  - assert (s_is (name_node d (s_next b) (new_node gi b)) = s_is b) as -> by (destruct d; reflexivity). intros pn xs x H1 H2.
    eapply grows_in; [exact G|]. eapply C5; eassumption.
  - intros nm n Hn. rewrite (Gd nm Hn). destruct (match d with Some nm0 => text_eqb nm0 nm | None => false end) eqn:E.
    + intros Q. injection Q as <-. split; [exists (mksn gi [] []); rewrite Nn, Nat.eqb_refl; reflexivity|]. rewrite Ndn, Nat.eqb_refl.
      destruct d as [x|]; [|discriminate]. apply text_eqb_spec in E. exact E.
    + intros Q. destruct (C6 nm n Hn Q) as (Hin & Hd). split; [eapply grows_in; eassumption|]. rewrite Ndn.
      apply C1 in Hin. destruct (n =? s_next b) eqn:E2; [apply Nat.eqb_eq in E2; lia|exact Hd].
  - intros n. rewrite Ndn. destruct (n =? s_next b) eqn:E2.
    + intros Hn. rewrite (Gd _ Hn). destruct d as [x|]; [|contradiction]. rewrite text_eqb_refl. exists (s_next b). apply Nat.eqb_eq in E2. split; [reflexivity|lia].
    + intros Hn. rewrite (Gd _ Hn). destruct (match d with Some nm0 => text_eqb nm0 (node_def b n) | None => false end).
      * destruct (C7 n Hn) as (m & Hm & L). exists (s_next b). split; [reflexivity|]. destruct (C6 _ _ Hn Hm) as (Hin & _). apply C1 in Hin. lia.
      * apply C7. exact Hn.
  - destruct d; cbn [name_node new_node s_defs]; [apply reg_nodup|]; apply reg_nodup; exact C8.
Qed.
(** values are changed *)
Lemma sets_closed tys b b' nm v (f : fdecl) : closed tys b ->
  s_next b' = s_next b -> s_defs b' = s_defs b -> s_kids b' = s_kids b -> s_routes b' = s_routes b -> s_is b' = s_is b ->
  f_name f = nm -> fits b f v ->
  (forall m, match s_node b m with
             | None => s_node b' m = None
             | Some nd => s_node b' m = Some nd \/
                 (s_node b' m = Some (mksn (n_gi nd) (dset text_eqb (n_vals nd) nm v) (n_mem nd)) /\
                  exists fs, node_fields tys nd = Some fs /\ In f fs)
             end) -> closed tys b' /\ grows b b'.
Proof.
  intros C E1 E2 E3 E4 E5 Ef Fv Hm.
  assert (G : grows b b').
  { intros n nd H. specialize (Hm n). rewrite H in Hm. destruct Hm as [Q|(Q & _)]; eauto. }
  assert (Gi : forall n, node_in b' n <-> node_in b n).
  { intros n. split; [|apply grows_in; exact G]. intros [nd H]. specialize (Hm n). destruct (s_node b n) as [x|] eqn:E; [exists x; exact E|congruence]. }
  split; [|exact G]. destruct C as [C1 C2 C9 C3 C4 C5 C6 C7 C8]. split.
  - intros n. rewrite Gi, E1. apply C1.
  - intros n nd H. specialize (Hm n). destruct (s_node b n) as [x|] eqn:E; [|congruence]. destruct (C2 n x E) as (fs & Pr & V).
    destruct Hm as [Q|(Q & fs' & Pr' & Hf)].
    + assert (nd = x) as -> by congruence. exists fs. split; [exact Pr|]. intros k w K. destruct (V k w K) as (g & G1 & G2 & G3). exists g.
      split; [exact G1|]. split; [exact G2|]. eapply grows_fits; eassumption.
    + rewrite Q in H. injection H as <-. cbn [n_gi n_vals]. exists fs. split; [exact Pr|]. intros k w K.
      destruct (text_eqb nm k) eqn:T.
      * apply text_eqb_spec in T. subst k. rewrite (dget_dset_same text_eqb text_eqb_spec) in K. injection K as <-. exists f.
        split; [congruence|]. split; [exact Ef|]. eapply grows_fits; eassumption.
      * rewrite (dget_dset_other text_eqb text_eqb_spec) in K by (intros ->; rewrite text_eqb_refl in T; discriminate).
        destruct (V k w K) as (g & G1 & G2 & G3). exists g. split; [exact G1|]. split; [exact G2|]. eapply grows_fits; eassumption.
  - intros n nd x ex k l H I. specialize (Hm n). destruct (s_node b n) as [y|] eqn:E; [|congruence].
    assert (Q : n_gi nd = n_gi y /\ n_mem nd = n_mem y).
    { destruct Hm as [Q|(Q & _)]; rewrite Q in H; injection H as <-; auto. }
    destruct Q as (Q1 & Q2). rewrite Q2 in I. rewrite Q1. destruct (C9 n y x ex k l E I) as (R1 & R2). split; [exact R1|]. eapply grows_refs; eassumption.
  - rewrite E3. eapply grows_refs; eassumption.
  - rewrite E4. intros r Hr. rewrite !Gi. apply C4. exact Hr.
  - rewrite E5. intros pn xs x A B. rewrite Gi. eapply C5; eassumption.
  - intros k n Hk. unfold node_def. rewrite E2, Gi. apply C6. exact Hk.
  - intros n. unfold node_def. rewrite E2. apply C7.
  - rewrite E2. exact C8.
Qed.
Lemma assign_closed c n gi nm f fs v b b' : closed (known base c) b -> f_name f = nm -> fits b f v ->
  proto (known base c) gi = Some fs -> gi <> script_gi -> In f fs -> (exists nd, s_node b n = Some nd /\ n_gi nd = gi) ->
  assign base c n gi nm f v b = Ok b' -> closed (known base c) b' /\ grows b b'.
Proof.
  intros C Ef Fv Pr Ns Hf (nd & Hn & Gi) E.
  assert (Nf : forall x, n_gi x = gi -> exists fs, node_fields (known base c) x = Some fs /\ In f fs).
  { intros x <-. exists fs. unfold node_fields. destruct (text_eqb (n_gi x) script_gi) eqn:Q; [apply text_eqb_spec in Q; contradiction|]. auto. }
  assert (One : closed (known base c) (set_field n nm v b) /\ grows b (set_field n nm v b)).
  { eapply sets_closed with (nm := nm) (v := v) (f := f); eauto. intros m. cbn [set_field s_node].
    destruct (s_node b m) as [x|] eqn:Em; destruct (m =? n) eqn:Q; cbn [option_map]; auto. right. split; [reflexivity|].
    apply Nat.eqb_eq in Q. subst m. apply Nf. congruence. }
  assert (All : closed (known base c) (set_all gi n nm v b) /\ grows b (set_all gi n nm v b)).
  { eapply sets_closed with (nm := nm) (v := v) (f := f); eauto. intros m. cbn [set_all s_node].
    destruct (s_node b m) as [x|] eqn:Em; cbn [option_map]; auto. destruct ((m =? n) || text_eqb (n_gi x) gi) eqn:Q; [|auto]. right. split; [reflexivity|].
    apply Nf. apply orb_true_iff in Q as [Q|Q]; [apply Nat.eqb_eq in Q; subst m; congruence|apply text_eqb_spec; exact Q]. }
  unfold assign in E. destruct (dget text_eqb (c_env c) gi) as [p|]; [|injection E as <-; exact One].
  match type of E with (if ?x then _ else _) = _ => destruct x; [discriminate|] end.
  destruct (f_kind f), (dget text_eqb (s_is (p_body p)) nm); try (injection E as <-; exact One);
    (match type of E with (if ?x then _ else _) = _ => destruct x; [discriminate|] end); injection E as <-; exact All.
Qed.
(** every entry of the table of names is a node *)
Definition entries (b : scene) : Prop := forall k n, In (k, n) (defs (s_defs b)) -> node_in b n.
Definition ok (c : ctx) (b : scene) : Prop := closed (known base c) b /\ entries b.
Lemma entries_same b b' : s_defs b' = s_defs b -> grows b b' -> entries b -> entries b'.
Proof. intros E G H k n. rewrite E. intros I. eapply grows_in; [exact G|]. eapply H. exact I. Qed.
Lemma in_ddel {A} (l : list (text * A)) k x : In x (ddel text_eqb l k) -> In x l.
Proof. induction l as [|[k' v'] l IH]; cbn [ddel]; [auto|]. destruct (text_eqb k' k); [right; assumption|]. intros [<-|H]; [left; reflexivity|right; auto]. Qed.
Lemma in_dset {A} (l : list (text * A)) k v x : In x (dset text_eqb l k v) -> snd x = v \/ In x l.
Proof.
  induction l as [|[k' v'] l IH]; cbn [dset]; [intros [<-|[]]; auto|]. destruct (text_eqb k' k).
  - intros [<-|H]; [auto|right; right; exact H].
  - intros [<-|H]; [right; left; reflexivity|]. destruct (IH H); [auto|right; right; assumption].
Qed.
Lemma reg_entries (b : scene) nm n k m : (forall k n, In (k, n) (defs (s_defs b)) -> node_in b n \/ n = s_next b) -> n = s_next b ->
  In (k, m) (defs (regDefName (s_defs b) nm n)) -> node_in b m \/ m = s_next b.
Proof.
  intros H -> I. unfold regDefName in I. cbn [defs] in I. apply in_dset in I as [I|I]; [right; exact I|].
  destruct (dget text_eqb (defs (s_defs b)) (ndef (s_defs b) (s_next b))) as [o|]; [|exact (H _ _ I)].
  destruct (Nat.eqb o (s_next b)); [|exact (H _ _ I)]. apply in_ddel in I. exact (H _ _ I).
Qed.
Lemma enter_ok c d gi fs b : ok c b -> node_fields (known base c) (mksn gi [] []) = Some fs -> ok c (name_node d (s_next b) (new_node gi b)).
Proof.
  intros [C H] Pr. split; [eapply enter_closed; eassumption|]. pose proof (grows_enter d gi b _ C) as G.
  assert (Nw : node_in (name_node d (s_next b) (new_node gi b)) (s_next b)).
  { exists (mksn gi [] []). destruct d; cbn; rewrite Nat.eqb_refl; reflexivity. }
  assert (Q : forall k m, In (k, m) (defs (s_defs (new_node gi b))) -> node_in b m \/ m = s_next b).
  { intros k m I. cbn [new_node s_defs] in I. eapply reg_entries; [|reflexivity|exact I]. intros k' m' I'. left. eapply H. exact I'. }
  intros k m I. assert (R : node_in b m \/ m = s_next b).
  { destruct d as [nm|]; [|exact (Q k m I)]. cbn [name_node s_defs] in I.
    unfold regDefName in I. cbn [defs] in I. apply in_dset in I as [I|I]; [right; exact I|].
    destruct (dget text_eqb _ _) as [o|] in I; [|exact (Q _ _ I)]. destruct (Nat.eqb o (s_next b)); [|exact (Q _ _ I)]. apply in_ddel in I. exact (Q _ _ I). }
  destruct R as [R| ->]; [eapply grows_in; eassumption|exact Nw].
Qed.
Lemma get_entry b nm n : entries b -> getDEF (s_defs b) nm = Some n -> node_in b n.
Proof. intros H E. unfold getDEF in E. apply (dget_In text_eqb text_eqb_spec) in E. eapply H. exact E. Qed.
Lemma kid_ok c b r : ok c b -> ref_in b r -> ok c (add_kid r b).
Proof. intros [[C1 C2 C9 C3 C4 C5 C6 C7 C8] En] H. split; [split; auto|exact En]. cbn. apply Forall_app. split; [exact C3|repeat constructor; exact H]. Qed.
Lemma route_ok c b l b' : ok c b -> build_route l b = Ok b' -> ok c b' /\ grows b b'.
Proof.
  intros [C En] E. unfold build_route in E. destruct l as [|[? a ?] [|[? af ?] [|[? d ?] [|[? df ?] [|? ?]]]]]; try discriminate.
  destruct (getDEF (s_defs b) a) as [sn|] eqn:Ea; [|discriminate]. destruct (getDEF (s_defs b) d) as [dn|] eqn:Ed; [|discriminate].
  injection E as <-. split; [|intros x nd H; exists nd; auto]. split; [|exact En]. destruct C as [C1 C2 C9 C3 C4 C5 C6 C7 C8]. split; auto.
  cbn. intros r Hr. apply in_app_iff in Hr as [Hr|[<-|[]]]; [apply C4; exact Hr|]. cbn. split; eapply get_entry; eassumption.
Qed.
Lemma route_kept b l b' : build_route l b = Ok b' -> kept b b'.
Proof.
  intros E. unfold build_route in E. destruct l as [|[? a ?] [|[? af ?] [|[? d ?] [|[? df ?] [|? ?]]]]]; try discriminate.
  destruct (getDEF (s_defs b) a) as [sn|]; [|discriminate]. destruct (getDEF (s_defs b) d) as [dn|]; [|discriminate].
  injection E as <-. intros m nd H _. exact H.
Qed.
Lemma is_ok c b pn n nm : ok c b -> node_in b n -> ok c (add_is pn n nm b).
Proof.
  intros [[C1 C2 C9 C3 C4 C5 C6 C7 C8] En] H. split; [split; auto|exact En]. cbn. intros q xs x I J. apply in_dset in I as [I|I]; [|eapply C5; eassumption].
  cbn in I. subst xs. destruct (dget text_eqb (s_is b) pn) as [l|] eqn:E.
  - apply in_app_iff in J as [J|[<-|[]]]; [|exact H]. apply (dget_In text_eqb text_eqb_spec) in E. eapply C5; eassumption.
  - destruct J as [<-|[]]. exact H.
Qed.

(** *** values *)
Lemma dec2fl_valid s m e : valid_binary 53 1024 (dec2fl s m e) = true.
Proof.
  destruct m as [|p|p]; try (destruct s; reflexivity). exact (proj1 (dec2fl_nearest s (Z.pos p) e ltac:(lia))).
Qed.
Lemma only_inv {A} l (f : tree -> res A) v : only l f = Ok v -> exists t, f t = Ok v.
Proof. destruct l as [|t [|]]; try discriminate. eauto. Qed.
Lemma handler_wf t l v : handler t l = Ok v -> wf_arg v.
Proof.
  destruct t; cbn [handler]; intros E; try discriminate; try (apply bind_ok in E as (x & _ & E); injection E as <-; exact Logic.I);
    try (injection E as <-; exact Logic.I); apply only_inv in E as (t & E); try (injection E as <-; exact Logic.I);
    match type of E with
    | context [read_int ?x] => destruct (read_int x); [|discriminate]; injection E as <-; exact Logic.I
    | context [read_float ?x] => destruct (read_float x) as [f|] eqn:R; [|discriminate]; injection E as <-; unfold read_float in R;
        destruct (dec_parts x) as [[[s m] e]|]; [|discriminate]; injection R as <-; apply dec2fl_valid
    end.
Qed.
Lemma read_stored t l v : read_value P t l = Ok v -> finite v -> stored t v.
Proof. intros E. apply bind_ok in E as (x & H & E). intros F. eapply coerce_stored; [exact Sane|eapply handler_wf; exact H|exact E|exact F]. Qed.

(** *** the builder *)
Lemma build_node_any c s ch b : build_item P base c (T G_Node s ch) b =
  match ch with
  | T tag1 s1 _ :: rest1 =>
      match tag1 with
      | G_name => match rest1 with T _ gi _ :: rest => b_node P base c (Some s1) gi rest b | [] => Exc IndexError end
      | _ => b_node P base c None s1 rest1 b
      end
  | [] => Exc IndexError
  end.
Proof.
  destruct ch as [|[tag1 s1 l1] rest1]; [reflexivity|].
  destruct tag1; try (unfold b_node; cbn [build_item]; destruct (among s1 not_types); [reflexivity|];
    destruct (proto (known base c) s1) as [fs|]; [|reflexivity];
    destruct (inst_ok base c s1); [|reflexivity]; cbn [bind]; rewrite <- body_eq; reflexivity).
  destruct rest1 as [|[tg gi cg] rest]; [reflexivity|]. apply build_node_named.
Qed.
Definition good_item (t : tree) : Prop := forall c b b' r, ok c b -> build_item P base c t b = Ok (b', r) ->
  ok c b' /\ ref_in b' r /\ grows b b' /\ kept b b'.
Lemma items_good c l : Forall good_item l -> forall b b' rs, ok c b -> b_items P base c l b = Ok (b', rs) ->
  ok c b' /\ Forall (ref_in b') rs /\ grows b b' /\ kept b b'.
Proof.
  induction 1 as [|t l Ht _ IH]; intros b b' rs C E.
  - injection E as <- <-. split; [exact C|]. split; [constructor|split; [apply grows_refl|apply kept_refl]].
  - cbn [b_items] in E. apply bind_ok in E as ([b1 r] & E1 & E). cbn [fst snd] in E. apply bind_ok in E as ([b2 rs2] & E2 & E).
    injection E as <- <-. destruct (Ht c b b1 r C E1) as (C1 & R1 & G1 & K1). destruct (IH b1 b2 rs2 C1 E2) as (C2 & R2 & G2 & K2).
    split; [exact C2|]. split; [constructor; [eapply grows_ref; eassumption|exact R2]|split; [eapply grows_trans; eassumption|eapply kept_trans; eassumption]].
Qed.
Lemma value_good c f l b b' v : Forall good_item l -> ok c b -> build_value P (b_items P base c) f l b = Ok (b', v) ->
  ok c b' /\ fits b' f v /\ grows b b' /\ kept b b'.
Proof.
  intros Hl C E.
  assert (Pl : match f_kind f with KNode => Exc AttributeError | KNodes _ => Ok (b, VRefs [])
     | KVal t _ => bind (read_value P t l) (fun v => Ok (b, VPv v)) end = Ok (b', v) -> ok c b' /\ fits b' f v /\ grows b b' /\ kept b b').
  { unfold fits. destruct (f_kind f) as [t d| |o]; intros F; [|discriminate|].
    - apply bind_ok in F as (x & F1 & F). injection F as <- <-. split; [exact C|]. split; [|split; [apply grows_refl|apply kept_refl]]. eapply read_stored; exact F1.
    - injection F as <- <-. split; [exact C|]. split; [constructor|split; [apply grows_refl|apply kept_refl]]. }
  unfold build_value in E. destruct l as [|x l]; [exact (Pl E)|]. destruct (node_entry x); [|exact (Pl E)]. unfold fits.
  destruct (f_kind f) as [t d| |o]; [discriminate| |].
  - apply bind_ok in E as ([b1 rs] & E1 & E). destruct (items_good c [x]) with (b := b) (b' := b1) (rs := rs) as (C1 & R1 & G1 & K1); auto.
    { inversion Hl; auto. }
    destruct rs as [|r [|]]; try discriminate. injection E as <- <-. inversion R1; auto.
  - apply bind_ok in E as ([b1 rs] & E1 & E). injection E as <- <-. apply (items_good c (x :: l) Hl b b1 rs C E1).
Qed.
Lemma body_good c n gi fs l : Forall (fun t => match t with T _ _ ch => Forall (fun x => match x with T _ _ vs => Forall good_item vs end) ch end) l ->
  proto (known base c) gi = Some fs -> gi <> script_gi -> forall b b', ok c b -> (exists nd, s_node b n = Some nd /\ n_gi nd = gi) ->
  b_body P base c n gi fs l b = Ok b' -> ok c b' /\ grows b b' /\ kept b b'.
Proof.
  intros Hl Pr Ns. induction Hl as [|t l Ht _ IH]; intros b b' C Hn E.
  - injection E as <-. split; [exact C|split; [apply grows_refl|apply kept_refl]].
  - cbn [b_body] in E. apply bind_ok in E as (b1 & E1 & E).
    assert (Q : ok c b1 /\ grows b b1 /\ kept b b1).
    { destruct t as [tag sp ch]. cbn [b_attr] in E1. destruct tag; try discriminate; try (destruct (route_ok c b ch b1 C E1) as (R1 & R2); split; [exact R1|split; [exact R2|exact (route_kept b ch b1 E1)]]).
      destruct ch as [|[tn nm chn] [|[vtag pn vs] [|]]]; try discriminate. destruct vtag; try discriminate.
      - destruct (is_attr c gi fs nm); [|discriminate]. destruct (c_in c); [|discriminate]. injection E1 as <-.
        split; [|split; [intros x nd H; exists nd; auto|intros x nd H _; exact H]]. apply is_ok; [exact C|]. destruct Hn as (nd & Hn & _). exists nd. exact Hn.
      - destruct (find_field fs nm) as [f|] eqn:Ff; [|destruct (odd_name nm); discriminate]. apply find_field_in in Ff as (Hf & Fn).
        apply bind_ok in E1 as ([b2 v] & E2 & E1). cbn [fst snd] in E1. inversion Ht as [|? ? _ Ht2]; subst. inversion Ht2 as [|? ? Hv _]; subst.
        destruct (value_good c f vs b b2 v Hv C E2) as ((C2 & En2) & Fv & G2 & K2). destruct Hn as (nd & Hn & Hg).
        destruct (G2 n nd Hn) as (nd2 & Hn2 & Hg2).
        destruct (assign_closed c n gi (f_name f) f fs v b2 b1 C2 eq_refl Fv Pr Ns Hf) as (C1 & G1); [exists nd2; split; [exact Hn2|congruence]|exact E1|].
        assert (Sh : b1 = set_field n (f_name f) v b2 \/ b1 = set_all gi n (f_name f) v b2).
        { clear - E1. unfold assign in E1. destruct (dget text_eqb (c_env c) gi) as [p|]; [|injection E1 as <-; auto].
          match type of E1 with (if ?x then _ else _) = _ => destruct x; [discriminate|] end.
          destruct (f_kind f), (dget text_eqb (s_is (p_body p)) (f_name f)); try (injection E1 as <-; auto);
            (match type of E1 with (if ?x then _ else _) = _ => destruct x; [discriminate|] end); injection E1 as <-; auto. }
        assert (K1 : kept b2 b1).
        { intros m x Hx Gx. assert (m <> n) by (intros ->; congruence). destruct Sh as [-> | ->]; cbn [set_field set_all s_node].
          - destruct (m =? n) eqn:Q; [apply Nat.eqb_eq in Q; contradiction|exact Hx].
          - rewrite Hx. cbn [option_map]. destruct (m =? n) eqn:Q; [apply Nat.eqb_eq in Q; contradiction|]. cbn [orb].
            destruct (text_eqb (n_gi x) gi) eqn:T; [apply text_eqb_spec in T; congruence|reflexivity]. }
        split; [|split; [eapply grows_trans; eassumption|eapply kept_trans; eassumption]]. split; [exact C1|]. eapply entries_same; [|exact G1|exact En2].
        destruct Sh as [-> | ->]; reflexivity. }
    destruct Q as (C1 & G1 & K1). destruct (IH b1 b' C1) as (C2 & G2 & K2);
      [|exact E|split; [exact C2|split; [eapply grows_trans; eassumption|eapply kept_trans; eassumption]]].
    destruct Hn as (nd & Hn & Hg). destruct (G1 n nd Hn) as (nd1 & Hn1 & Hg1). exists nd1. split; [exact Hn1|congruence].
Qed.
(** *** Scripts *)
Definition script_at (b : scene) (n : nat) (nd : snode) : Prop := s_node b n = Some nd /\ n_gi nd = script_gi.
Lemma member_closed tys b n nd nm m : closed tys b -> script_at b n nd -> n_vals nd = [] ->
  match m with SMField _ _ l => Forall (ref_in b) l | SMEvent _ _ => True end ->
  closed tys (set_member n nm m b) /\ grows b (set_member n nm m b).
Proof.
  intros C (Hn & Gn) Vn Hm.
  assert (Sn : forall k, s_node (set_member n nm m b) k = if k =? n then Some (mksn script_gi [] (dset text_eqb (n_mem nd) nm m)) else s_node b k).
  { intros k. cbn [set_member s_node]. destruct (k =? n) eqn:Q; [|reflexivity]. apply Nat.eqb_eq in Q. subst k. rewrite Hn. cbn. rewrite Gn, Vn. reflexivity. }
  assert (G : grows b (set_member n nm m b)).
  { intros k x H. rewrite Sn. destruct (k =? n) eqn:Q; [|eauto]. apply Nat.eqb_eq in Q. subst k. assert (x = nd) as -> by congruence. eexists. split; [reflexivity|]. symmetry. exact Gn. }
  assert (Gi : forall k, node_in (set_member n nm m b) k <-> node_in b k).
  { intros k. split; [|apply grows_in; exact G]. intros [x H]. rewrite Sn in H. destruct (k =? n) eqn:Q; [apply Nat.eqb_eq in Q; subst; exists nd; exact Hn|exists x; exact H]. }
  split; [|exact G]. destruct C as [C1 C2 C9 C3 C4 C5 C6 C7 C8]. split; auto.
  - intros k. rewrite Gi. apply C1.
  - intros k x. rewrite Sn. destruct (k =? n).
    + intros H. injection H as <-. eexists. split; [reflexivity|]. intros y v Q. discriminate.
    + intros H. destruct (C2 k x H) as (fs & Pr & V). exists fs. split; [exact Pr|]. intros y v Q. destruct (V y v Q) as (f & F1 & F2 & F3).
      exists f. split; [exact F1|]. split; [exact F2|]. eapply grows_fits; eassumption.
  - intros k x y ex kk l. rewrite Sn. destruct (k =? n).
    + intros H. injection H as <-. cbn [n_gi n_mem]. intros I. split; [reflexivity|]. apply in_dset in I as [I|I].
      * cbn in I. subst m. eapply grows_refs; eassumption.
      * destruct (C9 n nd y ex kk l Hn I) as (_ & R). eapply grows_refs; eassumption.
    + intros H I. destruct (C9 k x y ex kk l H I) as (R1 & R). split; [exact R1|]. eapply grows_refs; eassumption.
  - eapply grows_refs; eassumption.
  - intros r Hr. rewrite !Gi. apply C4. exact Hr.
  - intros pn xs x A B. rewrite Gi. eapply C5; eassumption.
  - intros k x Hk Q. rewrite Gi. apply C6; assumption.
Qed.
Lemma member_ok c b n nd nm m : ok c b -> script_at b n nd -> n_vals nd = [] ->
  match m with SMField _ _ l => Forall (ref_in b) l | SMEvent _ _ => True end ->
  ok c (set_member n nm m b) /\ grows b (set_member n nm m b) /\ kept_but n b (set_member n nm m b) /\
  exists nd', script_at (set_member n nm m b) n nd' /\ n_vals nd' = [].
Proof.
  intros (C & En) Hs V Hm. destruct (member_closed _ b n nd nm m C Hs V Hm) as (C1 & G1).
  split; [split; [exact C1|eapply entries_same; [|exact G1|exact En]; reflexivity]|]. split; [exact G1|]. split.
  - intros k x N H _. cbn [set_member s_node]. destruct (k =? n) eqn:Q; [apply Nat.eqb_eq in Q; contradiction|exact H].
  - destruct Hs as (Hn & Gn). eexists. split; [split|]; [cbn [set_member s_node]; rewrite Nat.eqb_refl, Hn; reflexivity|exact Gn|exact V].
Qed.
Lemma script_kind_good c ex ty l b b' m : Forall good_item l -> ok c b -> script_kind (b_items P base c) ex ty l b = Ok (b', m) ->
  ok c b' /\ match m with SMField _ _ l => Forall (ref_in b') l | SMEvent _ _ => True end /\ grows b b' /\ kept b b'.
Proof.
  intros Hl C E. unfold script_kind in E. destruct (text_eqb ty (lit "SFNode")); [|destruct (text_eqb ty (lit "MFNode"))].
  - destruct l as [|x l]; [discriminate|]. destruct (node_entry x); [|discriminate]. apply bind_ok in E as ([b1 rs] & E1 & E). injection E as <- <-.
    apply (items_good c [x]) in E1; [exact E1| |exact C]. inversion Hl; auto.
  - destruct (match l with x :: _ => node_entry x | [] => false end).
    + apply bind_ok in E as ([b1 rs] & E1 & E). injection E as <- <-. exact (items_good c l Hl b b1 rs C E1).
    + injection E as <- <-. split; [exact C|]. split; [constructor|split; [apply grows_refl|apply kept_refl]].
  - destruct (fty_of ty) as [t|]; [|discriminate]. destruct (match l with x :: _ => node_entry x | [] => false end); [discriminate|].
    apply bind_ok in E as (v & _ & E). injection E as <- <-. split; [exact C|]. split; [constructor|split; [apply grows_refl|apply kept_refl]].
Qed.
Lemma sdecls_good c n l : Forall (fun t => match t with T _ _ ch => Forall (fun x => match x with T _ _ vs => Forall good_item vs end) ch end) l ->
  forall b ms b' ms' nd, ok c b -> script_at b n nd -> n_vals nd = [] ->
  b_sdecls P base c n l b ms = Ok (b', ms') -> ok c b' /\ grows b b' /\ kept_but n b b' /\ exists nd', script_at b' n nd'.
Proof.
  intros Hl. induction Hl as [|t l Ht _ IH]; intros b ms b' ms' nd C Hs V E.
  - injection E as <- <-. split; [exact C|]. split; [apply grows_refl|]. split; [apply kept_weak, kept_refl|eauto].
  - cbn [b_sdecls] in E. apply bind_ok in E as ([b1 ms1] & E1 & E). cbn [fst snd] in E.
    assert (Q : ok c b1 /\ grows b b1 /\ kept_but n b b1 /\ exists nd', script_at b1 n nd' /\ n_vals nd' = []).
    { destruct t as [tag sp ch]. cbn [b_sdecl] in E1. destruct tag; try discriminate.
      - apply bind_ok in E1 as (b2 & E1 & E2). injection E2 as <- _. destruct (route_ok c b ch b2 C E1) as (C2 & G2). pose proof (route_kept b ch b2 E1) as K2.
        split; [exact C2|]. split; [exact G2|]. split; [apply kept_weak; exact K2|]. destruct Hs as (Hs1 & Hs2). exists nd. split; [split|]; auto.
      - (* event *)
        destruct ch as [|[? out ?] [|[? ty ?] [|[? nm ?] im]]]; try discriminate. destruct (_ || _) in E1; [discriminate|]. injection E1 as <- _.
        apply (member_ok c b n nd); auto.
      - (* field *)
        destruct ch as [|[? ex ?] [|[? ty ?] [|[? nm ?] [|[vtag pn vs] [|]]]]]; try discriminate. destruct vtag; try discriminate.
        + destruct (kind_of ty) as [k|]; [|discriminate]. destruct (bad_member nm); [discriminate|]. injection E1 as <- _.
          apply (member_ok c b n nd); auto. destruct k; repeat constructor.
        + apply bind_ok in E1 as ([b2 m] & E2 & E1). destruct (bad_member nm); [discriminate|]. injection E1 as <- _. cbn [fst snd].
          inversion Ht as [|? ? _ H1]; subst. inversion H1 as [|? ? _ H2]; subst. inversion H2 as [|? ? _ H3]; subst. inversion H3 as [|? ? Hv _]; subst.
          destruct (script_kind_good c _ ty vs b b2 m Hv C E2) as (C2 & R2 & G2 & K2).
          assert (Hs2 : script_at b2 n nd) by (destruct Hs as (Hs1 & Hs2); split; [apply K2; assumption|exact Hs2]).
          destruct (member_ok c b2 n nd nm m C2 Hs2 V R2) as (C3 & G3 & K3 & X). split; [exact C3|]. split; [eapply grows_trans; eassumption|].
          split; [eapply kept_but_trans; [apply kept_weak; exact K2|exact K3]|exact X].
      - injection E1 as <- _. split; [exact C|]. split; [apply grows_refl|]. split; [apply kept_weak, kept_refl|eauto]. }
    destruct Q as (C1 & G1 & K1 & nd1 & Hs1 & V1). destruct (IH b1 ms1 b' ms' nd1 C1 Hs1 V1 E) as (C2 & G2 & K2 & X).
    split; [exact C2|]. split; [eapply grows_trans; eassumption|]. split; [eapply kept_but_trans; eassumption|exact X].
Qed.
Lemma maps_good c n ms : forall b nd, ok c b -> script_at b n nd -> ok c (add_maps n ms b) /\ grows b (add_maps n ms b) /\
  kept_but n b (add_maps n ms b) /\ exists nd', script_at (add_maps n ms b) n nd'.
Proof.
  induction ms as [|m ms IH]; intros b nd C Hs.
  - split; [exact C|]. split; [apply grows_refl|]. split; [apply kept_weak, kept_refl|exists nd; exact Hs].
  - assert (C1 : ok c (add_is (fst m) n (snd m) b)) by (apply is_ok; [exact C|exists nd; apply Hs]).
    exact (IH (add_is (fst m) n (snd m) b) nd C1 Hs).
Qed.
Lemma find_field_in' fs nm f : find_field fs nm = Some f -> In f fs /\ f_name f = nm.
Proof. apply find_field_in. Qed.
Lemma script_find_in mem nm f : script_find mem nm = Some f -> In f (script_fields mem) /\ f_name f = nm.
Proof.
  unfold script_find, script_fields. destruct (dget text_eqb mem nm) as [[ex k l|]|] eqn:E; [| |].
  - intros H. injection H as <-. split; [|reflexivity]. apply (dget_In text_eqb text_eqb_spec) in E. apply in_or_app. left. apply in_flat_map. eexists. split; [exact E|].
    left. reflexivity.
  - discriminate.
  - intros H. apply find_field_in in H as (H & <-). split; [|reflexivity]. apply in_or_app. right. apply filter_In. split; [exact H|].
    apply negb_true_iff. destruct (existsb _ mem) eqn:X; [|reflexivity]. apply existsb_exists in X as ([k m] & X1 & X2). apply text_eqb_spec in X2. cbn in X2. subst k.
    exfalso. clear - E X1. induction mem as [|[k m'] mem IH]; [destruct X1|]. cbn [dget] in E. destruct (text_eqb k (f_name f)) eqn:T; [discriminate|].
    destruct X1 as [X|X]; [injection X as -> _; rewrite text_eqb_refl in T; discriminate|auto].
Qed.
Lemma sattrs_good c n l : Forall (fun t => match t with T _ _ ch => Forall (fun x => match x with T _ _ vs => Forall good_item vs end) ch end) l ->
  forall b b' nd, ok c b -> script_at b n nd -> b_sattrs P base c n l b = Ok b' ->
  ok c b' /\ grows b b' /\ kept_but n b b' /\ exists nd', script_at b' n nd'.
Proof.
  intros Hl. induction Hl as [|t l Ht _ IH]; intros b b' nd C Hs E.
  - injection E as <-. split; [exact C|]. split; [apply grows_refl|]. split; [apply kept_weak, kept_refl|eauto].
  - cbn [b_sattrs] in E. apply bind_ok in E as (b1 & E1 & E).
    assert (Q : ok c b1 /\ grows b b1 /\ kept_but n b b1 /\ exists nd', script_at b1 n nd').
    { assert (Same : b1 = b -> ok c b1 /\ grows b b1 /\ kept_but n b b1 /\ exists nd', script_at b1 n nd').
      { intros ->. split; [exact C|]. split; [apply grows_refl|]. split; [apply kept_weak, kept_refl|eauto]. }
      destruct t as [tag sp ch]. cbn [b_sattr] in E1. destruct tag; try (apply Same; injection E1 as <-; reflexivity). clear Same.
      destruct ch as [|[tn nm chn] [|[vtag pn vs] [|]]]; try discriminate. destruct vtag; try discriminate.
      - destruct (is_script_attr _ nm); [|discriminate]. destruct (c_in c); [|discriminate]. injection E1 as <-.
        exact (maps_good c n [(pn, nm)] b nd C Hs).
      - destruct Hs as (Hn & Gn). unfold members_of in E1. rewrite Hn in E1. destruct (script_find (n_mem nd) nm) as [f|] eqn:Ff; [|destruct (odd_name nm); discriminate].
        apply script_find_in in Ff as (Hf & Fn). apply bind_ok in E1 as ([b2 v] & E2 & E1). injection E1 as <-. cbn [fst snd].
        inversion Ht as [|? ? _ Ht2]; subst. inversion Ht2 as [|? ? Hv _]; subst.
        destruct (value_good c f vs b b2 v Hv C E2) as ((C2 & En2) & Fv & G2 & K2). pose proof (K2 n nd Hn Gn) as Hn2.
        assert (One : closed (known base c) (set_field n (f_name f) v b2) /\ grows b2 (set_field n (f_name f) v b2)).
        { eapply sets_closed with (nm := f_name f) (v := v) (f := f); eauto. intros m. cbn [set_field s_node].
          destruct (s_node b2 m) as [x|] eqn:Em; destruct (m =? n) eqn:Q; cbn [option_map]; auto. right. split; [reflexivity|].
          apply Nat.eqb_eq in Q. subst m. assert (x = nd) as -> by congruence. exists (script_fields (n_mem nd)). split; [|exact Hf].
          unfold node_fields. rewrite Gn. reflexivity. }
        destruct One as (C3 & G3). split; [split; [exact C3|eapply entries_same; [|exact G3|exact En2]; reflexivity]|].
        split; [eapply grows_trans; eassumption|]. split.
        + intros m x N H G. cbn [set_field s_node]. destruct (m =? n) eqn:Q; [apply Nat.eqb_eq in Q; contradiction|]. apply K2; assumption.
        + eexists. split; [cbn [set_field s_node]; rewrite Nat.eqb_refl, Hn2; reflexivity|exact Gn]. }
    destruct Q as (C1 & G1 & K1 & nd1 & Hs1). destruct (IH b1 b' nd1 C1 Hs1 E) as (C2 & G2 & K2 & X).
    split; [exact C2|]. split; [eapply grows_trans; eassumption|]. split; [eapply kept_but_trans; eassumption|exact X].
Qed.
Lemma script_good c d rest b b' r : Forall (fun t => match t with T _ _ ch => Forall (fun x => match x with T _ _ vs => Forall good_item vs end) ch end) rest ->
  ok c b -> b_script P base c d rest b = Ok (b', r) -> ok c b' /\ ref_in b' r /\ grows b b' /\ kept b b'.
Proof.
  intros Hr C E. unfold b_script in E. apply bind_ok in E as ([b1 ms] & E1 & E). cbn [fst snd] in E. apply bind_ok in E as (b2 & E2 & E).
  apply bind_ok in E as (b3 & E3 & E). injection E as <- <-.
  assert (C0 : ok c (name_node d (s_next b) (new_node script_gi b))) by (eapply enter_ok; [exact C|reflexivity]).
  assert (S0 : script_at (name_node d (s_next b) (new_node script_gi b)) (s_next b) (mksn script_gi [] [])).
  { split; [|reflexivity]. destruct d; cbn; rewrite Nat.eqb_refl; reflexivity. }
  destruct (sdecls_good c (s_next b) rest Hr _ [] b1 ms _ C0 S0 eq_refl E1) as (C1 & G1 & K1 & nd1 & S1).
  assert (M : ok c b2 /\ grows b1 b2 /\ kept_but (s_next b) b1 b2 /\ exists nd', script_at b2 (s_next b) nd').
  { destruct ms as [|m ms]; [injection E2 as <-; exact (maps_good c (s_next b) [] b1 nd1 C1 S1)|].
    destruct (c_in c); [|discriminate]. injection E2 as <-. exact (maps_good c (s_next b) (m :: ms) b1 nd1 C1 S1). }
  destruct M as (C2 & G2 & K2 & nd2 & S2). destruct (sattrs_good c (s_next b) rest Hr b2 b3 nd2 C2 S2 E3) as (C3 & G3 & K3 & nd3 & S3).
  split; [exact C3|]. split; [exists nd3; apply S3|]. split.
  - eapply grows_trans; [eapply grows_enter; apply C|]. eapply grows_trans; [exact G1|]. eapply grows_trans; eassumption.
  - intros m nd H G. assert (m <> s_next b).
    { assert (m < s_next b) by (apply (cl_ids _ _ (proj1 C)); exists nd; exact H). lia. }
    apply K3; auto. apply K2; auto. apply K1; auto. eapply kept_enter; [apply C|exact H|exact G].
Qed.
(** all parts of a tree *)
Inductive throughout (Q : tree -> Prop) : tree -> Prop :=
| thr n s l : Q (T n s l) -> Forall (throughout Q) l -> throughout Q (T n s l).
Lemma thr_here Q t : throughout Q t -> Q t.
Proof. destruct 1; assumption. Qed.
Lemma thr_below Q n s l : throughout Q (T n s l) -> Forall (throughout Q) l.
Proof. inversion 1; assumption. Qed.
Lemma thr_all Q l : Forall (throughout Q) l -> Forall Q l.
Proof. apply Forall_impl. intros t. apply thr_here. Qed.
Lemma item_good t : throughout good_item t.
Proof.
  induction t as [n s l Hl] using tree_all. constructor; [|exact Hl]. intros c b b' r C E.
  destruct n; try discriminate.
  - rewrite build_node_any in E.
    assert (G : forall d gi rest, Forall (throughout good_item) rest -> b_node P base c d gi rest b = Ok (b', r) ->
      ok c b' /\ ref_in b' r /\ grows b b' /\ kept b b').
    { clear E. intros d gi rest Hr E. unfold b_node in E. destruct (among gi not_types) eqn:Nt; [discriminate|].
      assert (Ns : gi <> script_gi) by (intros ->; discriminate).
      destruct (proto (known base c) gi) as [fs|] eqn:Pr; [|discriminate]. apply bind_ok in E as (? & _ & E).
      apply bind_ok in E as (b1 & E & E1). injection E1 as <- <-.
      pose proof (grows_enter d gi b _ (proj1 C)) as G0. pose proof (kept_enter d gi b _ (proj1 C)) as K0.
      assert (C0 : ok c (name_node d (s_next b) (new_node gi b))).
      { apply (enter_ok c d gi fs b C). unfold node_fields. cbn [n_gi]. destruct (text_eqb gi script_gi) eqn:Q; [apply text_eqb_spec in Q; contradiction|exact Pr]. }
      assert (N0 : exists nd, s_node (name_node d (s_next b) (new_node gi b)) (s_next b) = Some nd /\ n_gi nd = gi).
      { exists (mksn gi [] []). destruct d; cbn; rewrite Nat.eqb_refl; auto. }
      destruct (body_good c (s_next b) gi fs rest) with (b := name_node d (s_next b) (new_node gi b)) (b' := b1) as (C1 & G1 & K1); auto.
      { eapply Forall_impl; [|exact Hr]. intros [n1 s1 l1] H1. apply thr_below in H1. eapply Forall_impl; [|exact H1].
        intros [n2 s2 l2] H2. apply thr_below in H2. apply thr_all. exact H2. }
      split; [exact C1|]. split; [|split; [eapply grows_trans; eassumption|eapply kept_trans; eassumption]]. destruct N0 as (nd & N0 & _). destruct (G1 _ _ N0) as (nd1 & N1 & _). exists nd1. exact N1. }
    destruct l as [|[tag1 s1 l1] rest1]; [discriminate|]. inversion Hl as [|? ? _ Hr]; subst.
    destruct tag1; try (exact (G None s1 rest1 Hr E)). destruct rest1 as [|[tg gi cg] rest]; [discriminate|].
    inversion Hr as [|? ? _ Hr2]; subst. exact (G (Some s1) gi rest Hr2 E).
  - rewrite build_script in E.
    assert (G : forall d rest, Forall (throughout good_item) rest -> b_script P base c d rest b = Ok (b', r) ->
      ok c b' /\ ref_in b' r /\ grows b b' /\ kept b b').
    { intros d rest Hr. apply script_good; [|exact C]. eapply Forall_impl; [|exact Hr]. intros [n1 s1 l1] H1. apply thr_below in H1. eapply Forall_impl; [|exact H1].
      intros [n2 s2 l2] H2. apply thr_below in H2. apply thr_all. exact H2. }
    destruct l as [|[tag1 s1 l1] rest1]; [exact (G None [] Hl E)|].
    destruct tag1; try (exact (G None _ Hl E)). inversion Hl as [|? ? _ Hr]; subst. exact (G (Some s1) rest1 Hr E).
  - injection E as <- <-. split; [exact C|]. split; [exact Logic.I|split; [apply grows_refl|apply kept_refl]].
  - cbn [build_item] in E. destruct (getDEF (s_defs b) s) as [x|] eqn:Ed; [|discriminate]. injection E as <- <-. split; [exact C|].
    split; [|split; [apply grows_refl|apply kept_refl]]. eapply get_entry; [exact (proj2 C)|exact Ed].
Qed.

(** *** scenes and PROTOs *)
Definition ok_file (c : ctx) (s : file) : Prop := closed_protos base (c_env c) (fst s) /\ ok (inside c s) (snd s).
Lemma ok_file0 c : ok_file c file0.
Proof. split; [constructor|]. split; [apply closed0|]. intros k n []. Qed.
Lemma types_extend tab e gi p g fs : proto (types base (tab ++ e)) gi = None -> proto (types base (tab ++ e)) g = Some fs ->
  proto (types base ((tab ++ [(gi, p)]) ++ e)) g = Some fs.
Proof.
  unfold proto, types. rewrite <- app_assoc. induction tab as [|[k q] tab IH]; cbn [app map fst snd dget].
  - intros N H. destruct (text_eqb gi g) eqn:E; [|exact H]. apply text_eqb_spec in E. subst. congruence.
  - destruct (text_eqb k gi); [discriminate|]. destruct (text_eqb k g); auto.
Qed.
Lemma closed_extend tys tys' b : (forall g fs, proto tys g = Some fs -> proto tys' g = Some fs) -> closed tys b -> closed tys' b.
Proof.
  intros H [C1 C2 C9 C3 C4 C5 C6 C7 C8]. split; auto. intros n nd Hn. destruct (C2 n nd Hn) as (fs & Pr & V). exists fs. split; [|exact V].
  unfold node_fields in *. destruct (text_eqb (n_gi nd) script_gi); auto.
Qed.
Definition good_root (t : tree) : Prop := forall c s s', ok_file c s -> build_root P base c t s = Ok s' -> ok_file c s'.
Lemma roots_good l : Forall good_root l -> forall c s s', ok_file c s -> build_scene P base c l s = Ok s' -> ok_file c s'.
Proof.
  induction 1 as [|t l Ht _ IH]; intros c s s' H E; [injection E as <-; exact H|].
  cbn [build_scene] in E. apply bind_ok in E as (s1 & E1 & E). eapply IH; [|exact E]. eapply Ht; eassumption.
Qed.
Lemma declared_good c l : Forall (fun t => match t with T _ _ ch => Forall good_root ch end) l -> forall mem p,
  b_declared P base c l mem = Ok p -> closed_protos base (c_env c) (p_inner p) /\ closed (types base (p_inner p ++ c_env c)) (p_body p).
Proof.
  induction 1 as [|[tag sp ch] l Ht _ IH]; intros mem p E; [discriminate|]. cbn [b_declared] in E.
  destruct tag; try (apply bind_ok in E as (m & _ & E); exact (IH m p E)).
  apply bind_ok in E as (q & E & E1). injection E1 as <-. pose proof (roots_good ch Ht c file0 q (ok_file0 c) E) as (H1 & H2 & _). cbn.
  split; [exact H1|exact H2].
Qed.
Lemma root_good t : throughout good_root t.
Proof.
  induction t as [n sp ch Hl] using tree_all. constructor; [|exact Hl]. intros c s s' [Hp C] E.
  assert (It : forall r : res file, r = bind (build_item P base (inside c s) (T n sp ch) (snd s)) (fun p => Ok (fst s, add_kid (snd p) (fst p))) ->
    r = Ok s' -> ok_file c s').
  { intros r -> E1. apply bind_ok in E1 as ([b1 r1] & E1 & E2). injection E2 as <-. destruct (thr_here _ _ (item_good (T n sp ch)) _ _ _ _ C E1) as (C1 & R1 & G1 & _).
    split; [exact Hp|]. apply kid_ok; assumption. }
  destruct n; try (exact (It _ eq_refl E)).
  - rewrite build_root_item in E. eapply roots_good; [apply thr_all; exact Hl|split; [exact Hp|exact C]|exact E].
  - destruct ch as [|[tg gi cg] r]; [discriminate|]. rewrite build_root_proto in E. destruct (among gi not_types); [discriminate|].
    destruct (proto (known base (inside c s)) gi) eqn:Pr; [discriminate|]. apply bind_ok in E as (p & E & E1). injection E1 as <-.
    inversion Hl as [|? ? _ Hr]; subst.
    destruct (declared_good (mkctx true (fst s ++ c_env c) (c_outer c ++ uses (snd s))) r) with (mem := @nil (text * member)) (p := p) as (H1 & H2); auto.
    { eapply Forall_impl; [|exact Hr]. intros [n1 s1 l1] H1. apply thr_below in H1. apply thr_all. exact H1. }
    split; [destruct p as [mem inner body|]; cbn [p_inner p_body c_env] in *; constructor; assumption|]. destruct C as [C En]. split; [|exact En].
    eapply closed_extend; [|exact C]. unfold known, inside. cbn [c_env fst snd]. intros g fs. apply types_extend. exact Pr.
  - destruct ch as [|[tg gi cg] r]; [discriminate|]. rewrite build_root_extern in E. destruct (among gi not_types); [discriminate|].
    destruct (proto (known base (inside c s)) gi) eqn:Pr; [discriminate|]. apply bind_ok in E as (p & E & E1). injection E1 as <-.
    assert (exists mem u, p = PExt mem u) as (mem & u & ->).
    { clear - E. revert E. generalize (@nil (text * member)). induction r as [|[tag sp ch] r IH]; intros mem E; [discriminate|]. cbn [xdecls] in E.
      destruct tag; try (apply bind_ok in E as (m1 & _ & E); exact (IH _ E)). apply bind_ok in E as (u & _ & E). injection E as <-. eauto. }
    split; [constructor; assumption|]. destruct C as [C En]. split; [|exact En].
    eapply closed_extend; [|exact C]. unfold known, inside. cbn [c_env fst snd]. intros g fs. apply types_extend. exact Pr.
  - apply bind_ok in E as (b1 & E & E1). injection E1 as <-. split; [exact Hp|]. eapply route_ok; eassumption.
Qed.
Lemma file_closed l tab S : build_file P base l = Ok (tab, S) -> closed_protos base [] tab /\ closed (types base tab) S.
Proof.
  intros E. unfold build_file in E. destruct l as [|? [|[tg sp ch] [|? [|]]]]; try discriminate.
  destruct (roots_good ch) with (c := ctx0) (s := file0) (s' := (tab, S)) as (H1 & H2 & _); auto.
  - apply Forall_forall. intros u _. apply thr_here. apply root_good.
  - apply ok_file0.
  - split; [exact H1|]. unfold known, inside in H2. cbn [c_env fst snd ctx0] in H2. rewrite app_nil_r in H2. exact H2.
Qed.
End Closed.
