(** The lineariser: termination, and what is written. *)
From Coq Require Import Reals Permutation SpecFloat.
From Flocq Require Import Core.Core IEEE754.BinarySingleNaN.
From Verif Require Import Base Text PyDict PyDict_Proofs Float Coerce_Model Coerce_Spec Grammar_Model Lex_Spec Lex_Proofs
  Doc_Spec Doc_Proofs SceneGraph_Model VrmlStr_Model VrmlStr_Spec VrmlStr_Proofs VrmlStr_Values Scene_Model Linearise_Model Scene_Spec.
Local Open Scope nat_scope.
Local Open Scope list_scope.

(** *** termination *)
Definition seen (s : lst) (n : nat) : Prop := dget Nat.eqb (l_done s) n <> None.
Lemma seen_mark n x s m : seen (mark n x s) m <-> m = n \/ seen s m.
Proof.
  unfold seen, mark. cbn [l_done]. destruct (Nat.eq_dec m n) as [->|D].
  - rewrite (dget_dset_same Nat.eqb Nat.eqb_eq). split; [auto|discriminate].
  - rewrite (dget_dset_other Nat.eqb Nat.eqb_eq) by congruence. intuition.
Qed.
Lemma lbind_ok r f s : lbind r f = LOk s -> exists s1, r = LOk s1 /\ f s1 = LOk s.
Proof. destruct r; cbn; intros; [eauto|discriminate|discriminate]. Qed.
Lemma lbind_fuel r f : lbind r f <> LFuel -> r <> LFuel.
Proof. destruct r; cbn; congruence. Qed.
Lemma lbind_fuel_ok r f s : r = LOk s -> lbind r f <> LFuel -> f s <> LFuel.
Proof. intros ->. auto. Qed.

Section Lin.
Variable P : prims.
Variable fstr : tcode -> fl -> text.
Variable protos : list (text * list fdecl).
Variable st : settings.
Variable S : scene.
Variable ism : nat -> text -> option text.
Notation lin := (lin P fstr protos st S ism).
Notation linear := (linear P fstr protos st S ism).
Notation node_body := (node_body P fstr st S ism).
Notation attr := (attr P fstr st S ism).
Notation sffield := (sffield fstr st).
Notation mfnode := (mfnode st).
Notation script_body := (script_body P fstr st S ism).
Notation script_field := (script_field P fstr st).
Notation script_attr := (script_attr P fstr st S ism).

(** nothing forgets a visited node *)
Definition grows (f : lst -> lres) : Prop := forall s s', f s = LOk s' -> forall n, seen s n -> seen s' n.
Lemma each_grows {A} (f : A -> lst -> lres) l : (forall x, grows (f x)) -> grows (each f l).
Proof.
  intros H. induction l as [|x l IH]; intros s s' E n Hn; cbn in E; [injection E as <-; exact Hn|].
  apply lbind_ok in E as (s1 & E1 & E2). eapply IH; eauto. eapply H; eauto.
Qed.
Lemma mfnode_grows rec l : (forall r, grows (rec r)) -> grows (mfnode rec l).
Proof.
  intros H s s' E n Hn. destruct l as [|x l]; cbn in E; [injection E as <-; exact Hn|]. set (l' := x :: l) in E.
  change (lbind (rec x _) _) with (each (fun el s => rec el (emit (lead st s) s)) l' (emit (lit "[ ") (more s))) in E.
  apply lbind_ok in E as (s1 & E1 & [= <-]). cbn.
  refine (each_grows _ l' _ _ _ E1 n Hn).
  intros r s2 s3 E2 m Hm. exact (H r _ _ E2 m Hm).
Qed.
Lemma sffield_grows rec f v : (forall r, grows (rec r)) -> grows (sffield rec f v).
Proof.
  intros H s s' E n Hn. unfold sffield, Linearise_Model.sffield in E.
  destruct (f_kind f) as [t d| |ol], v as [x|r|l]; try discriminate.
  - assert (Q : forall tx s, (match tx with Some tx => LOk (emit tx s) | None => LExc end) = LOk s' -> seen s n -> seen s' n)
      by (intros [tx|] s0 [= <-]; auto).
    destruct x as [| | | | | |[] [|y l]|]; try (eapply Q; [exact E|exact Hn]). eapply mfnode_grows; eauto.
  - eapply H; eauto.
  - eapply mfnode_grows; eauto.
Qed.
Lemma attr_grows rec n f : (forall r, grows (rec r)) -> grows (attr rec n f).
Proof.
  intros H s s' E m Hm. unfold attr, Linearise_Model.attr in E. destruct (fget P S n f) as [v|]; [|discriminate].
  destruct (ism n (f_name f)) as [pn|]; [injection E as <-; exact Hm|].
  destruct (dropped f v) as [[]|]; [|eapply sffield_grows; eauto|discriminate]. injection E as <-. exact Hm.
Qed.
(** the end of _Node *)
Definition closed (n startind position : nat) (gi : text) (s3 : lst) : lst :=
  let s4 :=
    if tell s3 =? position then emit (l_courtesy st ++ lit "}") s3
    else
      let plain := l_fes st ++ cur st s3 ++ lit "}" in
      match l_end st with
      | Some c => if c * 60 <? tell s3 - startind
                  then emit (plain ++ lit " #EndNode " ++
                             (match node_def S n with [] => gi | d => d end)) s3
                  else emit plain s3
      | None => emit plain s3
      end in
  let s5 := less s4 in
  mark n (startind, Some (tell s5)) s5.
Lemma node_body_eq rec n gi fs s : node_body rec n gi fs s =
  match can_use S n s with
  | inl t => LOk (emit t s)
  | Datatypes.inr s1 =>
      let s2 := emit (def_text S n ++ gi ++ lit " {") s1 in
      lbind (each (attr rec n) (sort fs) (more s2)) (fun s3 => LOk (closed n (tell s) (tell s2) gi s3))
  end.
Proof. reflexivity. Qed.
Lemma closed_done n i p gi s : exists x, l_done (closed n i p gi s) = dset Nat.eqb (l_done s) n x.
Proof.
  unfold closed. destruct (tell s =? p); [eexists; reflexivity|].
  destruct (l_end st) as [c|]; [|eexists; reflexivity]. destruct (c * 60 <? tell s - i); eexists; reflexivity.
Qed.
Lemma node_body_grows rec n gi fs : (forall r, grows (rec r)) -> grows (node_body rec n gi fs).
Proof.
  intros H s s' E m Hm. rewrite node_body_eq in E. unfold can_use in E.
  destruct (dget Nat.eqb (l_done s) n) as [x|] eqn:D.
  - destruct (node_def S n); [destruct x as [? []]|]; injection E as <-; exact Hm.
  - cbv zeta in E. apply lbind_ok in E as (s3 & E & [= <-]). unfold seen.
    match goal with |- context [closed n ?a ?b gi s3] => destruct (closed_done n a b gi s3) as [x ->] end.
    destruct (Nat.eq_dec m n) as [->|Dm].
    + rewrite (dget_dset_same Nat.eqb Nat.eqb_eq). discriminate.
    + rewrite (dget_dset_other Nat.eqb Nat.eqb_eq) by congruence. eapply each_grows; [|exact E|].
      * intros f. apply attr_grows. exact H.
      * apply (seen_mark n (tell s, None) s). auto.
Qed.
Lemma script_field_grows rec x : (forall r, grows (rec r)) -> grows (script_field rec x).
Proof.
  intros H s s' E n Hn. destruct x as (nm & (ex & k) & l). unfold script_field, Linearise_Model.script_field, script_default in E.
  match type of E with context [emit ?t s] => set (s1 := emit t s) in * end. change (seen s1 n) in Hn. clearbody s1.
  destruct k as [t d| |ol].
  - destruct (coerce P t d) as [v|]; [|discriminate]. destruct (vrmlstr fstr (lv_at st s1) t v); [|discriminate]. injection E as <-. exact Hn.
  - destruct l as [|r [|]]; try discriminate. exact (H r _ _ E n Hn).
  - exact (mfnode_grows rec l H _ _ E n Hn).
Qed.
Lemma script_attr_grows rec n f : (forall r, grows (rec r)) -> grows (script_attr rec n f).
Proof.
  intros H s s' E. unfold script_attr, Linearise_Model.script_attr in E. destruct (f_kind f); try discriminate. exact (attr_grows rec n f H s s' E).
Qed.
(** the end of _Script *)
Definition sclosed (n startind : nat) (s5 : lst) : lst :=
  let s6 := less (emit (l_fes st ++ cur st s5 ++ lit "}#" ++ (match def_text S n with [] => script_gi | d => d end)) s5) in
  mark n (startind, Some (tell s6)) s6.
Lemma script_body_eq rec n mem s : script_body rec n mem s =
  match can_use S n s with
  | inl t => LOk (emit t s)
  | Datatypes.inr s1 =>
      lbind (each (script_event st) (sort_by (script_events mem)) (more (more (emit (def_text S n ++ lit " Script {") s1)))) (fun s3 =>
      lbind (each (script_field rec) (sort_by (script_decls mem)) s3) (fun s4 =>
      lbind (each (script_attr rec n) (sort (filter (fun f => existsb (text_eqb (f_name f)) script_attrs) (script_fields mem))) (less s4)) (fun s5 =>
      LOk (sclosed n (tell s) s5))))
  end.
Proof. reflexivity. Qed.
Lemma script_event_grows x : grows (script_event st x).
Proof. intros s s' [= <-] n Hn. exact Hn. Qed.
Lemma script_body_grows rec n mem : (forall r, grows (rec r)) -> grows (script_body rec n mem).
Proof.
  intros H s s' E m Hm. rewrite script_body_eq in E. unfold can_use in E.
  destruct (dget Nat.eqb (l_done s) n) as [x|] eqn:D.
  - destruct (node_def S n); [destruct x as [? []]|]; injection E as <-; exact Hm.
  - apply lbind_ok in E as (s3 & E1 & E). apply lbind_ok in E as (s4 & E2 & E). apply lbind_ok in E as (s5 & E3 & [= <-]).
    apply (seen_mark n). right.
    refine (each_grows _ _ (fun f => script_attr_grows rec n f H) _ _ E3 m _).
    refine (each_grows _ _ (fun f => script_field_grows rec f H) _ _ E2 m _).
    refine (each_grows _ _ script_event_grows _ _ E1 m _). apply (seen_mark n). right. exact Hm.
Qed.
Lemma linear_grows rec r : (forall r, grows (rec r)) -> grows (linear rec r).
Proof.
  intros H s s' E. unfold linear, Linearise_Model.linear in E. destruct r as [|n]; [injection E as <-; auto|].
  destruct (s_node S n) as [nd|]; [|discriminate]. destruct (text_eqb (n_gi nd) script_gi); [eapply script_body_grows; eauto|].
  destruct (_ || _); [discriminate|].
  destruct (proto protos (n_gi nd)) as [fs|]; [|discriminate]. eapply node_body_grows; eauto.
Qed.
Lemma lin_grows fuel : forall r, grows (lin fuel r).
Proof. induction fuel as [|k IH]; intros r s s' E; [discriminate|]. exact (linear_grows _ r IH s s' E). Qed.

(** the nodes still to be visited *)
Definition undone (s : lst) : nat :=
  List.length (filter (fun n => match dget Nat.eqb (l_done s) n with None => true | _ => false end) (seq 0 (s_next S))).
Lemma filter_le {A} (f g : A -> bool) l : (forall x, f x = true -> g x = true) ->
  List.length (filter f l) <= List.length (filter g l).
Proof.
  intros H. induction l as [|x l IH]; cbn; [lia|]. specialize (H x). destruct (f x), (g x); cbn; lia.
Qed.
Lemma filter_lt {A} (f g : A -> bool) l x : (forall x, f x = true -> g x = true) -> In x l ->
  f x = false -> g x = true -> List.length (filter f l) < List.length (filter g l).
Proof.
  intros H I Fx Gx. induction l as [|y l IH]; [contradiction|]. cbn. pose proof (filter_le f g l H) as L.
  destruct I as [->|I].
  - rewrite Fx, Gx. cbn. lia.
  - specialize (IH I). pose proof (H y). destruct (f y), (g y); cbn; lia.
Qed.
Lemma filter_len {A} (f : A -> bool) l : List.length (filter f l) <= List.length l.
Proof. induction l as [|x l IH]; cbn; [lia|]. destruct (f x); cbn; lia. Qed.
Lemma undone_le s s' : (forall n, seen s n -> seen s' n) -> undone s' <= undone s.
Proof.
  intros H. apply filter_le. intros n. specialize (H n). unfold seen in H.
  destruct (dget Nat.eqb (l_done s') n), (dget Nat.eqb (l_done s) n); auto. destruct H; congruence.
Qed.
Lemma undone_mark n x s : n < s_next S -> ~ seen s n -> undone (mark n x s) < undone s.
Proof.
  intros L N. apply filter_lt with (x := n).
  - intros m Hm. pose proof (proj2 (seen_mark n x s m)) as Q. unfold seen in Q.
    destruct (dget Nat.eqb (l_done (mark n x s)) m); [discriminate|]. destruct (dget Nat.eqb (l_done s) m); [|reflexivity].
    destruct Q; [right; discriminate|reflexivity].
  - apply in_seq. lia.
  - pose proof (proj2 (seen_mark n x s n) (or_introl eq_refl)) as Q. unfold seen in Q.
    destruct (dget Nat.eqb (l_done (mark n x s)) n); [reflexivity|congruence].
  - unfold seen in N. destruct (dget Nat.eqb (l_done s) n); [destruct N; discriminate|reflexivity].
Qed.

Definition ends (k : nat) (f : lst -> lres) : Prop := forall s, undone s <= k -> f s <> LFuel.
Lemma each_ends {A} k (f : A -> lst -> lres) l : (forall x, grows (f x)) -> (forall x, ends k (f x)) -> ends k (each f l).
Proof.
  intros G H. induction l as [|x l IH]; intros s L; cbn; [discriminate|].
  specialize (H x s L). destruct (f x s) as [s1| |] eqn:E; cbn; [|congruence|discriminate].
  apply IH. pose proof (undone_le s s1 (G x _ _ E)). lia.
Qed.
Lemma mfnode_ends k rec l : (forall r, grows (rec r)) -> (forall r, ends k (rec r)) -> ends k (mfnode rec l).
Proof.
  intros G H s L. destruct l as [|x l]; [discriminate|]. set (l' := x :: l).
  change (lbind (each (fun el s => rec el (emit (lead st s) s)) l' (emit (lit "[ ") (more s)))
    (fun s2 => LOk (less (emit (l_fes st ++ cur st s2 ++ lit "]") s2))) <> LFuel).
  pose proof (each_ends k (fun el s => rec el (emit (lead st s) s)) l') as Q.
  destruct (each _ l' _) eqn:E; cbn; try discriminate. exfalso. eapply Q; [| | |exact E].
  - intros r s2 s3 E2 m Hm. eapply G; eauto.
  - intros r s2 L2. apply H. exact L2.
  - exact L.
Qed.
Lemma attr_ends k rec n f : (forall r, grows (rec r)) -> (forall r, ends k (rec r)) -> ends k (attr rec n f).
Proof.
  intros G H s L. unfold attr, Linearise_Model.attr. destruct (fget P S n f) as [v|]; [|discriminate].
  destruct (ism n (f_name f)) as [pn|]; [discriminate|].
  destruct (dropped f v) as [[]|]; [discriminate| |discriminate]. unfold Linearise_Model.sffield.
  assert (Q : forall tx s, (match tx with Some tx => LOk (emit tx s) | None => LExc end) <> LFuel) by (intros [tx|] s0; discriminate).
  destruct (f_kind f) as [t d| |ol], v as [x|r|l]; try discriminate.
  - destruct x as [| | | | | |[] [|y l]|]; try apply Q. discriminate.
  - apply H. exact L.
  - apply mfnode_ends with (k := k); auto.
Qed.
Lemma script_field_ends k rec x : (forall r, grows (rec r)) -> (forall r, ends k (rec r)) -> ends k (script_field rec x).
Proof.
  intros G H s L. destruct x as (nm & (ex & kd) & l). unfold script_field, Linearise_Model.script_field, script_default.
  match goal with |- context [emit ?t s] => set (s1 := emit t s) end. change (undone s1 <= k) in L. clearbody s1.
  destruct kd as [t d| |ol].
  - destruct (coerce P t d) as [v|]; [|discriminate]. destruct (vrmlstr fstr (lv_at st s1) t v); discriminate.
  - destruct l as [|r [|]]; try discriminate. exact (H r _ L).
  - exact (mfnode_ends k rec l G H _ L).
Qed.
Lemma script_attr_ends k rec n f : (forall r, grows (rec r)) -> (forall r, ends k (rec r)) -> ends k (script_attr rec n f).
Proof.
  intros G H s L. unfold script_attr, Linearise_Model.script_attr. destruct (f_kind f); try discriminate. exact (attr_ends k rec n f G H s L).
Qed.
Hypothesis IDS : forall n nd, s_node S n = Some nd -> n < s_next S.
Lemma lin_ends fuel : forall r s, undone s < fuel -> lin fuel r s <> LFuel.
Proof.
  induction fuel as [|k IH]; intros r s L; [lia|]. cbn [Linearise_Model.lin]. unfold Linearise_Model.linear.
  destruct r as [|n]; [discriminate|]. destruct (s_node S n) as [nd|] eqn:N; [|discriminate].
  destruct (text_eqb (n_gi nd) script_gi).
  { rewrite script_body_eq. unfold can_use. destruct (dget Nat.eqb (l_done s) n) as [x|] eqn:D.
    { destruct (node_def S n); [destruct x as [? []]|]; discriminate. }
    assert (U : undone (mark n (tell s, None) s) < undone s).
    { apply undone_mark; [eauto|]. unfold seen. congruence. }
    match goal with |- lbind (each _ _ ?s0) _ <> _ => assert (L0 : undone s0 = undone (mark n (tell s, None) s)) by reflexivity; set (s2 := s0) in * end.
    clearbody s2. set (u := undone (mark n (tell s, None) s)) in *.
    assert (Hr : forall r, ends u (lin k r)) by (intros r s0 L2; apply IH; lia).
    assert (U2 : undone s2 <= u) by lia.
    destruct (each (script_event st) _ s2) as [s3| |] eqn:E1; cbn [lbind]; [|exfalso|discriminate].
    2: { refine (each_ends u _ _ script_event_grows _ _ U2 E1). intros x s0 L2. discriminate. }
    assert (U3 : undone s3 <= u) by (pose proof (undone_le s2 s3 (each_grows _ _ script_event_grows _ _ E1)); lia).
    destruct (each _ _ s3) as [s4| |] eqn:E2; cbn [lbind]; [|exfalso|discriminate].
    2: { exact (each_ends u _ _ (fun x => script_field_grows _ x (lin_grows k)) (fun x => script_field_ends u _ x (lin_grows k) Hr) _ U3 E2). }
    assert (U4 : undone (less s4) <= u) by (pose proof (undone_le s3 s4 (each_grows _ _ (fun x => script_field_grows _ x (lin_grows k)) _ _ E2)); change (undone (less s4)) with (undone s4); lia).
    destruct (each _ _ (less s4)) as [s5| |] eqn:E3; cbn [lbind]; [discriminate|exfalso|discriminate].
    exact (each_ends u _ _ (fun x => script_attr_grows _ n x (lin_grows k)) (fun x => script_attr_ends u _ n x (lin_grows k) Hr) _ U4 E3). }
  destruct (_ || _); [discriminate|]. destruct (proto protos (n_gi nd)) as [fs|]; [|discriminate].
  rewrite node_body_eq. unfold can_use. destruct (dget Nat.eqb (l_done s) n) as [x|] eqn:D.
  - destruct (node_def S n); [destruct x as [? []]|]; discriminate.
  - cbv zeta. assert (U : undone (mark n (tell s, None) s) < undone s).
    { apply undone_mark; [eauto|]. unfold seen. congruence. }
    pose proof (each_ends (undone (mark n (tell s, None) s)) (attr (lin k) n) (sort fs)) as Q.
    destruct (each _ (sort fs) _) eqn:E; cbn; try discriminate. exfalso. eapply Q; [| | |exact E].
    + intros f. apply attr_grows. apply lin_grows.
    + intros f. apply attr_ends; [apply lin_grows|]. intros r s2 L2. apply IH. lia.
    + apply le_n.
Qed.
Lemma scene_ends pre : scene_body P fstr protos st S ism pre (depth S) <> LFuel.
Proof.
  unfold scene_body, depth. set (f := fun c s => _). pose proof (each_ends (s_next S) f (s_kids S)) as Q.
  destruct (each f (s_kids S) _) eqn:E; cbn; try discriminate. exfalso.
  eapply Q; [| | |exact E].
  - intros r s s' E2 n Hn. apply lbind_ok in E2 as (s1 & E1 & [= <-]). exact (lin_grows _ _ _ _ E1 n Hn).
  - intros r s L. unfold f. destruct (lin (Datatypes.S (s_next S)) r s) eqn:E2; try discriminate.
    exfalso. eapply (lin_ends (Datatypes.S (s_next S))); [|exact E2]. lia.
  - unfold undone. rewrite <- (seq_length (s_next S) 0) at 2. apply filter_len.
Qed.
(** a visited node is not entered again *)
Lemma visited_once rec rec' n s : seen s n -> linear rec (RNode n) s = linear rec' (RNode n) s.
Proof.
  intros H. unfold linear, Linearise_Model.linear. destruct (s_node S n) as [nd|]; [|reflexivity].
  destruct (text_eqb (n_gi nd) script_gi).
  { unfold Linearise_Model.script_body, can_use. unfold seen in H. destruct (dget Nat.eqb (l_done s) n) as [x|]; [|congruence].
    destruct (node_def S n); [destruct x as [? []]|]; reflexivity. }
  destruct (_ || _); [reflexivity|]. destruct (proto protos (n_gi nd)) as [fs|]; [|reflexivity].
  unfold Linearise_Model.node_body, can_use. unfold seen in H. destruct (dget Nat.eqb (l_done s) n) as [x|]; [|congruence].
  destruct (node_def S n); [destruct x as [? []]|]; reflexivity.
Qed.
End Lin.
