(** C30 (what the lineariser leaves out) and C31 (it ends). *)
From Coq Require Import Reals SpecFloat.
From Flocq Require Import Core.Core IEEE754.BinarySingleNaN.
From Verif Require Import Base Text PyDict PyDict_Proofs Float Float_Proofs Coerce_Model Coerce_Spec SceneGraph_Model P_SceneGraph VrmlStr_Model
  VrmlStr_Spec Scene_Model Linearise_Model Scene_Spec Linearise_Proofs Drop_Proofs.
Local Open Scope nat_scope.
Local Open Scope list_scope.

(** *** C30 *)
(** C30.  A value whose attribute is left out is the value that reading the
    unset field gives (the sign of a zero aside), for every field type and
    every storable value, when the declared default is a plain Python number,
    string, list or tuple; and the comparison never fails. *)
Theorem C30_left_out_is_default : forall P nm t d v w,
  ok_default t d -> stored t v -> default_of P (mkfd nm (KVal t d)) = Ok w ->
  exists b, dropped (mkfd nm (KVal t d)) (VPv v) = Ok b /\
  (b = true -> exists w', w = VPv w' /\ same_value v w').
Proof.
  intros P nm t d v w D V W. unfold default_of in W. cbn [f_kind] in W.
  destruct (coerce P t d) as [w'|] eqn:C; [|discriminate]. cbn in W. injection W as <-.
  destruct (compare_ok t d v D V) as [b E]. unfold dropped. cbn [f_kind].
  destruct d; try (exists b; split; [exact E|]; intros ->; exists w'; split; [reflexivity|]; eapply dropped_same; eauto; fail).
  exists false. split; [reflexivity|discriminate].
Qed.
Print Assumptions C30_left_out_is_default.

(** C30.  References to nodes are never left out, lists of nodes only when
    empty. *)
Theorem C30_nodes_are_written : forall nm,
  (forall r, dropped (mkfd nm KNode) (VRef r) = Ok false) /\
  (forall o x l, dropped (mkfd nm (KNodes o)) (VRefs (x :: l)) = Ok false).
Proof. intros nm. split; [reflexivity|]. intros [] x l; reflexivity. Qed.
Print Assumptions C30_nodes_are_written.

(** the buffer only grows *)
Lemma mfnode_extends st rec : (forall r s s', rec r s = LOk s' -> exists t, l_buf s' = l_buf s ++ t) ->
  forall l s s', mfnode st rec l s = LOk s' -> exists t, l_buf s' = l_buf s ++ t.
Proof.
  intros R l s0 s1 E. destruct l as [|x l]; [injection E as <-; eexists; reflexivity|]. unfold mfnode in E. cbv zeta in E.
  apply lbind_ok in E as (s2 & E & [= <-]). cbn.
  assert (Q : forall l s s', each (fun el s => rec el (emit (lead st s) s)) l s = LOk s' -> exists t, l_buf s' = l_buf s ++ t).
  { clear - R. induction l as [|x l IH]; intros s s' E; cbn in E; [injection E as <-; exists []; symmetry; apply app_nil_r|].
    apply lbind_ok in E as (s1 & E1 & E2). apply R in E1 as [t1 E1]. apply IH in E2 as [t2 E2].
    rewrite E2, E1. cbn. eexists. rewrite <- !app_assoc. reflexivity. }
  apply Q in E as [t E]. rewrite E. cbn. eexists. rewrite <- !app_assoc. reflexivity.
Qed.
Lemma sffield_extends fstr st rec f v s s' : (forall r s s', rec r s = LOk s' -> exists t, l_buf s' = l_buf s ++ t) ->
  sffield fstr st rec f v s = LOk s' -> exists t, l_buf s' = l_buf s ++ t.
Proof.
  intros R. pose proof (mfnode_extends st rec R) as M.
  intros E. unfold sffield in E.
  assert (Q : forall tx s, (match tx with Some tx => LOk (emit tx s) | None => LExc end) = LOk s' ->
    exists t, l_buf s' = l_buf s ++ t) by (intros [tx|] s0 [= <-]; eexists; reflexivity).
  destruct (f_kind f) as [t d| |ol], v as [x|r|l]; try discriminate.
  - destruct x as [| | | | | |[] [|y l]|]; try (eapply Q; exact E); [eapply M; exact E|].
    apply Q in E as [tx E]. rewrite E. cbn. eexists. rewrite <- !app_assoc. reflexivity.
  - eapply R; eauto.
  - eapply M; eauto.
Qed.
Lemma attr_extends P fstr st S ism rec n f s s' : (forall r s s', rec r s = LOk s' -> exists t, l_buf s' = l_buf s ++ t) ->
  attr P fstr st S ism rec n f s = LOk s' -> exists t, l_buf s' = l_buf s ++ t.
Proof.
  intros R E. unfold attr in E. destruct (fget P S n f) as [v|]; [|discriminate].
  destruct (ism n (f_name f)) as [pn|]; [injection E as <-; eexists; reflexivity|].
  destruct (dropped f v) as [[]|]; [injection E as <-; exists []; symmetry; apply app_nil_r| |discriminate].
  apply sffield_extends in E as [t E]; [|exact R]. rewrite E. cbn. eexists. rewrite <- !app_assoc. reflexivity.
Qed.
Lemma each_extends {A} (f : A -> lst -> lres) l : (forall x s s', f x s = LOk s' -> exists t, l_buf s' = l_buf s ++ t) ->
  forall s s', each f l s = LOk s' -> exists t, l_buf s' = l_buf s ++ t.
Proof.
  intros R. induction l as [|x l IH]; intros s s' E; cbn in E; [injection E as <-; exists []; symmetry; apply app_nil_r|].
  apply lbind_ok in E as (s1 & E1 & E2). apply R in E1 as [t1 E1]. apply IH in E2 as [t2 E2].
  rewrite E2, E1. eexists. rewrite <- !app_assoc. reflexivity.
Qed.
Lemma closed_extends st S n i p gi s : exists t, l_buf (closed st S n i p gi s) = l_buf s ++ t.
Proof.
  unfold closed. destruct (tell s =? p); [eexists; reflexivity|].
  destruct (l_end st) as [c|]; [|eexists; reflexivity]. destruct (c * 60 <? tell s - i); eexists; reflexivity.
Qed.
Lemma script_field_extends P fstr st rec x s s' : (forall r s s', rec r s = LOk s' -> exists t, l_buf s' = l_buf s ++ t) ->
  script_field P fstr st rec x s = LOk s' -> exists t, l_buf s' = l_buf s ++ t.
Proof.
  intros R E. destruct x as (nm & (ex & k) & l). unfold script_field, script_default in E.
  match type of E with context [emit ?t s] => set (s1 := emit t s) in * end.
  assert (Q : exists t, l_buf s' = l_buf s1 ++ t).
  { clearbody s1. destruct k as [t d| |ol].
    - destruct (coerce P t d) as [v|]; [|discriminate]. destruct (vrmlstr fstr (lv_at st s1) t v); [|discriminate]. injection E as <-. eexists; reflexivity.
    - destruct l as [|r [|]]; try discriminate. eapply R; eauto.
    - eapply mfnode_extends; eauto. }
  destruct Q as [t ->]. unfold s1. cbn [emit l_buf]. rewrite <- app_assoc. eexists; reflexivity.
Qed.
Lemma script_body_extends P fstr st S ism rec n mem s s' : (forall r s s', rec r s = LOk s' -> exists t, l_buf s' = l_buf s ++ t) ->
  script_body P fstr st S ism rec n mem s = LOk s' -> exists t, l_buf s' = l_buf s ++ t.
Proof.
  intros R E. rewrite script_body_eq in E. unfold can_use in E. destruct (dget Nat.eqb (l_done s) n) as [x|] eqn:D.
  - destruct (node_def S n); [destruct x as [? []]|]; injection E as <-; eexists; reflexivity.
  - apply lbind_ok in E as (s3 & E1 & E). apply lbind_ok in E as (s4 & E2 & E). apply lbind_ok in E as (s5 & E3 & [= <-]).
    apply each_extends in E1 as [t1 E1]; [|intros x y z [= <-]; eexists; reflexivity].
    apply each_extends in E2 as [t2 E2]; [|intros x y z; apply script_field_extends; exact R].
    apply each_extends in E3 as [t3 E3].
    + unfold sclosed. cbn [mark less emit l_buf] in *. rewrite E3, E2, E1. cbn [more emit mark l_buf]. eexists. rewrite <- !app_assoc. reflexivity.
    + intros f y z. unfold script_attr. destruct (f_kind f); try discriminate. apply attr_extends. exact R.
Qed.
Lemma lin_extends P fstr protos st S ism fuel : forall r s s', lin P fstr protos st S ism fuel r s = LOk s' ->
  exists t, l_buf s' = l_buf s ++ t.
Proof.
  induction fuel as [|k IH]; intros r s s' E; [discriminate|]. cbn [lin] in E. unfold linear in E.
  destruct r as [|n]; [injection E as <-; eexists; reflexivity|].
  destruct (s_node S n) as [nd|]; [|discriminate]. destruct (text_eqb (n_gi nd) script_gi); [eapply script_body_extends; eauto|].
  destruct (_ || _); [discriminate|].
  destruct (proto protos (n_gi nd)) as [fs|]; [|discriminate]. rewrite node_body_eq in E. unfold can_use in E.
  destruct (dget Nat.eqb (l_done s) n) as [x|] eqn:D.
  - destruct (node_def S n); [destruct x as [? []]|]; injection E as <-; eexists; reflexivity.
  - cbv zeta in E. apply lbind_ok in E as (s3 & E & [= <-]). apply each_extends in E as [t E].
    + match goal with |- context [closed st S n ?a ?b ?g s3] => destruct (closed_extends st S n a b g s3) as [u ->] end.
      rewrite E. cbn. eexists. rewrite <- !app_assoc. reflexivity.
    + intros f s1 s2 E2. eapply attr_extends; eauto.
Qed.

(** C30.  So an attribute that is not mapped with IS and whose value is not the
    default is written: the name
    of the field, a tab, and the value. *)
Theorem C30_changed_field_is_written : forall P fstr protos st S ism fuel n nm t d v w s s',
  ok_default t d -> stored t v -> fget P S n (mkfd nm (KVal t d)) = Ok (VPv v) ->
  coerce P t d = Ok w -> ~ same_value v w -> ism n nm = None ->
  attr P fstr st S ism (lin P fstr protos st S ism fuel) n (mkfd nm (KVal t d)) s = LOk s' ->
  exists value, l_buf s' = l_buf s ++ lead st s ++ nm ++ [9%N] ++ value.
Proof.
  intros P fstr protos st S ism fuel n nm t d v w s s' D V G C N Im E. unfold attr in E. rewrite G in E. cbn [f_name] in E. rewrite Im in E.
  destruct (C30_left_out_is_default P nm t d v (VPv w) D V) as (b & B & Q).
  { unfold default_of. cbn [f_kind]. rewrite C. reflexivity. }
  rewrite B in E. destruct b.
  - destruct (Q eq_refl) as (w' & [= <-] & H). contradiction.
  - apply sffield_extends in E as [tx E]; [|apply lin_extends]. rewrite E. cbn [emit l_buf f_name].
    exists tx. rewrite <- !app_assoc. reflexivity.
Qed.
Print Assumptions C30_changed_field_is_written.

(** C30 (refuted for array defaults): if the declared default is an array, the
    attribute is left out as soon as one component agrees, whatever the others
    are. *)
Theorem C30_array_default_refuted : forall nm t c s xs ys,
  List.length xs = List.length ys ->
  (exists i x y, nth_error xs i = Some x /\ nth_error ys i = Some y /\ num_eq x y = true) <->
  dropped (mkfd nm (KVal t (PArr (mkarr c s xs)))) (VPv (PArr (mkarr c s ys))) = Ok true.
Proof.
  intros nm t c s xs ys L. unfold dropped. cbn [f_kind safe_compare a_shape a_data].
  destruct (list_eq_dec Nat.eq_dec s s) as [_|]; [|congruence]. split.
  - intros (i & x & y & X & Y & E). f_equal. apply existsb_exists. exists (x, y). split; [|exact E].
    clear L. revert ys i X Y. induction xs as [|a xs IH]; intros [|b ys] [|i] X Y; try discriminate.
    + injection X as ->. injection Y as ->. left. reflexivity.
    + right. eapply IH; eauto.
  - intros [= E]. apply existsb_exists in E as ([x y] & I & E). apply In_nth_error in I as [i I]. exists i, x, y.
    clear L. revert ys i I. induction xs as [|a xs IH]; intros [|b ys] [|i] I; try discriminate.
    + injection I as -> ->. repeat split; auto.
    + cbn. apply IH. exact I.
Qed.
Print Assumptions C30_array_default_refuted.
(** ... so for colours and vectors there are always different values that are
    lost *)
Theorem C30_array_default_loses_refuted : forall nm t c s x y xs,
  num_eq x x = true -> x <> y -> let ys := x :: map (fun _ => y) xs in In x xs ->
  PArr (mkarr c s ys) <> PArr (mkarr c s (x :: xs)) /\
  dropped (mkfd nm (KVal t (PArr (mkarr c s (x :: xs))))) (VPv (PArr (mkarr c s ys))) = Ok true.
Proof.
  intros nm t c s x y xs E D ys I. split.
  - intros [= H]. clear - D H I. induction xs as [|z xs IH]; cbn in *; [contradiction|]. injection H as H1 H2. destruct I; [congruence|auto].
  - apply C30_array_default_refuted; [unfold ys; cbn; rewrite map_length; reflexivity|]. exists 0, x, x. auto.
Qed.
Print Assumptions C30_array_default_loses_refuted.
(** C30 (refuted exactly): the sign of a zero is lost *)
Theorem C30_zero_sign_refuted : forall P nm d, d = PFloat (S754_zero false) \/ d = PInt 0 ->
  dropped (mkfd nm (KVal SFFloat d)) (VPv (PFloat (S754_zero true))) = Ok true /\
  default_of P (mkfd nm (KVal SFFloat d)) = Ok (VPv (PFloat (S754_zero false))).
Proof. intros P nm d [->| ->]; split; reflexivity. Qed.
Print Assumptions C30_zero_sign_refuted.
Example C30_ex : ok_default SFRotation (PSeq KTuple [PInt 0; PInt 0; PInt 1; PInt 0]) /\
  dropped (mkfd (lit "creaseAngle") (KVal SFFloat (PInt 0))) (VPv (PFloat (S754_finite false 4503599627370496 (-52)))) = Ok false /\
  dropped (mkfd (lit "intensity") (KVal SFFloat (PInt 1))) (VPv (PFloat (S754_finite false 4503599627370496 (-52)))) = Ok true /\
  dropped (mkfd (lit "c") (KVal SFColor (PArr (mkarr Cf [3] [NZ 1; NZ 0; NZ 0]))))
          (VPv (PArr (mkarr Cf [3] [NZ 0; NZ 1; NZ 0]))) = Ok true.
Proof. split; [eexists; eexists; reflexivity|]. repeat split; reflexivity. Qed.

(** *** C31 *)
(** C31.  Whatever the references between the nodes: writing the scene does
    not run out of the recursion depth "number of nodes, plus one". *)
Theorem C31_writing_ends : forall P fstr protos st S,
  (forall n nd, s_node S n = Some nd -> n < s_next S) -> NoDup (map fst (defs (s_defs S))) ->
  lin_scene P fstr protos st S <> LFuel.
Proof.
  intros P fstr protos st S IDS ND. unfold lin_scene, named.
  destruct (C39_routed_nodes_named (gi_of S) (s_defs S) (map (fun r => (fst (fst r), fst (snd r))) (s_routes S)) ND) as (d & -> & _).
  apply (scene_ends P fstr protos st (with_defs S d)). exact IDS.
Qed.
Print Assumptions C31_writing_ends.
Theorem C31_node_writing_ends : forall P fstr protos st S ism n,
  (forall n nd, s_node S n = Some nd -> n < s_next S) ->
  lin P fstr protos st S ism (depth S) (RNode n) (mklst [] [] 0) <> LFuel.
Proof.
  intros P fstr protos st S ism n IDS. apply lin_ends; [exact IDS|]. unfold depth, undone.
  pose proof (filter_len (fun n => match dget Nat.eqb (l_done (mklst [] [] 0)) n with None => true | _ => false end) (seq 0 (s_next S))) as H.
  rewrite seq_length in H. lia.
Qed.
Print Assumptions C31_node_writing_ends.

(** more depth changes nothing: that is the result *)
Lemma each_mono {A} (f g : A -> lst -> lres) l : (forall x s, f x s <> LFuel -> g x s = f x s) ->
  forall s, each f l s <> LFuel -> each g l s = each f l s.
Proof.
  intros H. induction l as [|x l IH]; intros s N; [reflexivity|]. cbn in *. rewrite H by (eapply lbind_fuel; exact N).
  destruct (f x s); cbn in *; auto.
Qed.
Lemma lin_mono P fstr protos st S ism k : forall r s, lin P fstr protos st S ism k r s <> LFuel ->
  lin P fstr protos st S ism (Datatypes.S k) r s = lin P fstr protos st S ism k r s.
Proof.
  induction k as [|k IH]; intros r s N; [cbn in N; congruence|].
  change (linear P fstr protos st S ism (lin P fstr protos st S ism (Datatypes.S k)) r s = linear P fstr protos st S ism (lin P fstr protos st S ism k) r s).
  change (linear P fstr protos st S ism (lin P fstr protos st S ism k) r s <> LFuel) in N.
  unfold linear in *. destruct r as [|n]; [reflexivity|]. destruct (s_node S n) as [nd|]; [|reflexivity].
  assert (M : forall l s, mfnode st (lin P fstr protos st S ism k) l s <> LFuel ->
    mfnode st (lin P fstr protos st S ism (Datatypes.S k)) l s = mfnode st (lin P fstr protos st S ism k) l s).
  { intros l s1 N1. destruct l as [|x l]; [reflexivity|]. unfold mfnode in *. cbv zeta in *.
    rewrite (each_mono (fun el s => lin P fstr protos st S ism k el (emit (lead st s) s)));
      [reflexivity|intros; apply IH; assumption|eapply lbind_fuel; exact N1]. }
  assert (A : forall f s, attr P fstr st S ism (lin P fstr protos st S ism k) n f s <> LFuel ->
    attr P fstr st S ism (lin P fstr protos st S ism (Datatypes.S k)) n f s = attr P fstr st S ism (lin P fstr protos st S ism k) n f s).
  { clear - IH M. intros f s N. unfold attr in *. destruct (fget P S n f) as [v|]; [|reflexivity].
    destruct (ism n (f_name f)); [reflexivity|].
    destruct (dropped f v) as [[]|]; [reflexivity| |reflexivity]. unfold sffield in *.
    destruct (f_kind f) as [t d| |ol], v as [x|r|l]; try reflexivity.
    - apply IH. exact N.
    - apply M. exact N. }
  destruct (text_eqb (n_gi nd) script_gi).
  { rewrite script_body_eq in N. rewrite !script_body_eq. destruct (can_use S n s) as [|s1]; [reflexivity|].
    destruct (each (script_event st) _ _) as [s3| |]; cbn [lbind] in *; try reflexivity.
    rewrite (each_mono (script_field P fstr st (lin P fstr protos st S ism k))); [| |eapply lbind_fuel; exact N].
    - destruct (each _ _ s3) as [s4| |]; cbn [lbind] in *; try reflexivity.
      rewrite (each_mono (script_attr P fstr st S ism (lin P fstr protos st S ism k) n)); [reflexivity| |eapply lbind_fuel; exact N].
      intros f s0 N0. unfold script_attr in *. destruct (f_kind f); try reflexivity. apply A. exact N0.
    - intros (nm & (ex & kd) & l) s0 N0. unfold script_field, script_default in *. destruct kd as [t d| |ol]; [reflexivity| |apply M; exact N0].
      destruct l as [|r [|]]; try reflexivity. apply IH. exact N0. }
  destruct (_ || _); [reflexivity|]. destruct (proto protos (n_gi nd)) as [fs|]; [|reflexivity].
  rewrite node_body_eq in N. rewrite !node_body_eq. destruct (can_use S n s) as [|s1]; [reflexivity|]. cbv zeta in *.
  rewrite (each_mono (attr P fstr st S ism (lin P fstr protos st S ism k) n)); [reflexivity|exact A|eapply lbind_fuel; exact N].
Qed.
Theorem C31_depth_irrelevant : forall P fstr protos st S ism k r s, lin P fstr protos st S ism k r s <> LFuel ->
  forall j, lin P fstr protos st S ism (j + k) r s = lin P fstr protos st S ism k r s.
Proof.
  intros P fstr protos st S ism k r s N. induction j as [|j IH]; [reflexivity|]. cbn [plus]. rewrite lin_mono; [exact IH|congruence].
Qed.
Print Assumptions C31_depth_irrelevant.

(** C31.  No node is entered twice: once written (or being written) a node
    stays recorded, and writing it again does not descend into it -- the result
    is the same whatever descending would do. *)
Theorem C31_entered_once : forall P fstr protos st S ism,
  (forall fuel n s s', lin P fstr protos st S ism fuel (RNode n) s = LOk s' -> seen s' n) /\
  (forall fuel r s s' n, lin P fstr protos st S ism fuel r s = LOk s' -> seen s n -> seen s' n) /\
  (forall n s rec rec', seen s n -> linear P fstr protos st S ism rec (RNode n) s = linear P fstr protos st S ism rec' (RNode n) s).
Proof.
  intros P fstr protos st S ism. split; [|split].
  - intros [|k] n s s' E; [discriminate|]. cbn [lin] in E. unfold linear in E.
    destruct (s_node S n) as [nd|]; [|discriminate]. destruct (text_eqb (n_gi nd) script_gi).
    { rewrite script_body_eq in E. unfold can_use in E. destruct (dget Nat.eqb (l_done s) n) as [x|] eqn:D.
      - assert (seen s n) by (unfold seen; congruence).
        destruct (node_def S n); [destruct x as [? []]|]; injection E as <-; assumption.
      - apply lbind_ok in E as (s3 & E1 & E). apply lbind_ok in E as (s4 & E2 & E). apply lbind_ok in E as (s5 & E3 & [= <-]).
        apply (seen_mark n). left. reflexivity. }
    destruct (_ || _); [discriminate|].
    destruct (proto protos (n_gi nd)) as [fs|]; [|discriminate]. rewrite node_body_eq in E. unfold can_use in E.
    destruct (dget Nat.eqb (l_done s) n) as [x|] eqn:D.
    + assert (seen s n) by (unfold seen; congruence).
      destruct (node_def S n); [destruct x as [? []]|]; injection E as <-; assumption.
    + cbv zeta in E. apply lbind_ok in E as (s3 & E & [= <-]). unfold seen.
      match goal with |- context [closed st S n ?a ?b ?g s3] => destruct (closed_done st S n a b g s3) as [x ->] end.
      rewrite (dget_dset_same Nat.eqb Nat.eqb_eq). discriminate.
  - intros fuel r s s' n E H. exact (lin_grows P fstr protos st S ism fuel r s s' E n H).
  - intros n s rec rec' H. apply visited_once. exact H.
Qed.
Print Assumptions C31_entered_once.

(** a cyclic scene: a Group that contains itself, once with and once without a
    name *)
Definition ex_protos : list (text * list fdecl) := [(lit "Group", [mkfd (lit "children") (KNodes false)])].
Definition ex_cycle (nm : text) : scene :=
  mkscene 1 (fun n => if n =? 0 then Some (mksn (lit "Group") [(lit "children", VRefs [RNode 0])] []) else None)
          {| defs := []; ndef := fun _ => nm |} [RNode 0] [] [].
Definition P_ex : prims := {| p_int := fun _ => None; p_float := fun _ => None; p_str := fun _ => []; p_decode := fun _ => None;
  p_f2i := fun _ _ => 0%Z; p_items := fun _ => Exc OtherError |}.
Example C31_ex :
  linearise P_ex (fun _ _ => []) ex_protos set_minimal1 (ex_cycle (lit "G")) =
    Some (header ++ [10%N] ++ lit "DEF G Group {" ++ [10%N] ++ lit "    children" ++ [9%N] ++ lit "[ " ++ [10%N] ++
          lit "      USE G" ++ [10%N] ++ lit "    ]" ++ [10%N] ++ lit "  }" ++ [10%N]) /\
  linearise P_ex (fun _ _ => []) ex_protos set_minimal1 (ex_cycle []) <> None.
Proof. vm_compute. split; [reflexivity|discriminate]. Qed.
