(** Writing a scene and building it again: the whole document. *)
From Coq Require Import Reals Permutation SpecFloat.
From Flocq Require Import Core.Core IEEE754.BinarySingleNaN.
From Verif Require Import Base Text PyDict PyDict_Proofs Float Coerce_Model Coerce_Spec Grammar_Model Lex_Spec Lex_Proofs
  Doc_Spec Doc_Proofs SceneGraph_Model SceneGraph_Proofs VrmlStr_Model VrmlStr_Spec VrmlStr_Proofs VrmlStr_Values Scene_Model Linearise_Model
  Build_Model Scene_Spec Linearise_Proofs Drop_Proofs Layout_Proofs Written Rebuilt.
Local Open Scope nat_scope.
Local Open Scope list_scope.
Notation RNode := Scene_Model.RNode.
Notation inr := Datatypes.inr.

(** *** names given to routed nodes *)
Lemma digit_name c : digit c = true -> name_char c = true.
Proof.
  unfold digit, name_char. intros H. apply andb_true_iff in H as [A B]. apply N.leb_le in A, B.
  apply negb_true_iff. repeat (apply orb_false_iff; split); try (apply N.eqb_neq; lia). apply N.leb_gt. lia.
Qed.
Lemma uint_name d : forallb name_char (uint_text d) = true.
Proof. induction d; cbn [uint_text forallb]; rewrite ?IHd; try reflexivity; apply andb_true_iff; split; try reflexivity. Qed.
Lemma auto_is_name p c : is_name p = true -> is_name (auto_name p c) = true.
Proof.
  unfold auto_name. destruct p as [|x p]; [discriminate|]. cbn [is_name app]. intros H. apply andb_true_iff in H as [H1 H2].
  rewrite H1. cbn [andb]. rewrite !forallb_app, H2. cbn [andb lit forallb]. unfold dec. rewrite uint_name. reflexivity.
Qed.

Section Named.
Variable P : prims.
Variable protos : list (text * list fdecl).
Variable S : scene.
Variable okd : fdecl -> Prop.
Variable okv : scene -> fdecl -> val -> Prop.
Hypothesis WP : wf_protos_with okd protos.
Hypothesis WS : wf_scene_with okv P protos S.

Lemma endpoint_routed n : In n (endpoints (map (fun r => (fst (fst r), fst (snd r))) (s_routes S))) <-> routed S n.
Proof.
  unfold endpoints, routed. rewrite in_flat_map. split.
  - intros (p & Hp & Hn). apply in_map_iff in Hp as (r & <- & Hr). exists r. split; [exact Hr|]. cbn in Hn. intuition.
  - intros (r & Hr & Hn). exists (fst (fst r), fst (snd r)). split; [apply in_map_iff; eauto|]. cbn. intuition.
Qed.
Lemma named_ok : exists d, named S = Some (with_defs S d) /\ let N := with_defs S d in
  (forall n, node_def N n = node_def S n \/ (node_def S n = [] /\ routed S n)) /\
  (forall n nd, s_node S n = Some nd -> node_def N n <> [] ->
     is_name (node_def N n) = true /\ getDEF (s_defs N) (node_def N n) = Some n) /\
  (forall n, node_def N n = [] -> node_def S n = [] /\ ~ routed S n) /\
  (forall n, routed S n -> node_def N n <> []).
Proof.
  unfold named. rewrite preroutes_visit.
  set (cs := endpoints (map (fun r => (fst (fst r), fst (snd r))) (s_routes S))).
  destruct (visit_all_spec (gi_of S) cs (s_defs S) (wf_table _ _ _ WS)) as (d & -> & _ & (G1 & G2) & A & B & C).
  exists d. split; [reflexivity|]. cbv zeta. unfold node_def. cbn [with_defs s_defs s_node].
  assert (In_r : forall n, In n cs <-> routed S n) by (intros n; apply endpoint_routed).
  split; [|split; [|split]].
  - intros n. destruct (list_eq_dec N.eq_dec (ndef (s_defs S) n) []) as [E|E]; [|left; apply G2; exact E].
    destruct (in_dec Nat.eq_dec n cs) as [H|H]; [right|left; apply B; exact H]. split; [exact E|apply In_r; exact H].
  - intros n nd Nd Hn. destruct (list_eq_dec N.eq_dec (ndef (s_defs S) n) []) as [E|E].
    + destruct (in_dec Nat.eq_dec n cs) as [H|H]; [|rewrite B in Hn by exact H; contradiction].
      destruct (C n H E) as (c & -> & _ & Gd & _). split; [|exact Gd]. apply auto_is_name.
      unfold gi_of. rewrite Nd. destruct (wf_nodes _ _ _ WS n nd Nd) as (fs & Pr & _). destruct (WP _ _ Pr) as (Sg & _).
      apply safe_is_name. exact Sg.
    + rewrite G2 by exact E. destruct (wf_names _ _ _ WS n nd Nd E) as (H1 & H2). split; [exact H1|]. apply G1; auto.
  - intros n E. split.
    + destruct (list_eq_dec N.eq_dec (ndef (s_defs S) n) []) as [Z|Z]; [exact Z|]. rewrite G2 in E by exact Z. exact E.
    + intros H. apply In_r in H. exact (A n H E).
  - intros n H. apply A. apply In_r. exact H.
Qed.
End Named.

(** *** all reachable nodes are written *)
Section Closed.
Variable P : prims.
Variable protos : list (text * list fdecl).
Variable S : scene.
Variable ism : nat -> text -> option text.
Definition covers (D D' : list nat) (need : list nat) : Prop :=
  incl D D' /\ incl need D' /\ forall m, In m D' -> ~ In m D -> incl (node_refs P protos S m) D'.
Lemma walk_covers :
  (forall D r D' i, walk_ref P protos S ism D r D' i -> covers D D' (ids r)) /\
  (forall D l D' is, walk_refs P protos S ism D l D' is -> covers D D' (flat_map ids l)) /\
  (forall n D fs D' l, walk_attrs P protos S ism n D fs D' l -> covers D D' (flat_map (frefs P S n) fs)) /\
  (forall D f v D' is, walk_val P protos S ism D f v D' is -> covers D D' (ref_ids v)).
Proof.
  assert (Triv : forall D l, incl l D -> covers D D l).
  { intros D l H. split; [apply incl_refl|]. split; [exact H|]. intros m H1 H2. contradiction. }
  assert (Tr : forall D D1 D' l1 l2, covers D D1 l1 -> covers D1 D' l2 -> covers D D' (l1 ++ l2)).
  { intros D D1 D' l1 l2 (A1 & A2 & A3) (B1 & B2 & B3). split; [eapply incl_tran; eauto|]. split.
    - apply incl_app; [eapply incl_tran; eauto|exact B2].
    - intros m H1 H2. destruct (in_dec Nat.eq_dec m D1) as [H|H]; [eapply incl_tran; eauto|apply B3; auto]. }
  apply walk_mut.
  - intros D. apply Triv. intros x [].
  - intros D n nd H _ _. apply Triv. intros x [<-|[]]. exact H.
  - intros D n nd fs D' l Hn Nd Pr _ (A1 & A2 & A3). split; [intros x Hx; apply A1; right; exact Hx|]. split.
    + intros x [<-|[]]. apply A1. left. reflexivity.
    + intros m H1 H2. destruct (Nat.eq_dec n m) as [<-|Dm].
      * unfold node_refs. rewrite Nd, Pr. intros x Hx. apply A2. apply in_flat_map in Hx as (f & Hf & Hx). apply in_flat_map.
        exists f. split; [eapply Permutation_in; [apply Permutation_sym, sort_perm|exact Hf]|exact Hx].
      * apply A3; [exact H1|]. intros [H|H]; [congruence|contradiction].
  - intros D. apply Triv. intros x [].
  - intros D r D1 i l D' is _ H1 _ H2. cbn [flat_map]. eapply Tr; eauto.
  - intros n D. apply Triv. intros x [].
  - intros n D f v pn fs D' l G Nr _ _ _ H. cbn [flat_map]. unfold frefs at 1. rewrite G, Nr. exact H.
  - intros n D f v fs D' l G _ Dr _ H. cbn [flat_map]. unfold frefs at 1. rewrite G, (dropped_no_ids _ _ Dr). exact H.
  - intros n D f v D1 is fs D' l G _ _ _ H1 _ H2. cbn [flat_map]. unfold frefs at 1. rewrite G. eapply Tr; eauto.
  - intros D f t d v its _ _ _. apply Triv. intros x [].
  - intros D f r D' i _ _ H. destruct r; exact H.
  - intros D f o l D' is _ _ H. exact H.
Qed.
Lemma reached D' is : walk_refs P protos S ism [] (s_kids S) D' is -> forall n, reach P protos S n -> In n D'.
Proof.
  intros W. destruct (proj1 (proj2 walk_covers) _ _ _ _ W) as (_ & A & B). induction 1 as [n H|m n _ IH H].
  - apply A. apply in_flat_map. exists (RNode n). split; [exact H|left; reflexivity].
  - apply (B m IH); [intros []|exact H].
Qed.
End Closed.

(** *** the text of the scene *)
Section Text_.
Variable P : prims.
Variable fstr : tcode -> fl -> text.
Variable protos : list (text * list fdecl).
Variable st : settings.
Variable S : scene.
Variable ism : nat -> text -> option text.
Hypothesis FS : faithful fstr.
Hypothesis ST : ok_settings st.
Hypothesis WP : wf_protos P protos.
Hypothesis IDS : forall n nd, s_node S n = Some nd -> n < s_next S.
Hypothesis NODES : forall n nd, s_node S n = Some nd -> exists fs, proto protos (n_gi nd) = Some fs /\
    forall f, In f fs -> exists v, fget P S n f = Ok v /\ ok_value S f v.
Hypothesis NAMES : forall n nd, s_node S n = Some nd -> node_def S n <> [] -> is_name (node_def S n) = true.
Hypothesis MAPS : forall n f v pn, fget P S n f = Ok v -> ism n (f_name f) = Some pn -> is_name pn = true /\ ref_ids v = [].
Hypothesis SHARED : forall n, node_def S n = [] -> count_occ Nat.eq_dec (all_refs P protos S) n <= 1.
Hypothesis KIDS : s_kids S <> [] /\ Forall (is_node S) (s_kids S).
Hypothesis ROUTES : forall r, In r (s_routes S) -> is_name (node_def S (fst (fst r))) = true /\ is_name (snd (fst r)) = true /\
  is_name (node_def S (fst (snd r))) = true /\ is_name (snd (snd r)) = true.

Lemma kids_write fuel l : forall s D R fw, l_fes st = 10%N :: fw -> tracks s D -> Forall (is_node S) l ->
  inv P protos S D (flat_map ids l ++ R) ->
  each (fun c s => lbind (lin P fstr protos st S ism fuel c s) (fun s => LOk (emit (l_fes st) s))) l s <> LFuel ->
  exists s' ts D' is, each (fun c s => lbind (lin P fstr protos st S ism fuel c s) (fun s => LOk (emit (l_fes st) s))) l s = LOk s' /\
    l_buf s' = l_buf s ++ List.concat (map (fun t => t ++ 10%N :: fw) ts) /\ walk_refs P protos S ism D l D' is /\
    Forall2 item_text ts is /\ Forall (fun i => match i with SNode _ _ _ | SUse _ => True | _ => False end) is.
Proof.
  induction l as [|r l IH]; intros s D R fw L Tr V I N; cbn [each] in *.
  - exists s, [], D, []. repeat split; auto; [cbn; rewrite app_nil_r; reflexivity|constructor].
  - inversion V as [|? ? Vr Vl]; subst. pose proof (lbind_fuel _ _ N) as N1.
    cbn [flat_map] in I. rewrite <- app_assoc in I.
    destruct (lin_writes P fstr protos st S ism FS ST WP IDS NODES NAMES MAPS fuel r s D (flat_map ids l ++ R))
      as (s1 & t & D1 & i & E & (B1 & L1 & T1) & Wk & It & I1 & Nn); auto.
    { right. exact Vr. }
    { eapply lbind_fuel. exact N1. }
    rewrite E in *. cbn [lbind] in *.
    destruct (IH (emit (l_fes st) s1) D1 R fw) as (s2 & ts & D2 & is & E2 & B2 & Wk2 & F & I2); auto.
    assert (r <> RNull) as Hr by (intros ->; exact Vr).
    exists s2, (t :: ts), D2, (i :: is). split; [exact E2|]. split; [|split; [econstructor; eauto|split; constructor; auto]].
    + rewrite B2. cbn [emit l_buf]. rewrite B1, L. cbn [map List.concat]. rewrite <- !app_assoc. reflexivity.
    + exact (proj2 (Nn Hr)).
Qed.
Definition route_sk_of (r : nat * text * (nat * text)) : sroot :=
  SRRoute (node_def S (fst (fst r))) (snd (fst r)) (node_def S (fst (snd r))) (snd (snd r)).
(** the scene is written behind [pre]; separators [ew] and [k] follow *)
Lemma roots_text pre ew k : sep_text ew -> ends_name (ew ++ k) = true ->
  exists s rl D' is, scene_body P fstr protos st S ism pre (depth S) = LOk s /\
    (exists t, l_buf s = pre ++ t /\ t ++ ew = show_roots rl) /\ ok_roots rl k /\ (exists r w l, rl = RCons r w l) /\
    walk_refs P protos S ism [] (s_kids S) D' is /\
    Forall (fun i => match i with SNode _ _ _ | SUse _ => True | _ => False end) is /\
    sk_roots rl = map SRItem is ++ map route_sk_of (s_routes S).
Proof.
  intros He Hk. pose proof (scene_ends P fstr protos st S ism IDS pre) as E. unfold scene_body in *. destruct (fes_eq st ST) as (fw & Fe & Sf).
  destruct (kids_write (depth S) (s_kids S) (mklst pre [] 0) [] [] fw Fe) as (s1 & ts & D' & is & E1 & B & Wk & F & Nn).
  - intros n. split; [intros []|]. intros H. unfold seen in H. cbn in H. congruence.
  - apply KIDS.
  - intros m U. rewrite app_nil_r. specialize (SHARED m U). unfold all_refs in SHARED. rewrite count_occ_app in SHARED.
    change (memb m []) with false. cbn iota. unfold pend.
    assert (filter (fun n => negb (memb n [])) (seq 0 (s_next S)) = seq 0 (s_next S)) as ->.
    { generalize (seq 0 (s_next S)). clear. induction l as [|x l IH]; [reflexivity|]. cbn. f_equal. exact IH. }
    exact SHARED.
  - eapply lbind_fuel. exact E.
  - rewrite E1. cbn [lbind]. set (rs := map (fun r => ((node_def S (fst (fst r)), snd (fst r)), (node_def S (fst (snd r)), snd (snd r)))) (s_routes S)).
    destruct (routes_text fw ew k rs Sf He Hk) as (w & rl & Er & Hw & Okr & _ & Skr).
    { apply Forall_forall. intros x Hx. apply in_map_iff in Hx as (r & <- & Hr). cbn. exact (ROUTES r Hr). }
    assert (Rt : List.concat (map (route_text st S) (s_routes S)) ++ ew = w ++ show_roots rl).
    { rewrite <- Er. unfold rs. rewrite map_map. do 2 f_equal. apply map_ext. intros [[a af] [b bf]]. cbn [fst snd]. unfold route_text, route_line.
      rewrite Fe. reflexivity. }
    destruct (kids_text fw k ts is (List.concat (map (route_text st S) (s_routes S)) ++ ew) w rl Sf F Nn Rt Hw Okr) as (w' & rl' & Et & Hw' & Ok' & Emp & Sk').
    assert (Tne : ts <> []).
    { intros ->. inversion F; subst is. inversion Wk as [? Q|]; subst. destruct KIDS as [Hk' _]. congruence. }
    rewrite (Emp Tne) in Et. cbn [app] in Et.
    exists (emit (List.concat (map (route_text st S) (s_routes S))) s1), rl', D', is.
    split; [reflexivity|]. split; [|split; [exact Ok'|split; [|split; [exact Wk|split; [exact Nn|]]]]].
    + eexists. split; [cbn [emit l_buf]; rewrite B; cbn [l_buf]; rewrite <- app_assoc; reflexivity|]. rewrite <- app_assoc. exact Et.
    + destruct rl'; [|eauto]. exfalso. cbn in Sk'. destruct is; [|discriminate]. inversion F as [Q1 Q2|]. apply Tne. auto.
    + rewrite Sk', Skr. unfold rs. rewrite map_map. reflexivity.
Qed.
Lemma header_line : ~ In 10%N header.
Proof. unfold header. cbn. intros H. repeat destruct H as [H|H]; try discriminate. exact H. Qed.
Lemma scene_text : exists s d D' is, scene_body P fstr protos st S ism [] (depth S) = LOk s /\
  header ++ [10%N] ++ l_buf s = show_doc d /\ ok_doc d /\ walk_refs P protos S ism [] (s_kids S) D' is /\
  Forall (fun i => match i with SNode _ _ _ | SUse _ => True | _ => False end) is /\
  sk_doc d = map SRItem is ++ map route_sk_of (s_routes S).
Proof.
  destruct (roots_text [] [] []) as (s & rl & D' & is & E & (t & B & Et) & Ok & Ne & Wk & Nn & Sk); [constructor|reflexivity|].
  exists s, (Doc header [10%N] rl), D', is. split; [exact E|]. rewrite app_nil_r in Et. cbn [app] in B. split; [|split; [|auto]].
  - cbn [show_doc]. rewrite B, Et. reflexivity.
  - cbn [ok_doc]. split; [exact header_line|]. split; [apply sep_nl_; constructor|]. split; [exact Ok|]. destruct Ne as (r & w & l & ->). eauto.
Qed.
End Text_.

(** *** building the whole scene *)
Section BuildScene.
Variable P : prims.
Variable base : list (text * list fdecl).
Variable c0 : ctx.
Variable tab : list (text * pdef).
Variable protos : list (text * list fdecl).
Variable S : scene.
Variable ism : nat -> text -> option text.
Let c : ctx := mkctx (c_in c0) (tab ++ c_env c0) (c_outer c0).
Hypothesis WP : wf_protos P protos.
Hypothesis NODES : forall n nd, s_node S n = Some nd -> exists fs, proto protos (n_gi nd) = Some fs /\
    forall f, In f fs -> exists v, fget P S n f = Ok v /\ ok_value S f v.
Hypothesis UNIQ : forall a b x y, s_node S a = Some x -> s_node S b = Some y -> node_def S a = node_def S b -> node_def S a <> [] -> a = b.
Hypothesis TY : forall n nd fs, s_node S n = Some nd -> proto protos (n_gi nd) = Some fs ->
  exists fs', proto (known base c) (n_gi nd) = Some fs' /\ inst_ok base c (n_gi nd) = Ok tt /\ fields_ok P fs fs'.
Hypothesis ASG : forall n nd fs f v, s_node S n = Some nd -> proto protos (n_gi nd) = Some fs -> In f fs ->
  fget P S n f = Ok v -> ism n (f_name f) = None -> dropped f v = Ok false -> sets_one base c S n (n_gi nd) f.
Hypothesis CIN : forall n nm pn, ism n nm = Some pn -> c_in c = true.
Notation node_ok := (Rebuilt.node_ok P protos S ism).

Lemma build_scene_app l1 l2 s : build_scene P base c0 (l1 ++ l2) s = bind (build_scene P base c0 l1 s) (build_scene P base c0 l2).
Proof.
  revert s. induction l1 as [|t l1 IH]; intros s; [reflexivity|]. cbn [app build_scene].
  destruct (build_root P base c0 t s); cbn [bind]; auto.
Qed.
Lemma kids_build l : forall D D' is ts B rho, walk_refs P protos S ism D l D' is ->
  Forall (fun i => match i with SNode _ _ _ | SUse _ => True | _ => False end) is ->
  map erase ts = map et_root (map SRItem is) -> bi S rho B -> s_routes B = [] -> map fst rho = D -> Forall (node_ok rho B) rho ->
  exists B' l' rho', build_scene P base c0 ts (tab, B) = Ok (tab, B') /\ bi S rho' B' /\ map fst rho' = D' /\
    Forall (node_ok rho' B') rho' /\ s_kids B' = s_kids B ++ l' /\ s_routes B' = s_routes B /\
    Forall2 (same_ref (Rho rho')) l l' /\ incl rho rho'.
Proof.
  induction l as [|r l IH]; intros D D' is ts B rho W F E I Rt0 M Okh.
  - inversion W; subst. destruct ts; [|discriminate]. exists B, [], rho. rewrite app_nil_r. split; [reflexivity|]. split; [exact I|]. split; [reflexivity|]. split; [exact Okh|]. repeat split; auto. apply incl_refl.
  - inversion W as [|? ? D1 i ? ? is' W1 W2]; subst. inversion F as [|? ? Fi F']; subst.
    destruct ts as [|t ts]; [discriminate|]. cbn [map] in E. injection E as Et E.
    apply erase_inv in Et as (s & ch & -> & _ & Ech). destruct ch as [|x [|]]; try discriminate. injection Ech as Ex.
    destruct (proj1 (walk_builds P base c protos S ism WP NODES UNIQ TY ASG CIN) _ _ _ _ W1 x B rho Ex I Rt0 eq_refl)
      as (B1 & r' & rho1 & Eb & (I1 & Fr & new & X) & M1 & Sr).
    assert (Ok1 : Forall (node_ok rho1 (add_kid r' B1)) rho1).
    { destruct X as [X1 _ _ _ _ X6]. rewrite X1. apply Forall_app. rewrite <- X1. split; [exact X6|].
      rewrite Forall_forall in *. intros [a b] Hp. pose proof (bi_lt _ _ _ I _ _ Hp) as Lb. apply (node_ok_mono P protos S ism rho B); [| | |apply Okh; exact Hp].
      - intros z Hz. rewrite X1. apply in_or_app. auto.
      - exact (proj1 (Fr _ Lb)).
      - exact (proj2 (Fr _ Lb)). }
    assert (I1' : bi S rho1 (add_kid r' B1)) by (destruct I1; split; auto).
    assert (Rt1 : s_routes (add_kid r' B1) = []) by (cbn [add_kid s_routes]; rewrite (ext_routes _ _ _ _ _ _ _ _ _ X); exact Rt0).
    destruct (IH D1 D' is' ts (add_kid r' B1) rho1 W2 F' E I1' Rt1 M1 Ok1) as (B' & l' & rho' & Eb' & I' & M' & Ok' & K & Rt & Sl & In').
    exists B', (r' :: l'), rho'. split; [|split; [exact I'|split; [exact M'|split; [exact Ok'|split; [|split; [|split]]]]]].
    + cbn [build_scene]. destruct x as [tag sx cx].
      assert (Q : build_root P base c0 (T G_rootItem s [T tag sx cx]) (tab, B) = Ok (tab, add_kid r' B1)).
      { cbn [build_root]. destruct i; try contradiction; injection Ex as -> _ _; change (inside c0 (tab, B)) with c; cbn [snd]; rewrite Eb; reflexivity. }
      rewrite Q. cbn [bind]. exact Eb'.
    + rewrite K. cbn [add_kid s_kids]. rewrite (ext_kids _ _ _ _ _ _ _ _ _ X), <- app_assoc. reflexivity.
    + rewrite Rt. exact (ext_routes _ _ _ _ _ _ _ _ _ X).
    + constructor; [|exact Sl]. eapply same_ref_mono; [|exact Sr]. intros a b. apply In'.
    + intros z Hz. apply In'. exact (ext_in _ _ _ _ _ _ _ _ _ z X Hz).
Qed.
Lemma routes_build rho l : forall ts B, bi S rho B -> Forall (node_ok rho B) rho ->
  (forall r, In r l -> In (fst (fst r)) (map fst rho) /\ In (fst (snd r)) (map fst rho) /\
     node_def S (fst (fst r)) <> [] /\ node_def S (fst (snd r)) <> []) ->
  map erase ts = map et_root (map (route_sk_of S) l) ->
  exists B' l', build_scene P base c0 ts (tab, B) = Ok (tab, B') /\ bi S rho B' /\ Forall (node_ok rho B') rho /\
    s_kids B' = s_kids B /\ s_routes B' = s_routes B ++ l' /\ Forall2 (same_route (Rho rho)) l l'.
Proof.
  induction l as [|[[a af] [b bf]] l IH]; intros ts B I Okh H E.
  - destruct ts; [|discriminate]. exists B, []. rewrite app_nil_r. split; [reflexivity|]. split; [exact I|]. split; [exact Okh|]. repeat split; auto.
  - destruct ts as [|t ts]; [discriminate|]. cbn [map] in E. injection E as Et E.
    apply erase_inv in Et as (s & ch & -> & _ & Ech). destruct ch as [|x [|]]; try discriminate. injection Ech as Ex.
    apply erase_inv in Ex as (sx & cx & -> & _ & Ecx). cbn [fst snd] in Ecx.
    destruct cx as [|t1 [|t2 [|t3 [|t4 [|]]]]]; try discriminate. injection Ecx as E1 E2 E3 E4.
    apply erase_inv in E1 as (s1 & c1 & -> & Q1 & _). apply erase_inv in E2 as (s2 & c2 & -> & Q2 & _).
    apply erase_inv in E3 as (s3 & c3 & -> & Q3 & _). apply erase_inv in E4 as (s4 & c4 & -> & Q4 & _).
    rewrite (Q1 eq_refl), (Q2 eq_refl), (Q3 eq_refl), (Q4 eq_refl). clear Q1 Q2 Q3 Q4.
    destruct (H _ (or_introl eq_refl)) as (Ha & Hb & Na & Nb). cbn [fst snd] in *.
    apply in_map_iff in Ha as ([a0 a'] & Ea & Ha). apply in_map_iff in Hb as ([b0 b'] & Eb & Hb). cbn in Ea, Eb. subst a0 b0.
    destruct (bi_node _ _ _ I _ _ Ha) as (? & ? & _ & _ & _ & _ & Ga). destruct (bi_node _ _ _ I _ _ Hb) as (? & ? & _ & _ & _ & _ & Gb).
    set (B1 := add_route ((a', af), (b', bf)) B).
    destruct (IH ts B1) as (B' & l' & Eb' & I' & Ok' & K & Rt & Sl).
    + destruct I; split; auto.
    + exact Okh.
    + intros r Hr. apply H. right. exact Hr.
    + exact E.
    + exists B', (((a', af), (b', bf)) :: l'). split; [|split; [exact I'|split; [exact Ok'|split; [exact K|split]]]].
      * cbn [build_scene build_root build_route snd]. rewrite (Ga Na), (Gb Nb). cbn [bind fst]. exact Eb'.
      * rewrite Rt. cbn [B1 add_route s_routes]. rewrite <- app_assoc. reflexivity.
      * constructor; [|exact Sl]. repeat split; auto.
Qed.
End BuildScene.

(** *** DEF before USE *)
Definition use_ok (S : scene) (D : list nat) (l : list occ) : Prop :=
  forall pre nm post, l = pre ++ OUse nm :: post -> (exists a, In a D /\ node_def S a = nm /\ nm <> []) \/ In (ODef nm) pre.
(** the names defined are those of the nodes in [D'] and not in [D] *)
Definition def_ok (S : scene) (D D' : list nat) (l : list occ) : Prop :=
  (forall nm, In (ODef nm) l -> exists a nd, In a D' /\ ~ In a D /\ s_node S a = Some nd /\ node_def S a = nm /\ nm <> []) /\
  (forall a, In a D' -> ~ In a D -> node_def S a <> [] -> In (ODef (node_def S a)) l) /\
  incl D D'.
Section Occ.
Variable P : prims.
Variable protos : list (text * list fdecl).
Variable S : scene.
Variable ism : nat -> text -> option text.
Hypothesis UNIQ : forall a b x y, s_node S a = Some x -> s_node S b = Some y -> node_def S a = node_def S b -> node_def S a <> [] -> a = b.
Definition good (D D' : list nat) (l : list occ) : Prop := use_ok S D l /\ def_ok S D D' l /\ defined_once l.
Lemma split_app {A} (l1 l2 pre : list A) x post : l1 ++ l2 = pre ++ x :: post ->
  (exists p2, l1 = pre ++ x :: p2 /\ post = p2 ++ l2) \/ (exists p1, pre = l1 ++ p1 /\ l2 = p1 ++ x :: post).
Proof.
  revert pre. induction l1 as [|y l1 IH]; intros pre E; [right; exists pre; auto|].
  destruct pre as [|z pre]; cbn in E; injection E as -> E.
  - left. exists l1. auto.
  - destruct (IH _ E) as [(p2 & -> & ->)|(p1 & -> & E2)]; [left; exists p2; auto|right; exists p1; auto].
Qed.
Lemma good_nil D : good D D [].
Proof.
  split; [|split; [split; [intros nm []|split; [contradiction|apply incl_refl]]|]]; intros [|] ? ?; discriminate.
Qed.
Lemma good_app D D1 D' l1 l2 : good D D1 l1 -> good D1 D' l2 -> good D D' (l1 ++ l2).
Proof.
  intros (U1 & (A1 & B1 & C1) & O1) (U2 & (A2 & B2 & C2) & O2). split; [|split; [split; [|split]|]].
  - intros pre nm post E. apply split_app in E as [(p2 & E1 & _)|(p1 & -> & E2)]; [exact (U1 _ _ _ E1)|].
    destruct (U2 _ _ _ E2) as [(a & Ha & <- & Nm)|H]; [|right; apply in_or_app; auto].
    destruct (in_dec Nat.eq_dec a D) as [Hd|Hd]; [left; eauto|right]. apply in_or_app. left. apply B1; auto.
  - intros nm H. apply in_app_or in H as [H|H].
    + destruct (A1 nm H) as (a & nd & Ha & Na & Q). exists a, nd. auto.
    + destruct (A2 nm H) as (a & nd & Ha & Na & Q). exists a, nd. split; [exact Ha|]. split; [|exact Q]. intros Hd. apply Na, C1. exact Hd.
  - intros a H1 H2 Nm. apply in_or_app. destruct (in_dec Nat.eq_dec a D1); [left; apply B1|right; apply B2]; auto.
  - eapply incl_tran; eauto.
  - intros pre nm post E H. apply split_app in E as [(p2 & E1 & ->)|(p1 & -> & E2)]; [|exact (O2 _ _ _ E2 H)].
    apply in_app_or in H as [H|H]; [exact (O1 _ _ _ E1 H)|].
    destruct (A1 nm) as (a & nda & Ha & _ & Nda & Ea & Nm). { rewrite E1. apply in_or_app. right. left. reflexivity. }
    destruct (A2 nm H) as (b & ndb & Hb & Nb & Ndb & Eb & _). apply Nb.
    assert (a = b) as <- by (eapply UNIQ; eauto; congruence). exact Ha.
Qed.
Lemma good_def D n nd l D' : s_node S n = Some nd -> ~ In n D -> good (n :: D) D' l ->
  good D D' (match def_opt (node_def S n) with Some nm => [ODef nm] | None => [] end ++ l).
Proof.
  intros Nd Hn G. assert (Q : good D (n :: D) (match def_opt (node_def S n) with Some nm => [ODef nm] | None => [] end)).
  { unfold def_opt. destruct (node_def S n) as [|c r] eqn:Dn.
    - split; [|split; [split; [intros nm []|split; [|intros x Hx; right; exact Hx]]|]]; try (intros [|] ? ?; discriminate).
      intros a [<-|H] H2 H3; contradiction.
    - split; [|split; [split; [|split; [|intros x Hx; right; exact Hx]]|]].
      + intros pre nm post E. destruct pre as [|? [|]]; discriminate.
      + intros nm [[= <-]|[]]. exists n, nd. repeat split; auto; [left; reflexivity|discriminate].
      + intros a [<-|H] H2 H3; [left; rewrite Dn; reflexivity|contradiction].
      + intros pre nm post E. destruct pre as [|? [|]]; injection E as E; subst; try discriminate. intros []. }
  eapply good_app; eauto.
Qed.
Definition plain_occs l : forallb plain l = true -> flat_map occs l = [].
Proof. induction l as [|i l IH]; [reflexivity|]. cbn. intros H. apply andb_true_iff in H as [H1 H2]. rewrite (IH H2). destruct i; try discriminate; reflexivity. Qed.
Lemma walk_good :
  (forall D r D' i, walk_ref P protos S ism D r D' i -> good D D' (occs i)) /\
  (forall D l D' is, walk_refs P protos S ism D l D' is -> good D D' (flat_map occs is)) /\
  (forall n D fs D' l, walk_attrs P protos S ism n D fs D' l -> good D D' (flat_map (fun p => match snd p with SVal its => flat_map occs its | SIs _ => [] end) l)) /\
  (forall D f v D' is, walk_val P protos S ism D f v D' is -> good D D' (flat_map occs is)).
Proof.
  apply walk_mut.
  - intros D. apply good_nil.
  - intros D n nd H _ Nm. cbn [occs]. split; [|split; [split; [intros nm [Q|[]]; discriminate|split; [contradiction|apply incl_refl]]|]].
    + intros pre nm post E. destruct pre as [|? [|]]; injection E as E; subst; try discriminate. left. exists n. auto.
    + intros pre nm post E. destruct pre as [|? [|]]; discriminate.
  - intros D n nd fs D' l Hn Nd Pr _ G. cbn [occs]. eapply good_def; eauto.
  - intros D. apply good_nil.
  - intros D r D1 i l D' is _ H1 _ H2. cbn [flat_map]. eapply good_app; eauto.
  - intros n D. apply good_nil.
  - auto.
  - auto.
  - intros n D f v D1 is fs D' l G _ _ _ H1 _ H2. cbn [flat_map snd]. eapply good_app; eauto.
  - intros D f t d v its _ Pl _. rewrite (plain_occs _ Pl). apply good_nil.
  - intros D f r D' i _ _ H. cbn [flat_map]. rewrite app_nil_r. exact H.
  - auto.
Qed.
End Occ.
