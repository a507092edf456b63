(** The body of a PROTO, or a scene with PROTOs: written and built again. *)
From Coq Require Import Reals Permutation SpecFloat.
From Flocq Require Import Core.Core IEEE754.BinarySingleNaN.
From Verif Require Import Base Text PyDict PyDict_Proofs Float Coerce_Model Coerce_Spec Grammar_Model Lex_Spec Lex_Proofs
  Doc_Spec Doc_Proofs SceneGraph_Model SceneGraph_Proofs VrmlStr_Model VrmlStr_Spec VrmlStr_Proofs VrmlStr_Values Scene_Model Linearise_Model
  Build_Model Proto_Model Scene_Spec Proto_Spec Linearise_Proofs Drop_Proofs Layout_Proofs Written Rebuilt Scene_Proofs Whole Reading_Spec Reading_Proofs ProtoText ProtoTable.
Local Open Scope nat_scope.
Local Open Scope list_scope.
Notation RNode := Scene_Model.RNode.

(** *** IS maps as the writer finds them *)
Lemma is_of_some S n nm pn : is_of S n nm = Some pn -> imap S n nm pn.
Proof.
  unfold is_of, imap.
  assert (G : forall l acc, fold_left (fun acc (e : text * list (nat * text)) => if existsb (fun p => (fst p =? n) && text_eqb (snd p) nm) (snd e) then Some (fst e) else acc) l acc = Some pn ->
    (exists xs, In (pn, xs) l /\ In (n, nm) xs) \/ acc = Some pn).
  { induction l as [|[q xs] l IH]; intros acc H; [right; exact H|]. cbn [fold_left] in H. destruct (IH _ H) as [(ys & A & B)|A].
    - left. exists ys. split; [right; exact A|exact B].
    - cbn [fst snd] in A. destruct (existsb _ xs) eqn:X; [|right; exact A]. injection A as ->. left. exists xs. split; [left; reflexivity|].
      apply existsb_exists in X as ([m y] & Hm & X). cbn [fst snd] in X. apply andb_true_iff in X as [X1 X2]. apply Nat.eqb_eq in X1. apply text_eqb_spec in X2. subst. exact Hm. }
  intros H. destruct (G _ _ H) as [A|A]; [exact A|discriminate].
Qed.
Lemma is_of_none S n nm : is_of S n nm = None -> forall pn, ~ imap S n nm pn.
Proof.
  unfold is_of, imap.
  assert (G : forall l acc, fold_left (fun acc (e : text * list (nat * text)) => if existsb (fun p => (fst p =? n) && text_eqb (snd p) nm) (snd e) then Some (fst e) else acc) l acc = None ->
    acc = None /\ forall q xs, In (q, xs) l -> ~ In (n, nm) xs).
  { induction l as [|[q xs] l IH]; intros acc H; [split; [exact H|intros q xs []]|]. cbn [fold_left fst snd] in H. destruct (IH _ H) as [A B].
    destruct (existsb _ xs) eqn:X; [discriminate|]. split; [exact A|]. intros q' xs' [E|Hi]; [|exact (B q' xs' Hi)]. injection E as <- <-.
    intros I. enough (true = false) by discriminate. rewrite <- X. symmetry. apply existsb_exists. exists (n, nm). split; [exact I|]. cbn [fst snd]. rewrite Nat.eqb_refl, text_eqb_refl. reflexivity. }
  intros H pn (xs & A & B). destruct (G _ _ H) as [_ C]. exact (C pn xs A B).
Qed.

(** *** written *)
Record lays P fstr protos st S ism pre w5 ew k s w rl N dn D' (is : list sitem) : Prop := {
  la_text : exists t, scene_body P fstr protos st N ism pre (depth S) = LOk s /\ l_buf s = pre ++ t /\ w5 ++ t ++ ew = w ++ show_roots rl;
  la_w : sep_text w5 -> sep_text w;
  la_first : ew = [] -> w = w5;
  la_ok : ok_roots rl k;
  la_ne : s_kids S <> [] -> rl <> RNil;
  la_N : N = with_defs S dn;
  la_named : named S = Some N;
  la_keep : forall n, node_def N n = node_def S n \/ (node_def S n = [] /\ routed S n);
  la_routed : forall n, routed S n -> node_def N n <> [];
  la_body : (s_kids S = [] /\ s_routes S = [] /\ is = []) \/
    (wf_scene P protos S /\ walk_refs P protos N ism [] (s_kids S) D' is /\
     Forall (fun i => match i with SNode _ _ _ | SUse _ => True | _ => False end) is /\
     (forall n, reach P protos S n -> In n D') /\
     forall n nd, s_node S n = Some nd -> node_def N n <> [] ->
       is_name (node_def N n) = true /\ getDEF (s_defs N) (node_def N n) = Some n);
  la_sk : sk_roots rl = map SRItem is ++ map (route_sk_of N) (s_routes S)
}.
Lemma body_written P fstr protos st S ism pre w5 ew k : wf_protos P protos -> ok_body P protos S -> ok_settings st -> faithful fstr ->
  (forall n f v pn, fget P S n f = Ok v -> ism n (f_name f) = Some pn -> is_name pn = true /\ ref_ids v = []) ->
  sep_text ew -> ends_name (ew ++ k) = true ->
  exists s w rl N dn D' is, lays P fstr protos st S ism pre w5 ew k s w rl N dn D' is.
Proof.
  intros WP [(K & R)|WS] ST FS MP He Hk.
  - exists (emit [] (mklst pre [] 0)), (w5 ++ ew), RNil, (with_defs S (s_defs S)), (s_defs S), [], []. split.
    + exists []. split; [|split; [reflexivity|cbn; rewrite !app_nil_r; reflexivity]]. unfold scene_body. cbn [with_defs s_kids s_routes]. rewrite K, R. reflexivity.
    + intros H. apply sep_app; assumption.
    + intros ->. apply app_nil_r.
    + exact I.
    + intros H. contradiction.
    + reflexivity.
    + unfold named. rewrite R. reflexivity.
    + intros n. left. reflexivity.
    + intros n (r & H & _). rewrite R in H. destruct H.
    + left. auto.
    + rewrite R. reflexivity.
  - destruct (written_roots P fstr protos st S ism pre ew k WP WS ST FS MP He Hk) as (s & t & rl & N & dn & D' & is & E & B & Et & Ok & (r & w & l & Ne) & EN & NM & H1 & H2 & H4 & Wk & Nn & Sk & Rc).
    exists s, w5, rl, N, dn, D', is. split; auto.
    + exists t. rewrite Et. auto.
    + intros _. subst rl. discriminate.
    + right. auto.
Qed.

(** *** built again *)
Record built P protos S (ism : nat -> text -> option text) N dn (S' : scene) rho : Prop := {
  bt_N : N = with_defs S dn;
  bt_keep : forall n, node_def N n = node_def S n \/ (node_def S n = [] /\ routed S n);
  bt_fs : forall a b nd, In (a, b) rho -> s_node S a = Some nd -> exists fs, proto protos (n_gi nd) = Some fs;
  bt_bi : bi N rho S';
  bt_ok : Forall (node_ok P protos N ism rho S') rho;
  bt_kids : Forall2 (same_ref (Rho rho)) (s_kids S) (s_kids S');
  bt_routes : Forall2 (same_route (Rho rho)) (s_routes S) (s_routes S')
}.
Lemma bi_empty N : bi N [] scene0.
Proof.
  split; try constructor; try (intros; contradiction).
  - intros m nd H. discriminate.
  - intros m nm pn (xs & H & _). destruct H.
Qed.
Lemma body_built P base c0 tab fstr protos st S ism pre w5 ew k s w rl N dn D' is ch :
  let c := mkctx (c_in c0) (tab ++ c_env c0) (c_outer c0) in
  wf_protos P protos -> lays P fstr protos st S ism pre w5 ew k s w rl N dn D' is ->
  (forall n nd fs, s_node S n = Some nd -> proto protos (n_gi nd) = Some fs ->
     exists fs', proto (known base c) (n_gi nd) = Some fs' /\ inst_ok base c (n_gi nd) = Ok tt /\ fields_ok P fs fs') ->
  (forall n nd fs f v, s_node S n = Some nd -> proto protos (n_gi nd) = Some fs -> In f fs ->
     fget P S n f = Ok v -> ism n (f_name f) = None -> dropped f v = Ok false -> sets_one base c S n (n_gi nd) f) ->
  (forall n nm pn, ism n nm = Some pn -> c_in c0 = true) ->
  map erase ch = map et_root (sk_roots rl) ->
  exists S' rho, build_scene P base c0 ch (tab, scene0) = Ok (tab, S') /\ built P protos S ism N dn S' rho.
Proof.
  intros c WP L TY ASG CIN Ech. rewrite (la_sk _ _ _ _ _ _ _ _ _ _ _ _ _ _ _ _ _ L) in Ech.
  pose proof (la_N _ _ _ _ _ _ _ _ _ _ _ _ _ _ _ _ _ L) as EN. pose proof (la_keep _ _ _ _ _ _ _ _ _ _ _ _ _ _ _ _ _ L) as KP.
  destruct (la_body _ _ _ _ _ _ _ _ _ _ _ _ _ _ _ _ _ L) as [(K & R & ->)|(WS & Wk & Nn & Rc & H2)].
  - rewrite R in Ech. destruct ch; [|discriminate]. exists scene0, []. split; [reflexivity|].
    split; auto; try (intros; contradiction); try (rewrite K || rewrite R; constructor). apply bi_empty.
  - destruct (rebuilt_roots P base c0 tab protos S ism N dn D' is ch WP WS TY ASG CIN EN H2 (la_routed _ _ _ _ _ _ _ _ _ _ _ _ _ _ _ _ _ L) Wk Nn Rc Ech)
      as (S' & rho & E & I & O & Sl & Sr).
    exists S', rho. split; [exact E|]. split; auto. intros a b nd _ Nd. destruct (wf_nodes _ _ _ WS a nd Nd) as (fs & Pr & _). eauto.
Qed.
Lemma rho_fun N rho S' : bi N rho S' -> (forall a b b', Rho rho a b -> Rho rho a b' -> b = b') /\ (forall a a' b, Rho rho a b -> Rho rho a' b -> a = a').
Proof.
  intros I2. unfold Rho. split.
  - intros a b b' A B. pose proof (bi_nd _ _ _ I2) as Nd. apply (In_dget Nat.eqb) in A; [|intros x y; split; apply Nat.eqb_eq|exact Nd].
    apply (In_dget Nat.eqb) in B; [|intros x y; split; apply Nat.eqb_eq|exact Nd]. congruence.
  - intros a a' b A B. pose proof (bi_inj _ _ _ I2) as Nd. clear - A B Nd. induction rho as [|[x y] rho IH]; [destruct A|].
    cbn in Nd. inversion Nd as [|? ? Nx Nd']; subst. destruct A as [A|A], B as [B|B]; [congruence| | |auto].
    + injection A as -> ->. exfalso. apply Nx. apply (in_map snd) in B. exact B.
    + injection B as -> ->. exfalso. apply Nx. apply (in_map snd) in A. exact A.
Qed.
Definition imap_fun (S : scene) : Prop := forall n y pn pn', imap S n y pn -> imap S n y pn' -> pn = pn'.
Lemma is_of_iff S n y pn : imap_fun S -> (is_of S n y = Some pn <-> imap S n y pn).
Proof.
  intros F. split; [apply is_of_some|]. intros H. destruct (is_of S n y) as [q|] eqn:E; [|destruct (is_of_none S n y E pn H)].
  apply is_of_some in E. f_equal. exact (F _ _ _ _ E H).
Qed.
Lemma built_body P protos S N dn S' rho : imap_fun S -> built P protos S (is_of S) N dn S' rho -> same_body P protos S S'.
Proof.
  intros IF [EN KP FS BI OK SL SR]. destruct (rho_fun _ _ _ BI) as (F1 & F2). exists (Rho rho).
  split; [exact F1|]. split; [exact F2|]. split; [exact SL|]. split; [exact SR|].
  split. { intros b y pn H. exact (bi_isin _ _ _ BI b y pn H). }
  intros a b Hab. destruct (bi_node _ _ _ BI a b Hab) as (nd & ndb & Na & Nb & Gi & Df & Gd).
  assert (NaS : s_node S a = Some nd) by (subst N; exact Na).
  destruct (FS a b nd Hab NaS) as (fs & Pr). rewrite Forall_forall in OK. destruct (OK _ Hab nd fs Na Pr) as (O1 & O2). cbn [fst snd] in *.
  exists nd, ndb, fs. split; [exact NaS|]. split; [exact Nb|]. split; [exact Gi|]. split; [rewrite Df; exact (KP a)|]. split; [rewrite Df; exact Gd|].
  split; [exact Pr|]. split; [|split].
  - intros f Hf. destruct (is_of S a (f_name f)) as [pn|] eqn:E; [left; exists pn; apply is_of_some; exact E|right].
    destruct (O1 f Hf E) as (v & v' & G1 & G2 & Sv & _). exists v, v'. split; [subst N; exact G1|]. auto.
  - intros f pn Hf. rewrite O2, (is_of_iff S a (f_name f) pn IF). split; [|tauto]. intros H. split; [|exact H]. apply in_map. exact Hf.
  - intros y pn H. apply O2 in H as (_ & H). apply is_of_some. exact H.
Qed.
Lemma built_scene P protos S N dn S' rho : built P protos S no_maps N dn S' rho -> same_scene P protos S S'.
Proof.
  intros [EN KP FS BI OK SL SR]. destruct (rho_fun _ _ _ BI) as (F1 & F2). exists (Rho rho).
  split; [exact F1|]. split; [exact F2|]. split; [exact SL|]. split; [exact SR|].
  intros a b Hab. destruct (bi_node _ _ _ BI a b Hab) as (nd & ndb & Na & Nb & Gi & Df & Gd).
  assert (NaS : s_node S a = Some nd) by (subst N; exact Na).
  destruct (FS a b nd Hab NaS) as (fs & Pr). rewrite Forall_forall in OK. destruct (OK _ Hab nd fs Na Pr) as (O1 & O2). cbn [fst snd] in *.
  exists nd, ndb, fs. split; [exact NaS|]. split; [exact Nb|]. split; [exact Gi|]. split; [rewrite Df; exact (KP a)|]. split; [rewrite Df; exact Gd|].
  split; [exact Pr|]. intros f Hf. destruct (O1 f Hf eq_refl) as (v & v' & G1 & G2 & Sv & _). exists v, v'. split; [subst N; exact G1|]. auto.
Qed.
