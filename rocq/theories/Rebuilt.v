(** The scene built from a document that walks through a scene is that scene. *)
From Coq Require Import Reals Permutation SpecFloat.
From Flocq Require Import Core.Core IEEE754.BinarySingleNaN.
From Verif Require Import Base Text PyDict PyDict_Proofs Float Coerce_Model Coerce_Spec Grammar_Model Lex_Spec Lex_Proofs
  Doc_Spec Doc_Proofs SceneGraph_Model VrmlStr_Model VrmlStr_Spec VrmlStr_Proofs VrmlStr_Values Scene_Model Linearise_Model Build_Model Scene_Spec
  Linearise_Proofs Drop_Proofs Layout_Proofs Written.
Local Open Scope nat_scope.
Local Open Scope list_scope.
Notation RNode := Scene_Model.RNode.
Notation inr := Datatypes.inr.

Lemma alike_refl P k : alike_kind P k k.
Proof. destruct k; cbn; auto. Qed.

(** A scene is written with the node types [protos] and read in context [c]
    with the built-in types [base]. *)
Section Rebuild.
Variable P : prims.
Variable base : list (text * list fdecl).
Variable c : ctx.
Variable protos : list (text * list fdecl).
Variable S : scene.
Variable ism : nat -> text -> option text.
Hypothesis WP : wf_protos P protos.
Hypothesis NODES : forall n nd, s_node S n = Some nd -> exists fs, proto protos (n_gi nd) = Some fs /\
    forall f, In f fs -> exists v, fget P S n f = Ok v /\ ok_value S f v.
Hypothesis UNIQ : forall a b x y, s_node S a = Some x -> s_node S b = Some y -> node_def S a = node_def S b -> node_def S a <> [] -> a = b.
(** setting the field changes one node *)
Definition sets_one (n : nat) (gi : text) (f : fdecl) : Prop :=
  match dget text_eqb (c_env c) gi with
  | None => True
  | Some p => match f_kind f, dget text_eqb (s_is (p_body p)) (f_name f) with
              | KNodes _, _ | _, None => True
              | _, Some xs => among gi (others c) = false /\ plain_map base p (f_name f) xs = true /\
                              forall m nd, s_node S m = Some nd -> n_gi nd = gi -> m = n
              end
  end.
Definition fields_ok (fs fs' : list fdecl) : Prop :=
  forall f, In f fs -> exists f', find_field fs' (f_name f) = Some f' /\ alike_kind P (f_kind f) (f_kind f').
Hypothesis TY : forall n nd fs, s_node S n = Some nd -> proto protos (n_gi nd) = Some fs ->
  exists fs', proto (known base c) (n_gi nd) = Some fs' /\ inst_ok base c (n_gi nd) = Ok tt /\ fields_ok fs fs'.
Hypothesis ASG : forall n nd fs f v, s_node S n = Some nd -> proto protos (n_gi nd) = Some fs -> In f fs ->
  fget P S n f = Ok v -> ism n (f_name f) = None -> dropped f v = Ok false -> sets_one n (n_gi nd) f.
Hypothesis CIN : forall n nm pn, ism n nm = Some pn -> c_in c = true.
Notation build_item := (build_item P base c).

(** the loops of the builder *)
Definition items := fix items (l : list tree) (b : scene) {struct l} : res (scene * list nref) :=
    match l with
    | [] => Ok (b, [])
    | x :: r => bind (build_item x b) (fun p =>
                bind (items r (fst p)) (fun q => Ok (fst q, snd p :: snd q)))
    end.
Definition body := fix body (n : nat) (gi : text) (fs : list fdecl) (l : list tree) (b : scene) {struct l} : res scene :=
    match l with
    | [] => Ok b
    | T tag _ ch :: r =>
        bind (match tag with
              | G_Attr =>
                  match ch with
                  | [T _ nm _; T vtag pn vs] =>
                      match vtag with
                      | G_IS => if is_attr c gi fs nm
                                then if c_in c then Ok (add_is pn n nm b) else Exc IndexError
                                else Exc OtherError
                      | G_Field =>
                          match find_field fs nm with
                          | None => if odd_name nm then Exc OtherError else Exc AttributeError
                          | Some f => bind (build_value P items f vs b) (fun p => assign base c n gi nm f (snd p) (fst p))
                          end
                      | _ => Exc OtherError
                      end
                  | _ => Exc ValueError
                  end
              | G_ROUTE => build_route ch b
              | _ => Exc OtherError
              end) (body n gi fs r)
    end.
Lemma safe_types gi : safe_name gi = true -> gi <> lit "sceneGraph" -> among gi not_types = false.
Proof.
  intros Sg Ns. unfold safe_name in Sg. apply andb_true_iff in Sg as [Sg _]. apply andb_true_iff in Sg as [_ Sg].
  destruct (among gi not_types) eqn:E; [|reflexivity]. exfalso. unfold among in E. apply existsb_exists in E as (x & Hx & E).
  apply text_eqb_spec in E. subst x. cbn in Hx. repeat destruct Hx as [<-|Hx]; try contradiction; try (vm_compute in Sg; discriminate).
Qed.
Lemma build_node_eq nm s gi c1 rest b fs fs' : proto protos gi = Some fs -> proto (known base c) gi = Some fs' -> inst_ok base c gi = Ok tt ->
  build_item (T G_Node s ((match nm with [] => [] | _ => [T G_name nm []] end) ++ T G_nodegi gi c1 :: rest)) b =
  bind (body (s_next b) gi fs' rest (name_node (def_opt nm) (s_next b) (new_node gi b)))
       (fun b' => Ok (b', RNode (s_next b))).
Proof.
  intros Pr Pr' Io. destruct (WP _ _ Pr) as (Sg & Ns & _). pose proof (safe_types gi Sg Ns) as A.
  destruct nm; cbn [app def_opt Build_Model.build_item]; rewrite A, Pr', Io; reflexivity.
Qed.

(** *** the correspondence *)
Notation asc := (list (nat * nat)).
Definition Rho (rho : asc) (a b : nat) : Prop := In (a, b) rho.
Record bi (rho : asc) (B : scene) : Prop := {
  bi_nd : NoDup (map fst rho);
  bi_inj : NoDup (map snd rho);
  bi_lt : forall a b, In (a, b) rho -> b < s_next B;
  bi_node : forall a b, In (a, b) rho -> exists nd ndb, s_node S a = Some nd /\ s_node B b = Some ndb /\ n_gi ndb = n_gi nd /\
    node_def B b = node_def S a /\ (node_def S a <> [] -> getDEF (s_defs B) (node_def S a) = Some b);
  bi_fresh : forall m, s_next B <= m -> node_def B m = [];
  bi_sur : forall m nd, s_node B m = Some nd -> exists a, In (a, m) rho;
  bi_isk : NoDup (map fst (s_is B));
  bi_isin : forall m nm pn, imap B m nm pn -> exists a, In (a, m) rho;
  bi_isne : forall pn xs, In (pn, xs) (s_is B) -> xs <> []
}.
Definition field_ok (rho : asc) (B : scene) (a b : nat) (f : fdecl) : Prop :=
  ism a (f_name f) = None -> exists v v', fget P S a f = Ok v /\ fget P B b f = Ok v' /\ same_val (Rho rho) v v' /\
    (equal_val (Rho rho) v v' \/ dropped f v = Ok true).
Definition node_ok (rho : asc) (B : scene) (p : nat * nat) : Prop :=
  forall nd fs, s_node S (fst p) = Some nd -> proto protos (n_gi nd) = Some fs ->
  (forall f, In f fs -> field_ok rho B (fst p) (snd p) f) /\
  (forall nm pn, imap B (snd p) nm pn <-> In nm (map f_name fs) /\ ism (fst p) nm = Some pn).
(** building only adds nodes *)
Record ext (rho : asc) (B : scene) (rho' : asc) (B' : scene) (new : asc) : Prop := {
  ext_rho : rho' = new ++ rho;
  ext_next : s_next B <= s_next B';
  ext_kids : s_kids B' = s_kids B;
  ext_routes : s_routes B' = s_routes B;
  ext_new : Forall (fun p => s_next B <= snd p) new;
  ext_ok : Forall (node_ok rho' B') new
}.
Definition frame (B B' : scene) : Prop :=
  forall m, m < s_next B -> s_node B' m = s_node B m /\ forall nm pn, imap B' m nm pn <-> imap B m nm pn.

Lemma same_ref_mono (R R' : nat -> nat -> Prop) r r' : (forall a b, R a b -> R' a b) -> same_ref R r r' -> same_ref R' r r'.
Proof. intros H [|a b E]; constructor; auto. Qed.
Lemma same_val_mono (R R' : nat -> nat -> Prop) v v' : (forall a b, R a b -> R' a b) -> same_val R v v' -> same_val R' v v'.
Proof.
  intros H [x y E|r r' E|l l' E]; constructor; auto.
  - eapply same_ref_mono; eauto.
  - induction E; constructor; auto. eapply same_ref_mono; eauto.
Qed.
Lemma equal_val_mono (R R' : nat -> nat -> Prop) v v' : (forall a b, R a b -> R' a b) -> equal_val R v v' -> equal_val R' v v'.
Proof.
  intros H [x|r r' E|l l' E]; constructor; auto.
  - eapply same_ref_mono; eauto.
  - induction E; constructor; auto. eapply same_ref_mono; eauto.
Qed.
Lemma equal_same (R : nat -> nat -> Prop) v v' : equal_val R v v' -> same_val R v v'.
Proof. intros [x|r r' E|l l' E]; constructor; auto. left. reflexivity. Qed.
Lemma fget_frame B B' b f : s_node B' b = s_node B b -> fget P B' b f = fget P B b f.
Proof. intros E. unfold fget. rewrite E. reflexivity. Qed.
Lemma node_ok_mono rho B rho' B' p : (forall x, In x rho -> In x rho') -> s_node B' (snd p) = s_node B (snd p) ->
  (forall nm pn, imap B' (snd p) nm pn <-> imap B (snd p) nm pn) -> node_ok rho B p -> node_ok rho' B' p.
Proof.
  intros I E Ei H nd fs Hn Hp. destruct (H nd fs Hn Hp) as (H1 & H2). split; [|intros nm pn; rewrite Ei; apply H2].
  intros f Hf Im. destruct (H1 f Hf Im) as (v & v' & E1 & E2 & Sv & Ex).
  exists v, v'. split; [exact E1|]. split; [rewrite (fget_frame B B') by exact E; exact E2|].
  split; [eapply same_val_mono; [|exact Sv]; intros a b; apply I|].
  destruct Ex as [Ex|Ex]; [left|right; exact Ex]. eapply equal_val_mono; [|exact Ex]. intros a b. apply I.
Qed.
Lemma ext_trans rho B rho1 B1 n1 rho2 B2 n2 : bi rho1 B1 -> ext rho B rho1 B1 n1 -> ext rho1 B1 rho2 B2 n2 -> frame B1 B2 ->
  ext rho B rho2 B2 (n2 ++ n1).
Proof.
  intros I1 [A1 A2 A3 A4 A5 A6] [C1 C2 C3 C4 C5 C6] F. split; try congruence; try lia.
  - rewrite C1, A1, app_assoc. reflexivity.
  - apply Forall_app. split; [|exact A5]. eapply Forall_impl; [|exact C5]. cbn. intros; lia.
  - apply Forall_app. split; [exact C6|]. rewrite Forall_forall in *. intros [a b] Hp.
    assert (Hb : b < s_next B1). { eapply bi_lt; [exact I1|]. rewrite A1. apply in_or_app. left. exact Hp. }
    apply (node_ok_mono rho1 B1); [| | |apply A6; exact Hp].
    + intros x Hx. rewrite C1. apply in_or_app. auto.
    + exact (proj1 (F _ Hb)).
    + exact (proj2 (F _ Hb)).
Qed.
Lemma ext_refl rho B : ext rho B rho B [].
Proof. split; auto. Qed.
Lemma ext_in rho B rho' B' new x : ext rho B rho' B' new -> In x rho -> In x rho'.
Proof. intros [A _ _ _ _ _] H. rewrite A. apply in_or_app. auto. Qed.

(** *** entering a node *)
Lemma reg_other d nm x o : x <> nm -> x <> ndef d o -> getDEF (regDefName d nm o) x = getDEF d x.
Proof.
  intros H1 H2. unfold getDEF, regDefName. cbn [defs]. rewrite (dget_dset_other text_eqb text_eqb_spec) by congruence.
  destruct (dget text_eqb (defs d) (ndef d o)) as [o'|]; [|reflexivity]. destruct (Nat.eqb o' o); [|reflexivity].
  apply (dget_ddel_other text_eqb text_eqb_spec). congruence.
Qed.
Lemma reg_same d nm o : getDEF (regDefName d nm o) nm = Some o.
Proof. apply (dget_dset_same text_eqb text_eqb_spec). Qed.
Definition enter nm gi B := name_node (def_opt nm) (s_next B) (new_node gi B).
Lemma enter_eq nm gi B : node_def B (s_next B) = [] -> s_next (enter nm gi B) = Datatypes.S (s_next B) /\
  s_kids (enter nm gi B) = s_kids B /\ s_routes (enter nm gi B) = s_routes B /\ s_is (enter nm gi B) = s_is B /\
  (forall m, s_node (enter nm gi B) m = if m =? s_next B then Some (mksn gi [] []) else s_node B m) /\
  (forall m, node_def (enter nm gi B) m = if m =? s_next B then nm else node_def B m).
Proof.
  intros E. unfold enter, name_node, new_node, def_opt. destruct nm as [|c0 nm]; cbn; repeat split; auto.
  - intros m. unfold node_def in *. cbn. unfold set_def. destruct (m =? s_next B) eqn:Em; [|reflexivity]. exact E.
  - intros m. unfold node_def in *. cbn. unfold set_def. destruct (m =? s_next B) eqn:Em; reflexivity.
Qed.
Lemma enter_def nm gi B x : x <> [] -> node_def B (s_next B) = [] -> x <> nm -> getDEF (s_defs (enter nm gi B)) x = getDEF (s_defs B) x.
Proof.
  intros Hx Hn Hd. unfold enter, name_node, new_node, def_opt. unfold node_def in Hn. destruct nm as [|c0 nm]; cbn [s_defs].
  - rewrite Hn. apply reg_other; congruence.
  - rewrite reg_other; [|exact Hd|].
    + rewrite Hn. apply reg_other; congruence.
    + cbn [s_next ndef regDefName]. unfold set_def. rewrite Nat.eqb_refl. congruence.
Qed.
Lemma enter_bi rho B n nd : bi rho B -> ~ In n (map fst rho) -> s_node S n = Some nd ->
  bi ((n, s_next B) :: rho) (enter (node_def S n) (n_gi nd) B).
Proof.
  intros I Hn Nd. pose proof (bi_fresh _ _ I (s_next B) (le_n _)) as Fr.
  destruct (enter_eq (node_def S n) (n_gi nd) B Fr) as (E1 & E2 & E3 & Ei & E4 & E5). split.
  - cbn. constructor; [exact Hn|]. apply I.
  - cbn. constructor; [|apply I]. intros H. apply in_map_iff in H as ([a b] & Q & H). cbn in Q. subst b. apply (bi_lt _ _ I) in H. lia.
  - intros a b [[= <- <-]|H]; [lia|]. apply (bi_lt _ _ I) in H. lia.
  - intros a b [[= <- <-]|H].
    + exists nd, (mksn (n_gi nd) [] []). rewrite E4, E5, Nat.eqb_refl. repeat split; auto. intros D.
      unfold enter, name_node, new_node, def_opt. destruct (node_def S n) as [|c0 r]; [congruence|]. apply reg_same.
    + destruct (bi_node _ _ I a b H) as (nda & ndb & H1 & H2 & H3 & H4 & H5). exists nda, ndb.
      pose proof (bi_lt _ _ I _ _ H) as L. rewrite E4, E5. assert (b =? s_next B = false) as -> by (apply Nat.eqb_neq; lia).
      repeat split; auto. intros D. rewrite enter_def; auto. intros X. assert (a = n) by (eapply UNIQ; eauto). subst a.
      apply Hn. apply in_map_iff. exists (n, b). auto.
  - intros m Hm. rewrite E5. assert (m =? s_next B = false) as -> by (apply Nat.eqb_neq; lia). apply (bi_fresh _ _ I). lia.
  - intros m x Hm. rewrite E4 in Hm. destruct (m =? s_next B) eqn:Em.
    + apply Nat.eqb_eq in Em. subst m. exists n. left. reflexivity.
    + destruct (bi_sur _ _ I m x Hm) as [a Ha]. exists a. right. exact Ha.
  - rewrite Ei. apply I.
  - intros m nm pn H. unfold imap in H. rewrite Ei in H. destruct (bi_isin _ _ I _ _ _ H) as [a Ha]. exists a. right. exact Ha.
  - intros pn xs H. rewrite Ei in H. exact (bi_isne _ _ I pn xs H).
Qed.

(** *** setting a field *)
Lemma set_bi rho B b nm v : bi rho B -> bi rho (set_field b nm v B).
Proof.
  intros [A1 A2 A3 A4 A5 A6 A7 A8 A9]. split; auto.
  2: { intros m x Hm. cbn [set_field s_node] in Hm. destruct (m =? b) eqn:E; [|eapply A6; eauto].
       destruct (s_node B m) as [y|] eqn:Ey; [eapply A6; eauto|discriminate]. }
  intros x y H. destruct (A4 x y H) as (nd & ndb & H1 & H2 & H3 & H4 & H5).
  cbn [set_field s_node s_defs]. destruct (y =? b) eqn:E.
  - exists nd, (mksn (n_gi ndb) (dset text_eqb (n_vals ndb) nm v) (n_mem ndb)). rewrite H2. repeat split; auto.
  - exists nd, ndb. auto.
Qed.
(** the same scene, with the nodes compared one by one *)
Definition same_but (X Y : scene) : Prop :=
  s_next X = s_next Y /\ s_defs X = s_defs Y /\ s_kids X = s_kids Y /\ s_routes X = s_routes Y /\ s_is X = s_is Y /\
  forall m, s_node X m = s_node Y m.
Lemma same_but_bi rho X Y : same_but X Y -> bi rho Y -> bi rho X.
Proof.
  intros (E1 & E2 & E3 & E4 & E5 & E6) [A1 A2 A3 A4 A5 A6 A7 A8 A9]. split; auto.
  - intros a b H. rewrite E1. eauto.
  - intros a b H. rewrite E6, E2. unfold node_def. rewrite E2. apply A4. exact H.
  - intros m H. unfold node_def. rewrite E2. apply A5. rewrite <- E1. exact H.
  - intros m nd H. rewrite E6 in H. eauto.
  - rewrite E5. exact A7.
  - intros m nm pn H. apply (A8 m nm pn). unfold imap in *. rewrite <- E5. exact H.
  - rewrite E5. exact A9.
Qed.
Lemma assign_one rho B n b nd gi f f' v : bi rho B -> In (n, b) rho -> s_node S n = Some nd -> n_gi nd = gi -> s_routes B = [] ->
  sets_one n gi f -> alike_kind P (f_kind f) (f_kind f') ->
  exists B2, assign base c b gi (f_name f) f' v B = Ok B2 /\ same_but B2 (set_field b (f_name f) v B).
Proof.
  intros I Hb Nd Gi Rt So Al. unfold assign, sets_one in *. destruct (dget text_eqb (c_env c) gi) as [p|].
  2: { eexists. split; [reflexivity|]. repeat split; auto. }
  rewrite Rt. cbn [existsb].
  assert (Q : exists B2, Ok (set_field b (f_name f) v B) = Ok B2 /\ same_but B2 (set_field b (f_name f) v B))
    by (eexists; split; [reflexivity|]; repeat split; auto).
  destruct (dget text_eqb (s_is (p_body p)) (f_name f)) as [xs|]; [|destruct (f_kind f'); exact Q].
  assert (Q2 : among gi (others c) = false /\ plain_map base p (f_name f) xs = true /\ (forall m nd, s_node S m = Some nd -> n_gi nd = gi -> m = n) ->
    exists B2, (if among gi (others c) || negb (plain_map base p (f_name f) xs) then Exc OtherError else Ok (set_all gi b (f_name f) v B)) = Ok B2 /\
      same_but B2 (set_field b (f_name f) v B)).
  { intros (A1 & A2 & A3). rewrite A1, A2. cbn [orb negb]. eexists. split; [reflexivity|]. do 5 (split; [reflexivity|]).
    intros m. cbn [set_all set_field s_node]. destruct (s_node B m) as [x|] eqn:Em; [|destruct (m =? b); reflexivity].
    cbn [option_map]. destruct (m =? b) eqn:Eb; [reflexivity|]. cbn [orb]. destruct (text_eqb (n_gi x) gi) eqn:Eg; [|reflexivity].
    exfalso. apply text_eqb_spec in Eg. destruct (bi_sur _ _ I m x Em) as [a Ha].
    destruct (bi_node _ _ I a m Ha) as (nda & ndb & Na & Nb & Gb & _). assert (a = n) as -> by (eapply A3; [exact Na|congruence]).
    apply Nat.eqb_neq in Eb. apply Eb. clear - I Hb Ha. pose proof (bi_nd _ _ I) as ND. revert Hb Ha ND. clear. induction rho as [|[x y] l IH]; [intros []|].
    cbn. intros [H1|H1] [H2|H2] ND; inversion ND as [|? ? Nx ND']; subst.
    - congruence.
    - injection H1 as -> ->. exfalso. apply Nx. apply in_map_iff. exists (n, m). auto.
    - injection H2 as -> ->. exfalso. apply Nx. apply in_map_iff. exists (n, b). auto.
    - auto. }
  unfold alike_kind in Al. destruct (f_kind f) as [t d| |o], (f_kind f') as [t' d'| |o']; try contradiction; try exact Q; apply Q2; exact So.
Qed.
Lemma in_dget (d : list (text * list (nat * text))) k v : NoDup (map fst d) -> In (k, v) d <-> dget text_eqb d k = Some v.
Proof. intros H. split; [apply (In_dget text_eqb text_eqb_spec); exact H|apply (dget_In text_eqb text_eqb_spec)]. Qed.
Lemma isk_dset (d : list (text * list (nat * text))) k v : NoDup (map fst d) -> NoDup (map fst (dset text_eqb d k v)).
Proof. apply (nodup_dset text_eqb text_eqb_spec). Qed.
Lemma imap_add B pn n nm : NoDup (map fst (s_is B)) -> forall m x q,
  imap (add_is pn n nm B) m x q <-> imap B m x q \/ (m = n /\ x = nm /\ q = pn).
Proof.
  intros ND m x q. unfold imap. cbn [add_is s_is]. 
  assert (K : forall q xs, In (q, xs) (s_is B) <-> dget text_eqb (s_is B) q = Some xs) by (intros; apply in_dget; exact ND).
  assert (K' : forall d, NoDup (map fst d) -> forall (q : text) (xs : list (nat * text)), In (q, xs) d <-> dget text_eqb d q = Some xs)
    by (intros; apply in_dget; assumption).
  set (v := match dget text_eqb (s_is B) pn with Some l => l ++ [(n, nm)] | None => [(n, nm)] end).
  split.
  - intros (xs & H1 & H2). apply K' in H1; [|apply isk_dset; exact ND].
    destruct (list_eq_dec N.eq_dec q pn) as [->|D].
    + rewrite (dget_dset_same text_eqb text_eqb_spec) in H1. injection H1 as <-. unfold v in H2.
      destruct (dget text_eqb (s_is B) pn) as [l|] eqn:E.
      * apply in_app_or in H2 as [H2|[H2|[]]]; [left; exists l; split; [apply K; exact E|exact H2]|right]. injection H2 as -> ->. auto.
      * destruct H2 as [H2|[]]. injection H2 as -> ->. auto.
    + rewrite (dget_dset_other text_eqb text_eqb_spec) in H1 by congruence. left. exists xs. split; [apply K; exact H1|exact H2].
  - intros [(xs & H1 & H2)|(-> & -> & ->)].
    + apply K in H1. destruct (list_eq_dec N.eq_dec q pn) as [->|D].
      * exists v. split; [apply K'; [apply isk_dset; exact ND|apply (dget_dset_same text_eqb text_eqb_spec)]|].
        unfold v. rewrite H1. apply in_or_app. auto.
      * exists xs. split; [|exact H2]. apply K'; [apply isk_dset; exact ND|].
        rewrite (dget_dset_other text_eqb text_eqb_spec) by congruence. exact H1.
    + exists v. split; [apply K'; [apply isk_dset; exact ND|apply (dget_dset_same text_eqb text_eqb_spec)]|].
      unfold v. destruct (dget text_eqb (s_is B) pn); [apply in_or_app; right|]; left; reflexivity.
Qed.
Lemma is_bi rho B a b nm pn : bi rho B -> In (a, b) rho -> bi rho (add_is pn b nm B).
Proof.
  intros [A1 A2 A3 A4 A5 A6 A7 A8 A9] L. split; auto.
  - apply isk_dset. exact A7.
  - intros m x q H. apply imap_add in H; [|exact A7]. destruct H as [H|(-> & _)]; [eapply A8; eauto|exists a; exact L].
  - intros q xs H. cbn [add_is s_is] in H. apply (in_dget _ _ _ (isk_dset _ _ _ A7)) in H. destruct (list_eq_dec N.eq_dec q pn) as [->|D].
    + rewrite (dget_dset_same text_eqb text_eqb_spec) in H. injection H as <-.
      destruct (dget text_eqb (s_is B) pn) as [l|]; [destruct l|]; discriminate.
    + rewrite (dget_dset_other text_eqb text_eqb_spec) in H by congruence. apply (A9 q xs). apply in_dget; assumption.
Qed.
Lemma build_value_alike f f' l b : alike_kind P (f_kind f) (f_kind f') -> build_value P items f l b = build_value P items f' l b.
Proof.
  intros Al. unfold build_value, alike_kind in *.
  destruct (f_kind f) as [t d| |o], (f_kind f') as [t' d'| |o']; try contradiction; try reflexivity. destruct Al as (<- & _). reflexivity.
Qed.
Lemma find_field_in fs f : NoDup (map f_name fs) -> In f fs -> find_field fs (f_name f) = Some f.
Proof.
  induction fs as [|g fs IH]; intros ND H; [destruct H|]. cbn. inversion ND as [|? ? Ng ND']; subst. destruct H as [->|H].
  - assert (text_eqb (f_name f) (f_name f) = true) as -> by (apply text_eqb_spec; reflexivity). reflexivity.
  - destruct (text_eqb (f_name g) (f_name f)) eqn:E; [|apply IH; auto]. apply text_eqb_spec in E. exfalso. apply Ng. rewrite E.
    apply in_map. exact H.
Qed.

(** *** the builder follows the walk *)
Definition builds (rho : asc) (B : scene) (rho' : asc) (B' : scene) : Prop :=
  bi rho' B' /\ frame B B' /\ exists new, ext rho B rho' B' new.
Definition F_ref D r D' i := forall t B rho, erase t = et_item i -> bi rho B -> s_routes B = [] -> map fst rho = D ->
  exists B' r' rho', build_item t B = Ok (B', r') /\ builds rho B rho' B' /\ map fst rho' = D' /\ same_ref (Rho rho') r r'.
Definition F_refs D l D' (is : list sitem) := forall ts B rho, map erase ts = map et_item is -> bi rho B -> s_routes B = [] -> map fst rho = D ->
  exists B' l' rho', items ts B = Ok (B', l') /\ builds rho B rho' B' /\ map fst rho' = D' /\ Forall2 (same_ref (Rho rho')) l l'.
Definition F_val D f v D' (is : list sitem) := forall ts B rho, map erase ts = map et_item is -> bi rho B -> s_routes B = [] -> map fst rho = D ->
  exists B' v' rho', build_value P items f ts B = Ok (B', v') /\ builds rho B rho' B' /\ map fst rho' = D' /\ equal_val (Rho rho') v v'.
(** only node [b] changes, and of it only the fields [fs] *)
Definition F_attrs n D fs D' (l : list (text * sval)) := forall fs0 fs1 b ts B rho ndb nd, map erase ts = map et_attr l -> bi rho B -> s_routes B = [] -> map fst rho = D ->
  s_node S n = Some nd -> proto protos (n_gi nd) = Some fs0 -> fields_ok fs0 fs1 ->
  In (n, b) rho -> NoDup (map f_name fs) -> incl fs fs0 -> s_node B b = Some ndb ->
  (forall f, In f fs -> dget text_eqb (n_vals ndb) (f_name f) = None) ->
  exists B' rho' ndb' new, body b (n_gi nd) fs1 ts B = Ok B' /\ bi rho' B' /\ ext rho B rho' B' new /\ map fst rho' = D' /\
    (forall m, m < s_next B -> m <> b -> s_node B' m = s_node B m /\ forall nm pn, imap B' m nm pn <-> imap B m nm pn) /\
    (forall nm pn, imap B' b nm pn <-> imap B b nm pn \/ (In nm (map f_name fs) /\ ism n nm = Some pn)) /\
    s_node B' b = Some ndb' /\ (forall nm, ~ In nm (map f_name fs) -> dget text_eqb (n_vals ndb') nm = dget text_eqb (n_vals ndb) nm) /\
    forall f, In f fs -> field_ok rho' B' n b f.

Lemma builds_refl rho B : bi rho B -> builds rho B rho B.
Proof. intros I. split; [exact I|]. split; [intros m _; split; reflexivity|]. exists []. apply ext_refl. Qed.
Lemma builds_trans rho B rho1 B1 rho2 B2 : builds rho B rho1 B1 -> builds rho1 B1 rho2 B2 -> builds rho B rho2 B2.
Proof.
  intros (I1 & F1 & n1 & E1) (I2 & F2 & n2 & E2). split; [exact I2|]. split.
  - intros m Hm. pose proof (ext_next _ _ _ _ _ E1). destruct (F1 m Hm) as (A1 & A2). destruct (F2 m) as (C1 & C2); [lia|].
    split; [congruence|]. intros nm pn. rewrite C2. apply A2.
  - exists (n2 ++ n1). exact (ext_trans _ _ _ _ _ _ _ _ I1 E1 E2 F2).
Qed.
Lemma builds_in rho B rho' B' a b : builds rho B rho' B' -> Rho rho a b -> Rho rho' a b.
Proof. intros (_ & _ & n & E) H. eapply ext_in; eauto. Qed.

Lemma walk_builds :
  (forall D r D' i, walk_ref P protos S ism D r D' i -> F_ref D r D' i) /\
  (forall D l D' is, walk_refs P protos S ism D l D' is -> F_refs D l D' is) /\
  (forall n D fs D' l, walk_attrs P protos S ism n D fs D' l -> F_attrs n D fs D' l) /\
  (forall D f v D' is, walk_val P protos S ism D f v D' is -> F_val D f v D' is).
Proof.
  apply walk_mut; unfold F_ref, F_refs, F_attrs, F_val.
  - (* NULL *)
    intros D t B rho E I _ M. apply erase_inv in E as (s & l & -> & _). exists B, RNull, rho.
    split; [reflexivity|]. split; [apply builds_refl; exact I|]. split; [exact M|constructor].
  - (* USE *)
    intros D n nd Hn Nd Nm t B rho E I _ M. apply erase_inv in E as (s & l & -> & Es & _). rewrite (Es eq_refl).
    rewrite <- M in Hn. apply in_map_iff in Hn as ([a b] & Ea & Hab). cbn in Ea. subst a.
    destruct (bi_node _ _ I n b Hab) as (? & ? & _ & _ & _ & _ & G). exists B, (RNode b), rho.
    split; [cbn; rewrite (G Nm); reflexivity|]. split; [apply builds_refl; exact I|]. split; [exact M|]. constructor. exact Hab.
  - (* a node *)
    intros D n nd fs D' l Hn Nd Pr Wa IH t B rho E I Rt M. apply erase_inv in E as (s & ch & -> & _ & Ech).
    rewrite <- M in Hn. pose proof (enter_bi rho B n nd I Hn Nd) as I1.
    destruct (enter_eq (node_def S n) (n_gi nd) B (bi_fresh _ _ I _ (le_n _))) as (E1 & E2 & E3 & Ei & E4 & E5).
    assert (exists c1 rest, ch = (match node_def S n with [] => [] | _ => [T G_name (node_def S n) []] end) ++ T G_nodegi (n_gi nd) c1 :: rest /\
      map erase rest = map et_attr l) as (c1 & rest & -> & Er).
    { destruct (node_def S n) as [|x0 r] eqn:Dn; cbn [def_opt app] in Ech.
      - destruct ch as [|x rest]; [discriminate|]. injection Ech as Ex Er. apply erase_inv in Ex as (s1 & l1 & -> & Es & _).
        rewrite (Es eq_refl). exists l1, rest. auto.
      - destruct ch as [|y [|x rest]]; try discriminate. injection Ech as Ey Ex Er. apply erase_inv in Ex as (s1 & l1 & -> & Es & _).
        apply erase_inv in Ey as (s2 & l2 & -> & Es2 & El2). apply map_eq_nil in El2. subst l2.
        rewrite (Es eq_refl), (Es2 eq_refl). exists l1, rest. auto. }
    destruct (WP _ _ Pr) as (_ & _ & Nf & _). destruct (TY _ _ _ Nd Pr) as (fs' & Pr' & Io & Fo).
    destruct (IH fs fs' (s_next B) rest (enter (node_def S n) (n_gi nd) B) ((n, s_next B) :: rho) (mksn (n_gi nd) [] []) nd)
      as (B' & rho' & ndb' & new & Eb & I' & X & M' & Fr & Im & Nb & _ & Ok1); auto.
    { congruence. }
    { cbn. rewrite M. reflexivity. }
    { left. reflexivity. }
    { eapply Permutation_NoDup; [|exact Nf]. apply Permutation_map, Permutation_sym, sort_perm. }
    { intros f Hf. eapply Permutation_in; [apply sort_perm|exact Hf]. }
    { rewrite E4, Nat.eqb_refl. reflexivity. }
    exists B', (RNode (s_next B)), rho'. split.
    { rewrite (build_node_eq _ _ _ _ _ _ fs fs' Pr Pr' Io). fold (enter (node_def S n) (n_gi nd) B). rewrite Eb. reflexivity. }
    split; [|split; [exact M'|constructor; eapply ext_in; [exact X|left; reflexivity]]].
    split; [exact I'|]. split.
    { intros m Hm. destruct (Fr m) as (A1 & A2); try lia. rewrite A1, E4. assert (m =? s_next B = false) as -> by (apply Nat.eqb_neq; lia).
      split; [reflexivity|]. intros nm pn. rewrite A2. unfold imap. rewrite Ei. reflexivity. }
    exists (new ++ [(n, s_next B)]). destruct X as [X1 X2 X3 X4 X5 X6]. split; try congruence; try lia.
    + rewrite X1, <- app_assoc. reflexivity.
    + apply Forall_app. split; [|constructor; [cbn; lia|constructor]]. eapply Forall_impl; [|exact X5]. cbn. intros; lia.
    + apply Forall_app. split; [exact X6|]. constructor; [|constructor]. intros nd1 fs1 Hd Hp. cbn [fst snd] in *.
      assert (fs1 = fs) as -> by congruence. split.
      * intros f Hf. apply Ok1. eapply Permutation_in; [apply Permutation_sym, sort_perm|exact Hf].
      * intros nm pn. rewrite Im. assert (Q : In nm (map f_name (sort fs)) <-> In nm (map f_name fs)).
        { split; apply Permutation_in; apply Permutation_map; [|apply Permutation_sym]; apply sort_perm. }
        rewrite Q. split; [|auto]. intros [H|H]; [|exact H]. exfalso.
        unfold imap in H. rewrite Ei in H. destruct (bi_isin _ _ I _ _ _ H) as [x Hx]. apply (bi_lt _ _ I) in Hx. lia.
  - (* no nodes *)
    intros D ts B rho E I _ M. destruct ts; [|discriminate]. exists B, [], rho.
    split; [reflexivity|]. split; [apply builds_refl; exact I|]. split; [exact M|constructor].
  - (* several nodes *)
    intros D r D1 i l D' is _ IH1 _ IH2 ts B rho E I Rt M. destruct ts as [|t ts]; [discriminate|]. injection E as Et E.
    destruct (IH1 t B rho Et I Rt M) as (B1 & r' & rho1 & Eb & Bd1 & M1 & S1).
    assert (Rt1 : s_routes B1 = []). { destruct Bd1 as (_ & _ & n1 & X1). rewrite (ext_routes _ _ _ _ _ X1). exact Rt. }
    destruct (IH2 ts B1 rho1 E (proj1 Bd1) Rt1 M1) as (B2 & l' & rho2 & Eb2 & Bd2 & M2 & S2).
    exists B2, (r' :: l'), rho2. split; [cbn [items]; rewrite Eb; cbn [bind fst snd]; rewrite Eb2; reflexivity|].
    split; [eapply builds_trans; eauto|]. split; [exact M2|]. constructor; [|exact S2].
    eapply same_ref_mono; [|exact S1]. intros a b. apply (builds_in _ _ _ _ _ _ Bd2).
  - (* no attributes *)
    intros n D fs0 fs1 b ts B rho ndb nd E I _ M Nd Pr _ Hb _ _ Hn _. destruct ts; [|discriminate].
    exists B, rho, ndb, []. split; [reflexivity|]. split; [exact I|]. split; [apply ext_refl|]. split; [exact M|].
    split; [intros; split; reflexivity|]. split; [intros nm pn; cbn; intuition|].
    split; [exact Hn|]. split; [auto|]. intros f [].
  - (* an attribute mapped with IS *)
    intros n D f v pn0 fs D' l G Nr Im0 Hpn _ IH fs0 fs1 b ts B rho ndb nd E I Rt M Nd Pr Fo Hb ND Sub Hn Un.
    inversion ND as [|? ? Nf ND']; subst. destruct ts as [|t ts]; [discriminate|]. injection E as Et E.
    apply erase_inv in Et as (s & ch & -> & _ & Ech). destruct ch as [|x [|y [|]]]; try discriminate. injection Ech as Ex Ey.
    apply erase_inv in Ex as (s1 & l1 & -> & Es1 & _). rewrite (Es1 eq_refl). cbn [fst snd] in *.
    apply erase_inv in Ey as (s2 & vs & -> & Es2 & _). rewrite (Es2 eq_refl).
    assert (If : In f fs0) by (apply Sub; left; reflexivity). destruct (Fo f If) as (f' & Ff & _).
    pose proof (bi_lt _ _ I _ _ Hb) as Lb. pose proof (bi_isk _ _ I) as Ik.
    set (B2 := add_is pn0 b (f_name f) B).
    destruct (IH fs0 fs1 b ts B2 rho ndb nd) as (B' & rho' & ndb' & new & Eb & I' & X & M' & Fr & Im & Nb & Keep & Ok1); auto.
    { eapply is_bi; eauto. }
    { intros g Hg. apply Sub. right. exact Hg. }
    { intros g Hg. apply Un. right. exact Hg. }
    exists B', rho', ndb', new. split; [|split; [exact I'|split; [|split; [exact M'|split; [|split; [|split; [exact Nb|split]]]]]]].
    + cbn [body]. unfold is_attr. rewrite Ff, (CIN _ _ _ Im0). cbn [bind]. exact Eb.
    + destruct X as [X1 X2 X3 X4 X5 X6]. split; auto.
    + intros m Hm Hmb. destruct (Fr m Hm Hmb) as (A1 & A2). split; [exact A1|]. intros nm pn. rewrite A2. unfold B2. rewrite imap_add by exact Ik.
      split; [intros [H|(H & _)]; [exact H|contradiction]|auto].
    + intros nm pn. rewrite Im. unfold B2. rewrite imap_add by exact Ik. cbn [map In]. split.
      * intros [[H|(_ & -> & ->)]|(H1 & H2)]; auto.
      * intros [H|([<-|H1] & H2)]; [auto| |auto]. left. right. split; [reflexivity|]. split; [reflexivity|]. congruence.
    + intros nm Hm. apply Keep. intros H. apply Hm. right. exact H.
    + intros g [->|Hg]; [|apply Ok1; exact Hg]. intros H. congruence.
  - (* an attribute left out *)
    intros n D f v fs D' l G Im0 Dr _ IH fs0 fs1 b ts B rho ndb nd E I Rt M Nd Pr Fo Hb ND Sub Hn Un.
    inversion ND as [|? ? Nf ND']; subst.
    destruct (IH fs0 fs1 b ts B rho ndb nd) as (B' & rho' & ndb' & new & Eb & I' & X & M' & Fr & Im & Nb & Keep & Ok1); auto.
    { intros g Hg. apply Sub. right. exact Hg. }
    { intros g Hg. apply Un. right. exact Hg. }
    exists B', rho', ndb', new. split; [exact Eb|]. split; [exact I'|]. split; [exact X|]. split; [exact M'|]. split; [exact Fr|].
    split. { intros nm pn. rewrite Im. cbn [map In]. split; [intros [H|(H1 & H2)]; auto|]. intros [H|([<-|H1] & H2)]; [auto|congruence|auto]. }
    split; [exact Nb|]. split; [intros nm Hm; apply Keep; intros H; apply Hm; right; exact H|].
    intros g [->|Hg]; [|apply Ok1; exact Hg]. intros _. exists v.
    assert (If : In g fs0) by (apply Sub; left; reflexivity).
    destruct (NODES _ _ Nd) as (fs2 & Pr1 & Vals). assert (fs2 = fs0) as -> by congruence.
    destruct (Vals g If) as (v1 & G1 & V). assert (v1 = v) as -> by congruence.
    destruct (WP _ _ Pr) as (_ & _ & _ & Dc). rewrite Forall_forall in Dc. destruct (Dc g If) as (_ & Dg).
    assert (Gd : fget P B' b g = default_of P g).
    { unfold fget. rewrite Nb, (Keep (f_name g) Nf), (Un g (or_introl eq_refl)). reflexivity. }
    pose proof Dr as Dr0. rewrite Gd. unfold default_of. unfold ok_value in V. unfold dropped in Dr. destruct (f_kind g) as [t d| |o], v as [v|r|l']; try contradiction.
    + destruct Dg as (_ & Od & w & Cw & _). rewrite Cw. exists (VPv w). split; [exact G|]. split; [reflexivity|]. split; [|right; exact Dr0]. constructor.
      eapply dropped_same; eauto; [apply V|]. destruct d; try exact Dr; discriminate.
    + discriminate.
    + destruct o, l'; try discriminate. exists (VRefs []). split; [exact G|]. split; [reflexivity|]. split; [|right; exact Dr0]. constructor. constructor.
  - (* an attribute *)
    intros n D f v D1 is fs D' l G Im0 Dr0 _ IHv _ IH fs0 fs1 b ts B rho ndb nd E I Rt M Nd Pr Fo Hb ND Sub Hn Un.
    inversion ND as [|? ? Nf ND']; subst. destruct ts as [|t ts]; [discriminate|]. injection E as Et E.
    apply erase_inv in Et as (s & ch & -> & _ & Ech). destruct ch as [|x [|y [|]]]; try discriminate. injection Ech as Ex Ey.
    apply erase_inv in Ex as (s1 & l1 & -> & Es1 & _). rewrite (Es1 eq_refl). cbn [fst snd] in *.
    apply erase_inv in Ey as (s2 & vs & -> & _ & Evs).
    destruct (IHv vs B rho Evs I Rt eq_refl) as (B1 & v' & rho1 & Ev & Bd & M1 & Sv).
    destruct Bd as (I1 & F1 & n1 & X1).
    assert (If : In f fs0) by (apply Sub; left; reflexivity). destruct (Fo f If) as (f' & Ff & Al).
    pose proof (bi_lt _ _ I _ _ Hb) as Lb.
    assert (Hb1 : s_node B1 b = Some ndb) by (rewrite (proj1 (F1 _ Lb)); exact Hn).
    assert (Rt1 : s_routes B1 = []) by (rewrite (ext_routes _ _ _ _ _ X1); exact Rt).
    destruct (assign_one rho1 B1 n b nd (n_gi nd) f f' v' I1 (ext_in _ _ _ _ _ _ X1 Hb) Nd eq_refl Rt1 (ASG _ _ _ _ _ Nd Pr If G Im0 Dr0) Al)
      as (B2 & Ea & Sb).
    destruct Sb as (Z1 & Z2 & Z3 & Z4 & Z5 & Z6). cbn [set_field s_next s_defs s_kids s_routes s_is s_node] in Z1, Z2, Z3, Z4, Z5, Z6.
    assert (I2 : bi rho1 B2) by (eapply same_but_bi; [|apply (set_bi rho1 B1 b (f_name f) v' I1)]; repeat split; auto).
    assert (Zi : forall m nm pn, imap B2 m nm pn <-> imap B1 m nm pn) by (intros; unfold imap; rewrite Z5; reflexivity).
    assert (Hb2 : s_node B2 b = Some (mksn (n_gi ndb) (dset text_eqb (n_vals ndb) (f_name f) v') (n_mem ndb))).
    { rewrite Z6, Nat.eqb_refl, Hb1. reflexivity. }
    destruct (IH fs0 fs1 b ts B2 rho1 (mksn (n_gi ndb) (dset text_eqb (n_vals ndb) (f_name f) v') (n_mem ndb)) nd)
      as (B' & rho' & ndb' & new & Eb & I' & X & M' & Fr & Im & Nb & Keep & Ok1); auto.
    { congruence. }
    { eapply ext_in; eauto. }
    { intros g Hg. apply Sub. right. exact Hg. }
    { intros g Hg. cbn [n_vals]. rewrite (dget_dset_other text_eqb text_eqb_spec); [apply Un; right; exact Hg|].
      intros Q. apply Nf. rewrite Q. apply in_map. exact Hg. }
    assert (X12 : ext rho B rho1 B2 n1).
    { destruct X1 as [A1 A2 A3 A4 A5 A6]. split; try congruence; try lia; auto. rewrite Forall_forall in *. intros [a x] Hp.
      specialize (A5 _ Hp). cbn in A5. apply (node_ok_mono rho1 B1); [auto| | |apply A6; exact Hp].
      - cbn [snd]. rewrite Z6. assert (x =? b = false) as -> by (apply Nat.eqb_neq; lia). reflexivity.
      - cbn [snd]. intros nm pn. apply Zi. }
    assert (Fr2 : forall m, m < s_next B1 -> m <> b -> s_node B' m = s_node B1 m /\ forall nm pn, imap B' m nm pn <-> imap B1 m nm pn).
    { intros m Hm Hmb. destruct (Fr m) as (A1 & A2); auto; [lia|]. split.
      - rewrite A1, Z6. assert (m =? b = false) as -> by (apply Nat.eqb_neq; auto). reflexivity.
      - intros nm pn. rewrite A2. apply Zi. }
    exists B', rho', ndb', (new ++ n1). split; [|split; [exact I'|split; [|split; [exact M'|split; [|split; [|split; [exact Nb|split]]]]]]].
    + cbn [body]. rewrite Ff, <- (build_value_alike f f' vs B Al), Ev. cbn [bind fst snd]. rewrite Ea. cbn [bind]. exact Eb.
    + destruct X12 as [A1 A2 A3 A4 A5 A6], X as [C1 C2 C3 C4 C5 C6]. split; try congruence; try lia.
      * rewrite C1, A1, app_assoc. reflexivity.
      * apply Forall_app. split; [|exact A5]. eapply Forall_impl; [|exact C5]. cbn. intros; cbn in A2; lia.
      * apply Forall_app. split; [exact C6|]. rewrite Forall_forall in *. intros [a x] Hp.
        specialize (A5 _ Hp). cbn in A5.
        assert (Lx : x < s_next B2). { rewrite Z1. apply (bi_lt _ _ I1 a). rewrite A1. apply in_or_app. auto. }
        destruct (Fr x Lx) as (Y1 & Y2); [lia|]. apply (node_ok_mono rho1 B2); [| | |apply A6; exact Hp].
        { intros z Hz. rewrite C1. apply in_or_app. auto. }
        { exact Y1. }
        { exact Y2. }
    + intros m Hm Hmb. pose proof (ext_next _ _ _ _ _ X1). destruct (Fr2 m) as (A1 & A2); auto; [lia|]. destruct (F1 m Hm) as (C1 & C2).
      split; [congruence|]. intros nm pn. rewrite A2. apply C2.
    + intros nm pn. rewrite Im, Zi, (proj2 (F1 b Lb)). cbn [map In]. split; [intros [H|(H1 & H2)]; auto|].
      intros [H|([<-|H1] & H2)]; [auto|congruence|auto].
    + intros nm Hm. rewrite Keep; [|intros H; apply Hm; right; exact H]. cbn [n_vals].
      apply (dget_dset_other text_eqb text_eqb_spec). intros Q. apply Hm. left. exact Q.
    + intros g [->|Hg]; [|apply Ok1; exact Hg]. intros _. exists v, v'. split; [exact G|]. split.
      * unfold fget. rewrite Nb, (Keep _ Nf). cbn [n_vals]. rewrite (dget_dset_same text_eqb text_eqb_spec). reflexivity.
      * assert (Sv' : equal_val (Rho rho') v v') by (eapply equal_val_mono; [|exact Sv]; intros a x Hac; eapply ext_in; eauto).
        split; [apply equal_same; exact Sv'|left; exact Sv'].
  - (* a value *)
    intros D f t d v its K Pl Rv ts B rho E I _ M. exists B, (VPv v), rho. split; [|split; [apply builds_refl; exact I|split; [exact M|]]].
    + unfold build_value. rewrite K. destruct ts as [|x ts]; [rewrite (Rv [] E); reflexivity|].
      assert (node_entry x = false) as ->; [|rewrite (Rv _ E); reflexivity].
      destruct its as [|i its]; [discriminate|]. injection E as Ex _. cbn in Pl. apply andb_true_iff in Pl as [Pi _].
      destruct x as [tag s c0]. destruct i; try discriminate; injection Ex as -> _ _; reflexivity.
    + constructor.
  - (* a node *)
    intros D f r D' i K Wr IH ts B rho E I Rt M. destruct ts as [|x [|]]; try discriminate. injection E as Ex.
    destruct (IH x B rho Ex I Rt M) as (B' & r' & rho' & Eb & Bd & M' & Sr). exists B', (VRef r'), rho'.
    split; [|split; [exact Bd|split; [exact M'|constructor; exact Sr]]].
    assert (node_entry x = true) as Ne.
    { destruct x as [tag s c0]. inversion Wr; subst; injection Ex as -> _ _; reflexivity. }
    unfold build_value. rewrite Ne, K. cbn [items]. rewrite Eb. reflexivity.
  - (* nodes *)
    intros D f o l D' is K Wr IH ts B rho E I Rt M.
    destruct (IH ts B rho E I Rt M) as (B' & l' & rho' & Eb & Bd & M' & Sr). exists B', (VRefs l'), rho'.
    split; [|split; [exact Bd|split; [exact M'|constructor; exact Sr]]].
    unfold build_value. rewrite K. destruct ts as [|x ts].
    + cbn [items] in Eb. injection Eb as <- <-. reflexivity.
    + assert (node_entry x = true) as ->; [|rewrite Eb; reflexivity].
      inversion Wr as [|? ? ? i ? ? is' Wr1 Wr2]; subst; [discriminate|]. injection E as Ex _. destruct x as [tag s c0].
      inversion Wr1; subst; injection Ex as -> _ _; reflexivity.
Qed.
End Rebuild.
