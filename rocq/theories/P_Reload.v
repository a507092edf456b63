(** C71: loading a file, saving the scene and loading that again. *)
From Coq Require Import Reals SpecFloat.
From Flocq Require Import Core.Core IEEE754.BinarySingleNaN.
From Verif Require Import Base Text PyDict PyDict_Proofs Float Coerce_Model Coerce_Spec Grammar_Model Grammar_Proofs Lex_Spec Lex_Proofs
  Doc_Spec Doc_Proofs SceneGraph_Model VrmlStr_Model VrmlStr_Spec VrmlStr_Values Scene_Model Scene_Spec Linearise_Model Build_Model
  Reading_Spec Reading_Proofs Reading_Facts Closed_Spec Closed_Proofs Reload FloatStr StdNodes Std_Proofs P_VrmlStr P_Grammar P_Linearise P_Scene P_Reading.
Local Open Scope nat_scope.
Local Open Scope list_scope.
Notation RNode := Scene_Model.RNode.

(** no two nodes have the same DEF name *)
Definition own_names (S : scene) : Prop :=
  forall n m, node_def S n <> [] -> node_def S n = node_def S m -> n = m.
(** what the writer does not garble: numbers are finite, lists of strings are
    empty or the default, no NULL in a list of nodes *)
Definition plain_values (protos : list (text * list fdecl)) (S : scene) : Prop :=
  forall n nd fs f v, s_node S n = Some nd -> proto protos (n_gi nd) = Some fs -> In f fs ->
    dget text_eqb (n_vals nd) (f_name f) = Some v ->
    match f_kind f, v with
    | KVal t d, VPv u => finite u /\ (t = MFString -> u = PSeq KList [] \/ u = d)
    | KNodes _, VRefs l => ~ In RNull l
    | _, _ => True
    end.

(** *** counting references *)
Definition key_is (k : nat * text) (x : nat * text * val) : bool := (fst (fst x) =? fst k) && text_eqb (snd (fst x)) (snd k).
Definition refs_at (L : list (nat * text * val)) (k : nat * text) : list nat :=
  match find (key_is k) L with Some x => ref_ids (snd x) | None => [] end.
Definition refs_in (L : list (nat * text * val)) : list nat := flat_map (fun x => ref_ids (snd x)) L.
Lemma key_same k x : key_is k x = true -> fst x = k.
Proof.
  unfold key_is. intros H. apply andb_true_iff in H as [A B]. apply Nat.eqb_eq in A. apply text_eqb_spec in B. destruct x as [[a b] c], k. cbn in *. congruence.
Qed.
Lemma refs_split L k n : cnt (refs_in L) n = cnt (refs_in (filter (key_is k) L)) n + cnt (refs_in (filter (fun x => negb (key_is k x)) L)) n.
Proof.
  induction L as [|x L IH]; [reflexivity|]. cbn [filter refs_in flat_map]. destruct (key_is k x); cbn [negb refs_in flat_map]; rewrite !cnt_app; unfold refs_in in *; lia.
Qed.
Lemma refs_first L k n : cnt (refs_at L k) n <= cnt (refs_in (filter (key_is k) L)) n.
Proof.
  unfold refs_at. induction L as [|x L IH]; [cbn; lia|]. cbn [find filter]. destruct (key_is k x); [|exact IH].
  cbn [refs_in flat_map]. rewrite cnt_app. lia.
Qed.
Lemma refs_other L k k' : k <> k' -> refs_at (filter (fun x => negb (key_is k x)) L) k' = refs_at L k'.
Proof.
  intros Ne. unfold refs_at. replace (find (key_is k') (filter _ L)) with (find (key_is k') L); [reflexivity|].
  induction L as [|x L IH]; [reflexivity|]. cbn [find filter]. destruct (key_is k x) eqn:E; cbn [negb].
  - destruct (key_is k' x) eqn:E'; [|exact IH]. apply key_same in E, E'. congruence.
  - cbn [find]. destruct (key_is k' x); [reflexivity|exact IH].
Qed.
Lemma refs_sum n K : forall L, NoDup K -> cnt (flat_map (refs_at L) K) n <= cnt (refs_in L) n.
Proof.
  induction K as [|k K IH]; intros L Nd; [cbn; lia|]. inversion Nd as [|? ? Nk Nd']; subst. cbn [flat_map]. rewrite cnt_app, (refs_split L k n).
  pose proof (refs_first L k n) as H1. specialize (IH (filter (fun x => negb (key_is k x)) L) Nd').
  replace (flat_map (refs_at L) K) with (flat_map (refs_at (filter (fun x => negb (key_is k x)) L)) K); [lia|].
  clear - Nk. induction K as [|k' K IH]; [reflexivity|]. cbn [flat_map]. rewrite refs_other, IH; [reflexivity| |]; intros H; apply Nk; [right; exact H|left; congruence].
Qed.
Lemma keys_nodup (h : nat -> list text) l : NoDup l -> (forall m, NoDup (h m)) -> NoDup (flat_map (fun m => map (fun f => (m, f)) (h m)) l).
Proof.
  intros Nl Nh. induction Nl as [|m l Hm Nl IH]; [constructor|]. cbn [flat_map].
  assert (Q : forall x, In x (flat_map (fun m => map (fun f => (m, f)) (h m)) l) -> fst x <> m).
  { intros x Hx E. apply in_flat_map in Hx as (m' & Hm' & Hx). apply in_map_iff in Hx as (f & <- & _). cbn in E. subst. contradiction. }
  specialize (Nh m). induction Nh as [|f k Hf Nk IHk]; [exact IH|]. cbn [map app]. constructor; [|exact IHk].
  intros H. apply in_app_iff in H as [H|H].
  - apply in_map_iff in H as (g & E & Hg). injection E as ->. contradiction.
  - exact (Q _ H eq_refl).
Qed.

Section Written.
Variable P : prims.
Variable base : list (text * list fdecl).
Hypothesis SP : sane P.
Hypothesis WP : wf_protos P base.
Hypothesis DP : Forall (fun p => Forall plain_default (snd p)) base.
Variable st : rstate.
Variable S0 : scene.
Hypothesis H : describes st S0.
Hypothesis C : closed base S0.
Hypothesis NS : forall n nd, s_node S0 n = Some nd -> n_gi nd <> script_gi.
Lemma fields_at n nd : s_node S0 n = Some nd -> exists fs, proto base (n_gi nd) = Some fs /\
  forall nm v, dget text_eqb (n_vals nd) nm = Some v -> exists f, In f fs /\ f_name f = nm /\ fits S0 f v.
Proof.
  intros Nd. destruct (cl_nodes _ _ C n nd Nd) as (fs & F & V). exists fs. split; [|exact V]. unfold node_fields in F.
  destruct (text_eqb (n_gi nd) script_gi) eqn:E; [apply text_eqb_spec in E; destruct (NS n nd Nd E)|exact F].
Qed.

Lemma node_is n nd : s_node S0 n = Some nd -> exists d, nth_error (r_nodes st) n = Some (n_gi nd, d) /\ node_def S0 n = d /\
  forall nm, dget text_eqb (n_vals nd) nm = value_set st n nm.
Proof.
  intros Nd. destruct (nth_error (r_nodes st) n) as [[gi d]|] eqn:E.
  - destruct (ds_node _ _ H n gi d E) as (nd' & Nd' & G & D & V & _). assert (nd' = nd) as -> by congruence. exists d. subst gi. auto.
  - apply nth_error_None in E. destruct (ds_none _ _ H n E). congruence.
Qed.
Lemma value_refs n f : value_set st n f = None -> refs_at (r_sets st) (n, f) = [].
Proof.
  unfold value_set, refs_at, key_is. cbn [fst snd]. destruct (find _ (r_sets st)); [discriminate|reflexivity].
Qed.
Lemma value_refs_some n f v : value_set st n f = Some v -> refs_at (r_sets st) (n, f) = ref_ids v.
Proof.
  unfold value_set, refs_at, key_is. cbn [fst snd]. destruct (find _ (r_sets st)) as [x|]; [|discriminate]. intros E. injection E as <-. reflexivity.
Qed.
Lemma field_refs n nd f : s_node S0 n = Some nd ->
  match fget P S0 n f with Ok v => ref_ids v | Exc _ => [] end = refs_at (r_sets st) (n, f_name f).
Proof.
  intros Nd. destruct (node_is n nd Nd) as (d & _ & _ & V). unfold fget. rewrite Nd, V. destruct (value_set st n (f_name f)) as [v|] eqn:E.
  - symmetry. apply value_refs_some. exact E.
  - rewrite (value_refs _ _ E). unfold default_of. destruct (f_kind f) as [t d'| |o]; [|reflexivity|reflexivity].
    destruct (coerce P t d'); reflexivity.
Qed.
Definition names_at (n : nat) : list text :=
  match s_node S0 n with
  | None => []
  | Some nd => match proto base (n_gi nd) with None => [] | Some fs => map f_name fs end
  end.
Lemma names_at_nodup n : NoDup (names_at n).
Proof.
  unfold names_at. destruct (s_node S0 n) as [nd|]; [|constructor]. destruct (proto base (n_gi nd)) as [fs|] eqn:E; [|constructor]. exact (proj1 (proj2 (proj2 (WP _ _ E)))).
Qed.
Lemma node_refs_at n : node_refs P base S0 n = flat_map (refs_at (r_sets st)) (map (fun f => (n, f)) (names_at n)).
Proof.
  unfold node_refs, names_at. destruct (s_node S0 n) as [nd|] eqn:Nd; [|reflexivity]. destruct (proto base (n_gi nd)) as [fs|]; [|reflexivity].
  induction fs as [|f fs IH]; [reflexivity|]. cbn [map flat_map]. rewrite IH, (field_refs n nd f Nd). reflexivity.
Qed.
Lemma all_refs_le n : count_occ Nat.eq_dec (all_refs P base S0) n <= cnt (sets_refs st) n.
Proof.
  unfold all_refs, sets_refs. fold (cnt (ref_ids (VRefs (s_kids S0)) ++ flat_map (node_refs P base S0) (seq 0 (s_next S0))) n). rewrite !cnt_app, (ds_kids _ _ H).
  assert (Q : cnt (flat_map (node_refs P base S0) (seq 0 (s_next S0))) n <= cnt (refs_in (r_sets st)) n); [|unfold refs_in in Q; lia].
  rewrite <- (refs_sum n (flat_map (fun m => map (fun f => (m, f)) (names_at m)) (seq 0 (s_next S0))) (r_sets st)).
  - apply Nat.eq_le_incl. f_equal. induction (seq 0 (s_next S0)) as [|m l IH]; [reflexivity|]. cbn [flat_map]. rewrite flat_map_app, IH, node_refs_at. reflexivity.
  - apply keys_nodup; [apply seq_NoDup|apply names_at_nodup].
Qed.
Lemma path_reach m n : path st m n -> reach P base S0 m -> reach P base S0 n.
Proof.
  intros Pa. induction Pa as [|m f v x n V Ix Pa IH]; [auto|]. intros R. apply IH. apply reach_field with (m := m); [exact R|].
  assert (E : exists nd, s_node S0 m = Some nd).
  { destruct (nth_error (r_nodes st) m) as [[gi d]|] eqn:E; [destruct (ds_node _ _ H m gi d E) as (nd & Nd & _); eauto|].
    destruct R as [m Hk|m' m R Hx]; [|].
    - pose proof (cl_kids _ _ C) as K. rewrite Forall_forall in K. exact (K _ Hk).
    - unfold node_refs in Hx. destruct (s_node S0 m') as [nd'|] eqn:Nd'; [|destruct Hx]. destruct (fields_at m' nd' Nd') as (fs & Pr & F). rewrite Pr in Hx.
      apply in_flat_map in Hx as (g & Hg & Hx). unfold fget in Hx. rewrite Nd' in Hx. destruct (dget text_eqb (n_vals nd') (f_name g)) as [w|] eqn:G.
      + destruct (F _ _ G) as (g' & Hg' & En & Fi). unfold fits in Fi. destruct (f_kind g'), w as [u|[|y]|l]; try contradiction; cbn [ref_ids] in Hx; try (destruct Hx; fail).
        * destruct Hx as [<-|[]]. exact Fi.
        * apply in_flat_map in Hx as ([|y] & Hy & Hx); [destruct Hx|]. destruct Hx as [<-|[]]. rewrite Forall_forall in Fi. exact (Fi _ Hy).
      + unfold default_of in Hx. destruct (f_kind g); [destruct (coerce P t d)| |]; destruct Hx. }
  destruct E as (nd & Nd). destruct (fields_at m nd Nd) as (fs & Pr & F). destruct (node_is m nd Nd) as (d & _ & _ & Vs). 
  destruct (F f v) as (g & Hg & <- & _); [rewrite Vs; exact V|]. unfold node_refs. rewrite Nd, Pr. apply in_flat_map. exists g. split; [exact Hg|].
  unfold fget. rewrite Nd, Vs, V. exact Ix.
Qed.

Lemma read_scene_wf l : whole rs0 st l -> Forall attrs_once_root l -> s_kids S0 <> [] -> own_names S0 -> plain_values base S0 -> wf_scene P base S0.
Proof.
  intros (N & _ & B & Cn & (ks & Ks & Kn) & Rt & F) O K0 Ow Pl. destruct (F O) as (_ & G).
  assert (In' : forall n, n < r_next st -> exists nd, s_node S0 n = Some nd).
  { intros n Hn. apply (cl_ids _ _ C). rewrite (ds_next _ _ H). exact Hn. }
  assert (Re : forall n, n < r_next st -> reach P base S0 n).
  { intros n Hn. destruct (G n) as (x & Hx & Px); [unfold r_next; cbn; unfold r_next in Hn; lia|]. eapply path_reach; [exact Px|]. apply reach_kid. rewrite (ds_kids _ _ H). exact Hx. }
  split.
  - intros n nd Nd. apply (cl_ids _ _ C). exists nd. exact Nd.
  - split; [exact K0|]. pose proof (cl_kids _ _ C) as Q. rewrite (ds_kids _ _ H) in *. cbn in Ks. rewrite Ks in Q |- *. rewrite Forall_forall in *. intros r Hr.
    specialize (Q r Hr). destruct r; [contradiction|exact Q].
  - apply (set_fields_ok P base S0 SP WP DP). intros n nd Nd. destruct (fields_at n nd Nd) as (fs & Pr & V). exists fs. split; [exact Pr|].
    intros f v Hf E. pose proof (Pl n nd fs f v Nd Pr Hf E) as Q. destruct (V _ _ E) as (g & Hg & En & Fi).
    assert (g = f) as ->.
    { pose proof (proj1 (proj2 (proj2 (WP _ _ Pr)))) as Nf. clear - Nf Hg Hf En. induction fs as [|x fs IH]; [destruct Hf|]. inversion Nf as [|? ? Nx Nf']; subst.
      destruct Hg as [->|Hg], Hf as [->|Hf]; auto; exfalso; apply Nx; [rewrite En|rewrite <- En]; apply in_map; assumption. }
    unfold fits, ok_value in *. destruct (f_kind f), v as [u|r|rs]; try contradiction.
    + destruct Q. auto.
    + destruct r; [left; reflexivity|right; exact Fi].
    + rewrite Forall_forall in *. intros r Hr. specialize (Fi r Hr). destruct r; [contradiction|exact Fi].
  - intros n nd Nd Dn. destruct (node_is n nd Nd) as (d & Nt & Ed & _). rewrite Ed in Dn. destruct (proj2 N n _ _ Nt Dn) as (Nm & Inn). split; [rewrite Ed; exact Nm|].
    rewrite (ds_names _ _ H) by (rewrite Ed; exact Dn). rewrite Ed. unfold named_node.
    destruct (dget text_eqb (r_names st) d) as [m|] eqn:E.
    + f_equal. apply (dget_In text_eqb text_eqb_spec) in E. destruct (proj1 N _ _ E) as (g & Q). destruct (ds_node _ _ H m g d Q) as (_ & _ & _ & Dm & _).
      symmetry. apply Ow; [rewrite Ed; exact Dn|congruence].
    + exfalso. clear - E Inn. induction (r_names st) as [|[k x] l IH]; [destruct Inn|]. cbn in E. destruct (text_eqb k d) eqn:Q; [discriminate|]. destruct Inn as [I|I]; [|auto].
      injection I as -> ->. rewrite text_eqb_refl in Q. discriminate.
  - exact (cl_table _ _ C).
  - intros n. destruct (node_def S0 n) as [|x y] eqn:Dn; [left|right; left; discriminate].
    assert (U : unnamed st n). { intros gi nm E. destruct (ds_node _ _ H n gi nm E) as (_ & _ & _ & D & _). congruence. }
    specialize (Cn n U). pose proof (all_refs_le n) as Q. unfold between in Cn. cbn [sets_refs rs0 r_sets r_kids flat_map app cnt ref_ids count_occ] in Cn.
    change (cnt (sets_refs rs0) n) with 0 in Cn. destruct (_ && _); lia.
  - intros r Hr. rewrite (ds_routes _ _ H) in Hr. destruct (Rt r Hr) as [[]|(A & A' & L1 & L2)]. auto.
Qed.
End Written.

Lemma loaded_wf P base d tab S0 : sane P -> wf_protos P base -> Forall (fun p => Forall plain_default (snd p)) base ->
  ok_doc d -> tidy_doc d -> forallb no_proto (sk_doc d) = true -> forallb no_scripts (sk_doc d) = true -> Forall attrs_once_root (sk_doc d) ->
  loads P base (show_doc d) (Ok (tab, S0)) -> s_kids S0 <> [] -> own_names S0 -> plain_values base S0 -> wf_scene P base S0.
Proof.
  intros SP WP DP Okd Ti Np Ns Once L K Ow Pl.
  destruct (C66_reading_is_faithful P base d tab S0 Okd Ti L) as (st & R & H).
  destruct (C69_no_dangling_references P base _ tab S0 SP L) as (_ & C).
  assert (Hr : forallb real_root (sk_doc d) = true) by (destruct d as [h w l]; destruct Okd as (_ & _ & Q & _); exact (roots_real l _ Q)).
  destruct (roots_whole P base (sk_doc d) rs0 _ R Np Ns Hr) as (E & W).
  { split; [intros nm m []|]. intros m gi nm Q. destruct m; discriminate. }
  { constructor. }
  cbn [fst snd] in *. subst tab.
  assert (NS : forall n nd, s_node S0 n = Some nd -> n_gi nd <> script_gi).
  { assert (NB : proto base script_gi = None).
    { destruct (proto base script_gi) as [fs|] eqn:Q; [|reflexivity]. destruct (WP _ _ Q) as (Sn & _). vm_compute in Sn. discriminate Sn. }
    pose proof (roots_no_scr P base NB _ _ _ R Np Ns (Forall_nil _)) as F. cbn [snd] in F. intros n nd Nd.
    destruct (node_is st S0 H n nd Nd) as (x & Nt & _). apply nth_error_In in Nt. unfold no_scr in F. rewrite Forall_forall in F. exact (F _ Nt). }
  exact (read_scene_wf P base SP WP DP st S0 H C NS _ W Once K Ow Pl).
Qed.
(** C71.  A document without PROTOs and Scripts is read; no two nodes have the same name, and
    no attribute is given twice.  If the values are such as the writer can
    write, then saving the scene gives a file that is read as the same scene. *)
Theorem C71_load_save_load : forall P fstr base ws d tab S0, sane P -> wf_protos P base ->
  Forall (fun p => Forall plain_default (snd p)) base -> ok_settings ws -> faithful fstr ->
  ok_doc d -> tidy_doc d -> forallb no_proto (sk_doc d) = true -> forallb no_scripts (sk_doc d) = true -> Forall attrs_once_root (sk_doc d) ->
  loads P base (show_doc d) (Ok (tab, S0)) -> s_kids S0 <> [] -> own_names S0 -> plain_values base S0 ->
  exists t S', linearise P fstr base ws S0 = Some t /\ loads P base t (Ok ([], S')) /\ same_scene P base S0 S'.
Proof.
  intros P fstr base ws d tab S0 SP WP DP WS Fa Okd Ti Np Ns Once L K Ow Pl.
  pose proof (loaded_wf P base d tab S0 SP WP DP Okd Ti Np Ns Once L K Ow Pl) as Wf.
  destruct (C27_written_scene_reads_back P fstr base ws S0 WP Wf WS Fa) as (t & c & trees & S' & El & Pa & Bu & Sa).
  exists t, S'. split; [exact El|]. split; [exists c, trees; auto|exact Sa].
Qed.
Print Assumptions C71_load_save_load.

(** *** a case: DEF, USE, a route, a comment, a list of vectors, commas *)
Definition two (a b : text) : items := SCons (INum a) (lit " ") (SCons (INum b) (lit " ") SNil).
Definition world : doc := Doc (lit "#VRML V2.0 utf8") (10%N :: lit " ,#c" ++ [10%N])
  (RCons (Doc_Spec.RNode (Nd (Some (lit " ", lit "T", lit " ")) (lit "Transform") (lit " ") (lit " ")
     (ACons (lit "children") (lit " ") (FBr (lit " ")
        (SCons (INode (Nd (Some (lit " ", lit "C", lit " ")) (lit "Cone") (lit " ") (lit " ")
           (ACons (lit "height") (lit " ") (FPl (SCons (INum (lit "3")) (lit " ") SNil)) ANil))) (lit " ,")
        (SCons (IUse (lit " ") (lit "C")) (lit " ")
        (SCons (INode (Nd None (lit "Shape") (lit " ") (lit " ")
           (ACons (lit "geometry") (lit " ") (FPl (SCons (INode (Nd None (lit "Box") [] [] ANil)) (lit " ") SNil)) ANil))) [] SNil))) (lit " "))
     (ACons (lit "scale") (lit " ") (FPl (SCons (INum (lit "1")) (lit " ") (two (lit "2") (lit "3")))) ANil)))) (lit " ")
  (RCons (Doc_Spec.RNode (Nd (Some (lit " ", lit "S", lit " ")) (lit "TimeSensor") (lit " ") (lit " ") ANil)) (lit " ")
  (RCons (RRoute (lit " ") (lit "S") (lit "fraction_changed") (lit " ") (lit " ") (lit "C") (lit "set_height")) (lit " ")
  (RCons (RUse (lit " ") (lit "T")) (lit " ") RNil)))).
Definition file_on (base : list (text * list fdecl)) (s : text) : res file :=
  match run 300 (rule G_vrmlFile) s with
  | Some (POk _ [] trees) => build_file P_ex base trees
  | _ => Exc OtherError
  end.
Lemma file_on_loads base s f : file_on base s = Ok f -> loads P_ex base s (Ok f).
Proof.
  unfold file_on. intros H. destruct (run 300 (rule G_vrmlFile) s) as [[c [|] l| |]|] eqn:E; try discriminate.
  exists c, l. split; [exists 300; exact E|exact H].
Qed.
Lemma world_ok : ok_doc world.
Proof.
  cbn [ok_doc world]. split; [dnin|]. split; [cbn; dsep|]. split; [|eauto].
  cbn -[ok_type is_name safe_name]. repeat split; try discriminate; try reflexivity; try dsep;
      try (left; eexists; split; reflexivity).
  all: try (apply (num_plain [] (lit "1")); reflexivity).
  all: try (apply (num_plain [] (lit "2")); reflexivity).
  all: try (apply (num_plain [] (lit "3")); reflexivity).
  all: try (repeat constructor; dsep).
Qed.
Lemma world_once : Forall attrs_once_root (sk_doc world).
Proof.
  cbn. repeat (constructor; [cbn; repeat split; repeat constructor; cbn; try (intros X; intuition discriminate)|]). constructor.
Qed.
(** the conditions on the scene can be computed *)
Definition finiteb (v : pv) : bool :=
  match v with
  | PFloat f => is_finite_SF f
  | PArr a => forallb (fun x => match x with NF f => is_finite_SF f | NZ _ => true end) (a_data a)
  | _ => true
  end.
Lemma finiteb_ok v : finiteb v = true -> finite v.
Proof.
  destruct v; cbn; auto. intros H. rewrite forallb_forall in H. apply Forall_forall. intros x Hx. specialize (H x Hx). destruct x; [exact Logic.I|exact H].
Qed.
Definition plainb (protos : list (text * list fdecl)) (S0 : scene) : bool :=
  forallb (fun n => match s_node S0 n with
    | None => true
    | Some nd => match proto protos (n_gi nd) with
      | None => true
      | Some fs => forallb (fun f => match dget text_eqb (n_vals nd) (f_name f), f_kind f with
          | Some (VPv u), KVal t _ => finiteb u && match t with MFString => false | _ => true end
          | Some (VRefs l), KNodes _ => forallb (fun r => match r with RNull => false | _ => true end) l
          | _, _ => true
          end) fs
      end
    end) (seq 0 (s_next S0)).
Lemma plainb_ok protos S0 : (forall n nd, s_node S0 n = Some nd -> n < s_next S0) -> plainb protos S0 = true -> plain_values protos S0.
Proof.
  intros I H n nd fs f v Nd Pr Hf E. unfold plainb in H. rewrite forallb_forall in H. specialize (H n). rewrite Nd, Pr, in_seq in H.
  specialize (I n nd Nd). assert (Q : 0 <= n < 0 + s_next S0) by lia. specialize (H Q). rewrite forallb_forall in H. specialize (H f Hf). rewrite E in H.
  destruct (f_kind f) as [t d| |o], v as [u|r|l]; try exact Logic.I.
  - apply andb_true_iff in H as [H1 H2]. split; [apply finiteb_ok; exact H1|]. intros ->. discriminate.
  - intros X. rewrite forallb_forall in H. specialize (H _ X). discriminate.
Qed.
Definition ownb (S0 : scene) : bool :=
  nodupb (filter (fun x => match x with [] => false | _ => true end) (map (node_def S0) (seq 0 (s_next S0)))).
Lemma ownb_ok S0 : (forall n, node_def S0 n <> [] -> n < s_next S0) -> ownb S0 = true -> own_names S0.
Proof.
  intros I H n m Dn E. unfold ownb in H. apply nodupb_ok in H. assert (Dm : node_def S0 m <> []) by congruence. pose proof (I n Dn) as Ln. pose proof (I m Dm) as Lm.
  assert (Q : forall l a, NoDup (filter (fun x => match x with [] => false | _ => true end) (map (node_def S0) l)) -> In n l -> In m l -> n <> m -> NoDup l -> a = false).
  { clear - Dn Dm E. induction l as [|x l IH]; intros a Nd Hn Hm Ne Nl; [destruct Hn|]. cbn [map filter] in Nd. inversion Nl as [|? ? Nx Nl']; subst.
    assert (K : forall k, node_def S0 k <> [] -> In k l -> In (node_def S0 k) (filter (fun x => match x with [] => false | _ => true end) (map (node_def S0) l))).
    { intros k Dk Hk. apply filter_In. split; [apply in_map; exact Hk|]. destruct (node_def S0 k); [contradiction|reflexivity]. }
    destruct Hn as [->|Hn], Hm as [->|Hm]; try contradiction.
    - exfalso. pose proof (K m Dm Hm) as X. rewrite <- E in X. destruct (node_def S0 n); [contradiction|]. inversion Nd; subst. contradiction.
    - exfalso. pose proof (K n Dn Hn) as X. rewrite E in X. destruct (node_def S0 m); [contradiction|]. inversion Nd; subst. contradiction.
    - apply IH; auto. destruct (node_def S0 x); [exact Nd|]. inversion Nd; subst; assumption. }
  destruct (Nat.eq_dec n m) as [Eq|Ne]; [exact Eq|]. specialize (Q (seq 0 (s_next S0)) true H).
  discriminate Q; [apply in_seq; lia|apply in_seq; lia|exact Ne|apply seq_NoDup].
Qed.
Lemma world_fine : exists S0, loads P_ex std_but_font (show_doc world) (Ok ([], S0)) /\ own_names S0 /\ plain_values std_but_font S0 /\
  s_next S0 = 5 /\ s_kids S0 = [RNode 0; RNode 4; RNode 0].
Proof.
  destruct (file_on std_but_font (show_doc world)) as [[tab S0]|] eqn:E; [|exfalso; apply (f_equal (fun r => match r with Ok _ => true | _ => false end)) in E; vm_compute in E; discriminate E].
  pose proof (file_on_loads _ _ _ E) as L. destruct (C69_no_dangling_references _ _ _ _ _ sane_ex L) as (_ & C).
  assert (V : match file_on std_but_font (show_doc world) with Base.Ok (tab, S0) => Some (List.length tab, s_next S0, s_kids S0, plainb std_but_font S0, ownb S0) | _ => None end
    = Some (0, 5, [RNode 0; RNode 4; RNode 0], true, true)) by (vm_compute; reflexivity).
  rewrite E in V. assert (V0 : List.length tab = 0) by congruence. assert (V1 : s_next S0 = 5) by congruence.
  assert (V2 : s_kids S0 = [RNode 0; RNode 4; RNode 0]) by congruence. assert (V3 : plainb std_but_font S0 = true) by congruence. assert (V4 : ownb S0 = true) by congruence.
  destruct tab; [|discriminate V0]. clear V. exists S0. split; [exact L|]. split; [|split; [|split; [exact V1|exact V2]]].
  - apply ownb_ok; [|exact V4]. intros n Dn. destruct (cl_last _ _ C n Dn) as (m & G & Le).
    assert (Q : node_in S0 m) by (apply (cl_names _ _ C _ _ Dn G)). apply (cl_ids _ _ C) in Q. lia.
  - apply plainb_ok; [|exact V3]. intros n nd Nd. apply (cl_ids _ _ C). exists nd. exact Nd.
Qed.
Example world_saved : exists S0 t S', loads P_ex std_but_font (show_doc world) (Ok ([], S0)) /\ s_next S0 = 5 /\ s_kids S0 = [RNode 0; RNode 4; RNode 0] /\
  linearise P_ex exact_str std_but_font set_defaults S0 = Some t /\ loads P_ex std_but_font t (Ok ([], S')) /\ same_scene P_ex std_but_font S0 S'.
Proof.
  destruct world_fine as (S0 & L & Ow & Pl & V1 & V2).
  destruct (C71_load_save_load P_ex exact_str std_but_font set_defaults world [] S0) as (t & S' & A & B & D); auto.
  - exact sane_ex.
  - apply std_wf.
  - exact (Forall_filter _ _ _ std_plain).
  - exact st_default.
  - exact exact_faithful.
  - exact world_ok.
  - reflexivity.
  - exact world_once.
  - congruence.
  - exists S0, t, S'. repeat (split; [assumption|]). exact D.
Qed.
