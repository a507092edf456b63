(** C72: equal scenes are written as the same text; saving again changes nothing. *)
From Coq Require Import Reals SpecFloat.
From Flocq Require Import Core.Core IEEE754.BinarySingleNaN.
From Verif Require Import Base Text PyDict PyDict_Proofs Float Coerce_Model Coerce_Spec Grammar_Model Grammar_Proofs Lex_Spec Lex_Proofs
  Doc_Spec Doc_Proofs SceneGraph_Model SceneGraph_Proofs VrmlStr_Model VrmlStr_Spec VrmlStr_Values Scene_Model Scene_Spec Linearise_Model
  Linearise_Proofs Build_Model Rebuilt Scene_Proofs
  Reading_Spec Reading_Proofs Reading_Facts Closed_Spec Closed_Proofs Reload Resave FloatStr StdNodes Std_Proofs P_VrmlStr P_Grammar P_Linearise P_Scene P_Reading P_Reload.
Local Open Scope nat_scope.
Local Open Scope list_scope.
Notation RNode := Scene_Model.RNode.

Lemma body_same P fstr protos st S1 S2 r : lrel r (scene_body P fstr protos st S1 no_maps [] (depth S1)) (scene_body P fstr protos st S2 no_maps [] (depth S2)) ->
  (forall n nd, s_node S1 n = Some nd -> n < s_next S1) -> (forall n nd, s_node S2 n = Some nd -> n < s_next S2) ->
  finish (scene_body P fstr protos st S1 no_maps [] (depth S1)) = finish (scene_body P fstr protos st S2 no_maps [] (depth S2)).
Proof.
  intros H I1 I2. pose proof (scene_ends P fstr protos st S1 no_maps I1 []) as E1. pose proof (scene_ends P fstr protos st S2 no_maps I2 []) as E2.
  destruct (scene_body _ _ _ _ S1 _ _ _) as [s| |], (scene_body _ _ _ _ S2 _ _ _) as [s'| |]; try contradiction; try reflexivity. destruct H as (E & _). cbn. rewrite E. reflexivity.
Qed.

(** C72.  Scenes that are equal up to the identity of their nodes are written as
    the same text (or cannot be written, both). *)
Theorem C72_equal_scenes_same_text : forall P fstr protos st S S', proto protos script_gi = None ->
  (forall n nd, s_node S n = Some nd -> n < s_next S) -> (forall n nd, s_node S' n = Some nd -> n < s_next S') ->
  equal_scene P protos S S' -> linearise P fstr protos st S = linearise P fstr protos st S'.
Proof.
  intros P fstr protos st S S' NoS I1 I2 (R & RF & RI & K & Rt & T & N).
  unfold linearise, lin_scene, Linearise_Model.named. rewrite !preroutes_visit.
  destruct (visits_rel R RF RI (gi_of S) (gi_of S')) with (cs := endpoints (map (fun r => (fst (fst r), fst (snd r))) (s_routes S)))
    (cs' := endpoints (map (fun r => (fst (fst r), fst (snd r))) (s_routes S'))) (d := s_defs S) (d' := s_defs S') as (e & e' & E & E' & D).
  { intros a b H. destruct (N a b H) as (nd & nd' & _ & A & B & G & _). unfold gi_of. rewrite A, B. exact G. }
  { induction Rt as [|x y l l' (A & B & C & D) _ IH]; [constructor|]. cbn. constructor; [exact A|]. constructor; [exact C|exact IH]. }
  { split; [exact T|]. intros a b H. destruct (N a b H) as (nd & nd' & _ & _ & _ & _ & Q & _). exact Q. }
  rewrite E, E'. apply (body_same P fstr protos st (with_defs S e) (with_defs S' e') R); [|exact I1|exact I2].
  apply scene_rel; auto. intros a b H. destruct (N a b H) as (nd & nd' & fs & A & B & G & _ & Pr & V). exists nd, nd'.
  split; [exact A|]. split; [exact B|]. split; [exact G|]. split; [congruence|]. split; [exact (proj2 D a b H)|].
  intros fs' Pr' f Hf. assert (fs' = fs) as -> by congruence. destruct (V f Hf) as (v & v' & G1 & G2 & Q). unfold alike. 
  change (fget P (with_defs S e) a f) with (fget P S a f). change (fget P (with_defs S' e') b f) with (fget P S' b f). rewrite G1, G2. left. exact Q.
Qed.
Print Assumptions C72_equal_scenes_same_text.

(** C72.  A scene that was saved and loaded is saved as the same text as the
    original, whatever the settings. *)
Theorem C72_saving_again_changes_nothing : forall P fstr protos st S, sane P ->
  wf_protos P protos -> wf_scene P protos S -> ok_settings st -> faithful fstr ->
  exists t S', linearise P fstr protos st S = Some t /\ loads P protos t (Ok ([], S')) /\
    forall fstr' st', linearise P fstr' protos st' S' = linearise P fstr' protos st' S.
Proof.
  intros P fstr protos st S SP WP WS ST FS.
  destruct (rebuilt P fstr protos st S WP WS ST FS) as (t & c & trees & S' & N & dn & rho & El & Pa & Eb & EN & NM & H1 & H2 & H4 & I2 & Ok2 & Sl & Sr).
  exists t, S'. split; [exact El|]. assert (L : loads P protos t (Ok ([], S'))) by (exists c, trees; auto). split; [exact L|].
  intros fstr' st'. destruct (C69_no_dangling_references _ _ _ _ _ SP L) as (_ & C).
  assert (IS : forall n nd, s_node S' n = Some nd -> n < s_next S') by (intros n nd Q; apply (cl_ids _ _ C); exists nd; exact Q).
  destruct (bi_fun _ _ _ I2) as (F1 & F2).
  assert (Rn : forall b, routed S' b -> exists a, Rho rho a b /\ routed S a).
  { intros b (r & Hr & Hb). unfold routed. clear - Sr Hr Hb. induction Sr as [|x y l l' (A & B & C & D) H IH]; [destruct Hr|]. destruct Hr as [<-|Hr].
    - destruct Hb as [->| ->]; [exists (fst (fst x))|exists (fst (snd x))]; (split; [assumption|]); exists x; cbn; auto.
    - destruct (IH Hr) as (a & Q & r' & Hr' & Ha). exists a. split; [exact Q|]. exists r'. cbn. auto. }
  unfold linearise, lin_scene. rewrite NM, (all_named S').
  - symmetry. replace (depth S) with (depth N) by (subst N; reflexivity). apply (body_same P fstr' protos st' N S' (Rho rho)).
    + apply scene_rel; auto; try (subst N; assumption). intros a b H. destruct (bi_node _ _ _ I2 a b H) as (nd & ndb & Na & Nb & Gi & Df & _).
      exists nd, ndb. repeat (split; [assumption|]). split; [|split; [exact Df|]].
      { destruct (wf_nodes _ _ _ WS a nd) as (fs & Pr & _); [subst N; exact Na|]. intros Q. rewrite Q in Pr. destruct (WP _ _ Pr) as (Sg & _). vm_compute in Sg. discriminate Sg. }
      intros fs Pr f Hf. rewrite Forall_forall in Ok2. destruct (proj1 (Ok2 _ H nd fs Na Pr) f Hf eq_refl) as (v & v' & G1 & G2 & Sv & Ex).
      cbn [fst snd] in G1, G2. unfold alike. rewrite G1, G2. destruct Ex as [Ex|Ex]; [left; exact Ex|right]. split; [exact Ex|]. rewrite <- (same_dropped _ _ _ _ Sv). exact Ex.
    + subst N. exact (wf_ids _ _ _ WS).
    + exact IS.
  - intros b Hb. destruct (Rn b Hb) as (a & Hab & Ha). destruct (bi_node _ _ _ I2 a b Hab) as (_ & _ & _ & _ & _ & Df & _). rewrite Df. apply H4. exact Ha.
Qed.
Print Assumptions C72_saving_again_changes_nothing.

(** ... also for a file that was loaded, saved and loaded again (conditions as in
    C71) *)
Theorem C72_saved_files_are_stable : forall P fstr base ws d tab S0, sane P -> wf_protos P base ->
  Forall (fun p => Forall plain_default (snd p)) base -> ok_settings ws -> faithful fstr ->
  ok_doc d -> tidy_doc d -> forallb no_proto (sk_doc d) = true -> forallb no_scripts (sk_doc d) = true -> Forall attrs_once_root (sk_doc d) ->
  loads P base (show_doc d) (Ok (tab, S0)) -> s_kids S0 <> [] -> own_names S0 -> plain_values base S0 ->
  exists t S1, linearise P fstr base ws S0 = Some t /\ loads P base t (Ok ([], S1)) /\
    linearise P fstr base ws S1 = Some t.
Proof.
  intros P fstr base ws d tab S0 SP WP DP WS Fa Okd Ti Np Ns Once L K Ow Pl.
  pose proof (loaded_wf P base d tab S0 SP WP DP Okd Ti Np Ns Once L K Ow Pl) as Wf.
  destruct (C72_saving_again_changes_nothing P fstr base ws S0 SP WP Wf WS Fa) as (t & S1 & E & L1 & Q).
  exists t, S1. split; [exact E|]. split; [exact L1|]. rewrite Q. exact E.
Qed.
Print Assumptions C72_saved_files_are_stable.
Example world_stable : exists S0 t S1, loads P_ex std_but_font (show_doc world) (Ok ([], S0)) /\ s_kids S0 = [RNode 0; RNode 4; RNode 0] /\
  linearise P_ex exact_str std_but_font set_defaults S0 = Some t /\ loads P_ex std_but_font t (Ok ([], S1)) /\
  linearise P_ex exact_str std_but_font set_defaults S1 = Some t.
Proof.
  destruct world_fine as (S0 & L & Ow & Pl & _ & K).
  destruct (C72_saved_files_are_stable P_ex exact_str std_but_font set_defaults world [] S0) as (t & S1 & A & B & D); auto.
  - exact sane_ex.
  - apply std_wf.
  - exact (Forall_filter _ _ _ std_plain).
  - exact st_default.
  - exact exact_faithful.
  - exact world_ok.
  - reflexivity.
  - exact world_once.
  - congruence.
  - exists S0, t, S1. auto.
Qed.

(** the same nodes in another order are an equal scene *)
Definition swapped : scene :=
  mkscene 2 (fun n => nth_error [mksn (lit "Cone") [] []; mksn (lit "Group") [(lit "children", VRefs [RNode 0])] []] n)
    {| defs := [(lit "C", 0)]; ndef := fun n => match n with 0 => lit "C" | _ => [] end |} [RNode 1] [((1, lit "a"), (0, lit "b"))] [].
Definition straight : scene :=
  mkscene 2 (fun n => nth_error [mksn (lit "Group") [(lit "children", VRefs [RNode 1])] []; mksn (lit "Cone") [] []] n)
    {| defs := [(lit "C", 1)]; ndef := fun n => match n with 1 => lit "C" | _ => [] end |} [RNode 0] [((0, lit "a"), (1, lit "b"))] [].
Example swapped_equal : equal_scene P_ex std_protos straight swapped /\
  linearise P_ex exact_str std_protos set_defaults straight = linearise P_ex exact_str std_protos set_defaults swapped /\
  exists t, linearise P_ex exact_str std_protos set_defaults straight = Some t.
Proof.
  assert (Q : equal_scene P_ex std_protos straight swapped).
  { exists (fun a b => (a = 0 /\ b = 1) \/ (a = 1 /\ b = 0)). split; [intuition lia|]. split; [intuition lia|].
    split; [constructor; [constructor; auto|constructor]|]. split; [constructor; [|constructor]; repeat split; cbn; auto|].
    split.
    { intros nm _. unfold getDEF. cbn [swapped straight s_defs defs dget]. destruct (text_eqb (lit "C") nm); split; discriminate || reflexivity. }
    intros a b [[-> ->]|[-> ->]].
    - exists (mksn (lit "Group") [(lit "children", VRefs [RNode 1])] []), (mksn (lit "Group") [(lit "children", VRefs [RNode 0])] []).
      destruct (proto std_protos (lit "Group")) as [fs|] eqn:E; [|vm_compute in E; discriminate E]. exists fs.
      do 4 (split; [reflexivity|]). split; [exact E|]. vm_compute in E. injection E as <-.
      intros f Hf. repeat (destruct Hf as [<-|Hf]; [do 2 eexists; split; [vm_compute; reflexivity|split; [vm_compute; reflexivity|]]; first [apply equal_pv|apply equal_one; constructor|apply equal_list; repeat (constructor; [constructor; auto|]); constructor]|]). destruct Hf.
    - exists (mksn (lit "Cone") [] []), (mksn (lit "Cone") [] []).
      destruct (proto std_protos (lit "Cone")) as [fs|] eqn:E; [|vm_compute in E; discriminate E]. exists fs.
      do 4 (split; [reflexivity|]). split; [exact E|]. vm_compute in E. injection E as <-.
      intros f Hf. repeat (destruct Hf as [<-|Hf]; [do 2 eexists; split; [vm_compute; reflexivity|split; [vm_compute; reflexivity|]]; first [apply equal_pv|apply equal_one; constructor|apply equal_list; repeat (constructor; [constructor; auto|]); constructor]|]). destruct Hf. }
  split; [exact Q|]. split.
  - apply C72_equal_scenes_same_text; [vm_compute; reflexivity| | |exact Q]; intros [|[|[|n]]] nd H; cbn in *; try lia; discriminate.
  - eexists. vm_compute. reflexivity.
Qed.
