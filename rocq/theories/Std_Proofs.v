(** The standard node types can be written and read. *)
From Coq Require Import Reals SpecFloat.
From Flocq Require Import Core.Core IEEE754.BinarySingleNaN.
From Verif Require Import Base Text PyDict PyDict_Proofs Float Coerce_Model Coerce_Spec Grammar_Model Lex_Spec Doc_Spec SceneGraph_Model VrmlStr_Model VrmlStr_Spec Scene_Model Scene_Spec StdNodes.
Local Open Scope nat_scope.
Local Open Scope list_scope.
Fixpoint nodupb (l : list text) : bool := match l with [] => true | x :: r => negb (existsb (text_eqb x) r) && nodupb r end.
Lemma nodupb_ok l : nodupb l = true -> NoDup l.
Proof.
  induction l as [|x l IH]; [constructor|]. cbn. intros H. apply andb_true_iff in H as [H1 H2]. constructor; [|auto].
  intros Hx. apply negb_true_iff in H1. assert (existsb (text_eqb x) l = true); [|congruence].
  apply existsb_exists. exists x. split; [exact Hx|apply text_eqb_spec; reflexivity].
Qed.
(** all standard node types but FontStyle, whose family has a string as the
    default of a list of strings (basenodes.py 213-220) *)
Definition std_but_font : list (text * list fdecl) := filter (fun p => negb (text_eqb (fst p) (lit "FontStyle"))) std_protos.
Ltac decls :=
  repeat (apply Forall_cons; [split; [vm_compute; reflexivity|cbn [f_kind]; try exact Logic.I;
    (split; [reflexivity|split; [cbv [ok_default fbase]; first [eexists; reflexivity | do 2 eexists; reflexivity
      | exists (@nil text); reflexivity | eexists [_]; reflexivity | eexists [_; _]; reflexivity]
    |eexists; split; [vm_compute; reflexivity|cbn; repeat constructor]]])]|]); apply Forall_nil.
Lemma ok_Anchor P : Forall (ok_decl P) Anchor_decl. Proof. unfold Anchor_decl. decls. Qed.
Lemma ok_Appearance P : Forall (ok_decl P) Appearance_decl. Proof. unfold Appearance_decl. decls. Qed.
Lemma ok_AudioClip P : Forall (ok_decl P) AudioClip_decl. Proof. unfold AudioClip_decl. decls. Qed.
Lemma ok_Background P : Forall (ok_decl P) Background_decl. Proof. unfold Background_decl. decls. Qed.
Lemma ok_Billboard P : Forall (ok_decl P) Billboard_decl. Proof. unfold Billboard_decl. decls. Qed.
Lemma ok_Box P : Forall (ok_decl P) Box_decl. Proof. unfold Box_decl. decls. Qed.
Lemma ok_Collision P : Forall (ok_decl P) Collision_decl. Proof. unfold Collision_decl. decls. Qed.
Lemma ok_Color P : Forall (ok_decl P) Color_decl. Proof. unfold Color_decl. decls. Qed.
Lemma ok_ColorInterpolator P : Forall (ok_decl P) ColorInterpolator_decl. Proof. unfold ColorInterpolator_decl. decls. Qed.
Lemma ok_Cone P : Forall (ok_decl P) Cone_decl. Proof. unfold Cone_decl. decls. Qed.
Lemma ok_Coordinate P : Forall (ok_decl P) Coordinate_decl. Proof. unfold Coordinate_decl. decls. Qed.
Lemma ok_CoordinateInterpolator P : Forall (ok_decl P) CoordinateInterpolator_decl. Proof. unfold CoordinateInterpolator_decl. decls. Qed.
Lemma ok_Cylinder P : Forall (ok_decl P) Cylinder_decl. Proof. unfold Cylinder_decl. decls. Qed.
Lemma ok_CylinderSensor P : Forall (ok_decl P) CylinderSensor_decl. Proof. unfold CylinderSensor_decl. decls. Qed.
Lemma ok_DirectionalLight P : Forall (ok_decl P) DirectionalLight_decl. Proof. unfold DirectionalLight_decl. decls. Qed.
Lemma ok_ElevationGrid P : Forall (ok_decl P) ElevationGrid_decl. Proof. unfold ElevationGrid_decl. decls. Qed.
Lemma ok_Extrusion P : Forall (ok_decl P) Extrusion_decl. Proof. unfold Extrusion_decl. decls. Qed.
Lemma ok_Fog P : Forall (ok_decl P) Fog_decl. Proof. unfold Fog_decl. decls. Qed.
Lemma ok_Group P : Forall (ok_decl P) Group_decl. Proof. unfold Group_decl. decls. Qed.
Lemma ok_ImageTexture P : Forall (ok_decl P) ImageTexture_decl. Proof. unfold ImageTexture_decl. decls. Qed.
Lemma ok_IndexedFaceSet P : Forall (ok_decl P) IndexedFaceSet_decl. Proof. unfold IndexedFaceSet_decl. decls. Qed.
Lemma ok_IndexedLineSet P : Forall (ok_decl P) IndexedLineSet_decl. Proof. unfold IndexedLineSet_decl. decls. Qed.
Lemma ok_Inline P : Forall (ok_decl P) Inline_decl. Proof. unfold Inline_decl. decls. Qed.
Lemma ok_LOD P : Forall (ok_decl P) LOD_decl. Proof. unfold LOD_decl. decls. Qed.
Lemma ok_Material P : Forall (ok_decl P) Material_decl. Proof. unfold Material_decl. decls. Qed.
Lemma ok_MovieTexture P : Forall (ok_decl P) MovieTexture_decl. Proof. unfold MovieTexture_decl. decls. Qed.
Lemma ok_NavigationInfo P : Forall (ok_decl P) NavigationInfo_decl. Proof. unfold NavigationInfo_decl. decls. Qed.
Lemma ok_Normal P : Forall (ok_decl P) Normal_decl. Proof. unfold Normal_decl. decls. Qed.
Lemma ok_NormalInterpolator P : Forall (ok_decl P) NormalInterpolator_decl. Proof. unfold NormalInterpolator_decl. decls. Qed.
Lemma ok_OrientationInterpolator P : Forall (ok_decl P) OrientationInterpolator_decl. Proof. unfold OrientationInterpolator_decl. decls. Qed.
Lemma ok_PixelTexture P : Forall (ok_decl P) PixelTexture_decl. Proof. unfold PixelTexture_decl. decls. Qed.
Lemma ok_PlaneSensor P : Forall (ok_decl P) PlaneSensor_decl. Proof. unfold PlaneSensor_decl. decls. Qed.
Lemma ok_PointLight P : Forall (ok_decl P) PointLight_decl. Proof. unfold PointLight_decl. decls. Qed.
Lemma ok_PointSet P : Forall (ok_decl P) PointSet_decl. Proof. unfold PointSet_decl. decls. Qed.
Lemma ok_PositionInterpolator P : Forall (ok_decl P) PositionInterpolator_decl. Proof. unfold PositionInterpolator_decl. decls. Qed.
Lemma ok_ProximitySensor P : Forall (ok_decl P) ProximitySensor_decl. Proof. unfold ProximitySensor_decl. decls. Qed.
Lemma ok_ScalarInterpolator P : Forall (ok_decl P) ScalarInterpolator_decl. Proof. unfold ScalarInterpolator_decl. decls. Qed.
Lemma ok_Shape P : Forall (ok_decl P) Shape_decl. Proof. unfold Shape_decl. decls. Qed.
Lemma ok_Sound P : Forall (ok_decl P) Sound_decl. Proof. unfold Sound_decl. decls. Qed.
Lemma ok_Sphere P : Forall (ok_decl P) Sphere_decl. Proof. unfold Sphere_decl. decls. Qed.
Lemma ok_SphereSensor P : Forall (ok_decl P) SphereSensor_decl. Proof. unfold SphereSensor_decl. decls. Qed.
Lemma ok_SpotLight P : Forall (ok_decl P) SpotLight_decl. Proof. unfold SpotLight_decl. decls. Qed.
Lemma ok_Switch P : Forall (ok_decl P) Switch_decl. Proof. unfold Switch_decl. decls. Qed.
Lemma ok_Text P : Forall (ok_decl P) Text_decl. Proof. unfold Text_decl. decls. Qed.
Lemma ok_TextureCoordinate P : Forall (ok_decl P) TextureCoordinate_decl. Proof. unfold TextureCoordinate_decl. decls. Qed.
Lemma ok_TextureTransform P : Forall (ok_decl P) TextureTransform_decl. Proof. unfold TextureTransform_decl. decls. Qed.
Lemma ok_TimeSensor P : Forall (ok_decl P) TimeSensor_decl. Proof. unfold TimeSensor_decl. decls. Qed.
Lemma ok_TouchSensor P : Forall (ok_decl P) TouchSensor_decl. Proof. unfold TouchSensor_decl. decls. Qed.
Lemma ok_Transform P : Forall (ok_decl P) Transform_decl. Proof. unfold Transform_decl. decls. Qed.
Lemma ok_Viewpoint P : Forall (ok_decl P) Viewpoint_decl. Proof. unfold Viewpoint_decl. decls. Qed.
Lemma ok_VisibilitySensor P : Forall (ok_decl P) VisibilitySensor_decl. Proof. unfold VisibilitySensor_decl. decls. Qed.
Lemma ok_WorldInfo P : Forall (ok_decl P) WorldInfo_decl. Proof. unfold WorldInfo_decl. decls. Qed.
Definition std_check : bool := forallb (fun p => safe_name (fst p) && negb (text_eqb (fst p) (lit "sceneGraph")) &&
  nodupb (map f_name (snd p))) std_but_font.
Lemma std_checked : std_check = true.
Proof. vm_compute. reflexivity. Qed.
Definition not_font (p : text * list fdecl) : Prop := text_eqb (fst p) (lit "FontStyle") = false.
Lemma std_decls P : Forall (fun p => not_font p -> Forall (ok_decl P) (snd p)) std_protos.
Proof.
  unfold std_protos.
  apply Forall_cons; [intros _; exact (ok_Anchor P)|].
  apply Forall_cons; [intros _; exact (ok_Appearance P)|].
  apply Forall_cons; [intros _; exact (ok_AudioClip P)|].
  apply Forall_cons; [intros _; exact (ok_Background P)|].
  apply Forall_cons; [intros _; exact (ok_Billboard P)|].
  apply Forall_cons; [intros _; exact (ok_Box P)|].
  apply Forall_cons; [intros _; exact (ok_Collision P)|].
  apply Forall_cons; [intros _; exact (ok_Color P)|].
  apply Forall_cons; [intros _; exact (ok_ColorInterpolator P)|].
  apply Forall_cons; [intros _; exact (ok_Cone P)|].
  apply Forall_cons; [intros _; exact (ok_Coordinate P)|].
  apply Forall_cons; [intros _; exact (ok_CoordinateInterpolator P)|].
  apply Forall_cons; [intros _; exact (ok_Cylinder P)|].
  apply Forall_cons; [intros _; exact (ok_CylinderSensor P)|].
  apply Forall_cons; [intros _; exact (ok_DirectionalLight P)|].
  apply Forall_cons; [intros _; exact (ok_ElevationGrid P)|].
  apply Forall_cons; [intros _; exact (ok_Extrusion P)|].
  apply Forall_cons; [intros _; exact (ok_Fog P)|].
  apply Forall_cons; [intros X; exfalso; revert X; unfold not_font; vm_compute; discriminate|].
  apply Forall_cons; [intros _; exact (ok_Group P)|].
  apply Forall_cons; [intros _; exact (ok_ImageTexture P)|].
  apply Forall_cons; [intros _; exact (ok_IndexedFaceSet P)|].
  apply Forall_cons; [intros _; exact (ok_IndexedLineSet P)|].
  apply Forall_cons; [intros _; exact (ok_Inline P)|].
  apply Forall_cons; [intros _; exact (ok_LOD P)|].
  apply Forall_cons; [intros _; exact (ok_Material P)|].
  apply Forall_cons; [intros _; exact (ok_MovieTexture P)|].
  apply Forall_cons; [intros _; exact (ok_NavigationInfo P)|].
  apply Forall_cons; [intros _; exact (ok_Normal P)|].
  apply Forall_cons; [intros _; exact (ok_NormalInterpolator P)|].
  apply Forall_cons; [intros _; exact (ok_OrientationInterpolator P)|].
  apply Forall_cons; [intros _; exact (ok_PixelTexture P)|].
  apply Forall_cons; [intros _; exact (ok_PlaneSensor P)|].
  apply Forall_cons; [intros _; exact (ok_PointLight P)|].
  apply Forall_cons; [intros _; exact (ok_PointSet P)|].
  apply Forall_cons; [intros _; exact (ok_PositionInterpolator P)|].
  apply Forall_cons; [intros _; exact (ok_ProximitySensor P)|].
  apply Forall_cons; [intros _; exact (ok_ScalarInterpolator P)|].
  apply Forall_cons; [intros _; exact (ok_Shape P)|].
  apply Forall_cons; [intros _; exact (ok_Sound P)|].
  apply Forall_cons; [intros _; exact (ok_Sphere P)|].
  apply Forall_cons; [intros _; exact (ok_SphereSensor P)|].
  apply Forall_cons; [intros _; exact (ok_SpotLight P)|].
  apply Forall_cons; [intros _; exact (ok_Switch P)|].
  apply Forall_cons; [intros _; exact (ok_Text P)|].
  apply Forall_cons; [intros _; exact (ok_TextureCoordinate P)|].
  apply Forall_cons; [intros _; exact (ok_TextureTransform P)|].
  apply Forall_cons; [intros _; exact (ok_TimeSensor P)|].
  apply Forall_cons; [intros _; exact (ok_TouchSensor P)|].
  apply Forall_cons; [intros _; exact (ok_Transform P)|].
  apply Forall_cons; [intros _; exact (ok_Viewpoint P)|].
  apply Forall_cons; [intros _; exact (ok_VisibilitySensor P)|].
  apply Forall_cons; [intros _; exact (ok_WorldInfo P)|].
  apply Forall_nil.
Qed.
Lemma checked_wf P l f : forallb (fun p => safe_name (fst p) && negb (text_eqb (fst p) (lit "sceneGraph")) &&
  nodupb (map f_name (snd p))) (filter (fun p => negb (f p)) l) = true ->
  Forall (fun p => f p = false -> Forall (ok_decl P) (snd p)) l -> wf_protos P (filter (fun p => negb (f p)) l).
Proof.
  intros C Q gi fs H. apply (dget_In text_eqb text_eqb_spec) in H. 
  rewrite forallb_forall in C. specialize (C _ H). cbn [fst snd] in C. apply andb_true_iff in C as [C C3]. apply andb_true_iff in C as [C1 C2].
  split; [exact C1|]. split; [intros E; rewrite (proj2 (text_eqb_spec _ _) E) in C2; discriminate|].
  split; [apply nodupb_ok; exact C3|]. apply filter_In in H as [H Nf]. apply negb_true_iff in Nf.
  rewrite Forall_forall in Q. exact (Q _ H Nf).
Qed.
Lemma std_wf P : wf_protos P std_but_font.
Proof. exact (checked_wf P std_protos (fun p => text_eqb (fst p) (lit "FontStyle")) std_checked (std_decls P)). Qed.
