(** Matrix properties C50 - C56, over the reals; specification in Matrix_Spec.v. *)
From Coq Require Import Reals List Lra Lia Nsatz.
From Verif Require Import Base Cache_Model PathMatrix_Model P_Cache.
From Verif Require Import Matrix_Model Matrix_Spec Matrix_Proofs.
Import ListNotations.
Local Open Scope R_scope.

(** calling a matrix function with the five fields of a Transform *)
Notation call d f := (f (Some (p_translation d)) (Some (p_center d)) (Some (p_rotation d)) (Some (p_scale d)) (Some (p_scaleOrientation d))) (only parsing).

(** ** C50 *)
(** transformMatrix(...) takes every local point where the VRML97 Transform
    semantics puts it, for all parameters whose rotations have an axis. *)
Theorem C50_transform_semantics : forall d p, good_axes d ->
  takes (matrix_of (call d Matrix_Model.transformMatrix None)) p (vrml_transform d p).
Proof.
  intros d p G. change (takes (matrix_of (of_params d Matrix_Model.transformMatrix None)) p (vrml_transform d p)).
  rewrite transformMatrix_parent, xdot_ident_r. now apply fwd_takes.
Qed.
(** With a parentMatrix, the point then goes through the parent's matrix. *)
Theorem C50_parent_matrix : forall d parent p q, good_axes d ->
  takes (matrix_of parent) (vrml_transform d p) q ->
  takes (matrix_of (call d Matrix_Model.transformMatrix parent)) p q.
Proof.
  intros d parent p q G H. change (takes (matrix_of (of_params d Matrix_Model.transformMatrix parent)) p q).
  rewrite transformMatrix_parent. eapply takes_xdot; [now apply fwd_takes|exact H].
Qed.
(** localMatrices and transformMatrices return the same forward matrix. *)
Theorem C50_same_matrix : forall d,
  matrix_of (fst (call d Matrix_Model.localMatrices)) = matrix_of (call d Matrix_Model.transformMatrix None) /\
  fst (call d transformMatrices None) = call d Matrix_Model.transformMatrix None /\
  matrix_of (snd (call d Matrix_Model.localMatrices)) = matrix_of (call d itransformMatrix None) /\
  snd (call d transformMatrices None) = call d itransformMatrix None.
Proof.
  intro d. pose proof (transformMatrix_parent d None) as A. pose proof (itransformMatrix_parent d None) as B.
  pose proof (transformMatrices_pair d None) as C. cbn [matrix_of] in A, B. rewrite xdot_ident_r in A, B.
  unfold of_params in *. rewrite C. repeat split; symmetry; assumption.
Qed.
(** A turn about the zero vector yields no finite matrix at all. *)
Theorem C50_only_with_axes : forall d, ~ good_axes d -> matrix_of (call d Matrix_Model.transformMatrix None) = None.
Proof.
  intros d G. change (matrix_of (of_params d Matrix_Model.transformMatrix None) = None).
  rewrite transformMatrix_parent, xdot_ident_r. now apply fwd_undef.
Qed.
(** The matrix is the only one that does it: what it does to points determines an affine matrix. *)
Definition affine (m : mat) : Prop :=
  let '(_, _, _, a) := row0 m in let '(_, _, _, b) := row1 m in
  let '(_, _, _, c) := row2 m in let '(_, _, _, d) := row3 m in a = 0 /\ b = 0 /\ c = 0 /\ d = 1.
Theorem C50_determined : forall d m m', good_axes d -> affine m' ->
  matrix_of (call d Matrix_Model.transformMatrix None) = Some m ->
  (forall p, vdot (hom p) m' = hom (vrml_transform d p)) -> m' = m.
Proof.
  intros d m m' G A E H. 
  assert (K : forall p, vdot (hom p) m' = vdot (hom p) m).
  { intro p. destruct (C50_transform_semantics d p G) as (x & Hx & Hp). rewrite E in Hx. injection Hx as <-. now rewrite H, Hp. }
  clear - K. pose proof (K (0, 0, 0)) as K0. pose proof (K (1, 0, 0)) as K1.
  pose proof (K (0, 1, 0)) as K2. pose proof (K (0, 0, 1)) as K3. clear K.
  destruct m as [[[[a0 a1] a2] a3] [[[b0 b1] b2] b3] [[[c0 c1] c2] c3] [[[d0 d1] d2] d3]].
  destruct m' as [[[[e0 e1] e2] e3] [[[f0 f1] f2] f3] [[[g0 g1] g2] g3] [[[h0 h1] h2] h3]].
  unfold vdot, hom in *; cbn in *. injection K0; injection K1; injection K2; injection K3; intros.
  entries; lra.
Qed.

(** ** C51 *)
(** itransformMatrix is the two-sided inverse exactly when no scale factor is zero. *)
Theorem C51_inverse : forall d, good_axes d ->
  (nonzero_scale d <->
   inverse_of (matrix_of (call d Matrix_Model.transformMatrix None)) (matrix_of (call d itransformMatrix None))).
Proof.
  intros d G.
  change (nonzero_scale d <-> inverse_of (matrix_of (of_params d Matrix_Model.transformMatrix None)) (matrix_of (of_params d itransformMatrix None))).
  rewrite transformMatrix_parent, itransformMatrix_parent, !xdot_ident_r. now apply fwd_bwd_inverse.
Qed.
(** So it takes every transformed point back. *)
Theorem C51_undoes : forall d p, good_axes d -> nonzero_scale d ->
  takes (matrix_of (call d itransformMatrix None)) (vrml_transform d p) p.
Proof.
  intros d p G NZ. destruct (proj1 (C51_inverse d G) NZ) as (x & y & Hx & Hy & XY & _).
  destruct (C50_transform_semantics d p G) as (x' & Hx' & Hp). rewrite Hx in Hx'. injection Hx' as <-.
  exists y. split; [exact Hy|]. now rewrite <- Hp, vdot_mdot, XY, vdot_ident.
Qed.
(** Chaining as documented (parentMatrix of transformMatrix: the parent's matrix;
    of itransformMatrix: the child's inverse) keeps the matrices inverse. *)
Theorem C51_chain : forall child parent outerF outerI, good_axes child -> nonzero_scale child ->
  good_axes parent -> nonzero_scale parent -> inverse_of (matrix_of outerF) (matrix_of outerI) ->
  inverse_of
    (matrix_of (call child Matrix_Model.transformMatrix (call parent Matrix_Model.transformMatrix None)))
    (matrix_of (call parent itransformMatrix (call child itransformMatrix None))) /\
  inverse_of (matrix_of (call child Matrix_Model.transformMatrix outerF))
             (xdot (matrix_of outerI) (matrix_of (call child itransformMatrix None))).
Proof.
  intros c p oF oI GC NC GP NP O.
  pose proof (transformMatrix_parent c (of_params p Matrix_Model.transformMatrix None)) as A.
  pose proof (itransformMatrix_parent p (of_params c itransformMatrix None)) as B.
  pose proof (transformMatrix_parent c oF) as D. pose proof (itransformMatrix_parent c None) as E.
  rewrite (transformMatrix_parent p None) in A. rewrite (itransformMatrix_parent c None) in B.
  cbn [matrix_of] in *. rewrite xdot_ident_r in *. unfold of_params in *. rewrite A, B, D, E. split.
  - apply inverse_of_xdot; now apply fwd_bwd_inverse.
  - apply inverse_of_xdot; [now apply fwd_bwd_inverse|exact O].
Qed.
(** But the pair transformMatrices returns for a parentMatrix is not inverse:
    a Transform with default fields under any parent P gives (P, P). *)
Definition default_params : params := Params (0, 0, 0) (0, 0, 0) (0, 1, 0, 0) (1, 1, 1) (0, 1, 0, 0).
Lemma whole_zero : whole_turns 0.
Proof. exists 0%Z. ring. Qed.
Theorem C51_parent_pair_refuted :
  exists parent, inverse_of parent (Some (shift (-1) 0 0)) /\
  let r := call default_params transformMatrices (Some parent) in
  ~ inverse_of (matrix_of (fst r)) (matrix_of (snd r)).
Proof.
  exists (Some (shift 1 0 0)). split.
  { do 2 eexists. repeat split; unfold mdot, vdot, shift, ident4; cbn; entries; ring. }
  cbv zeta. set (P0 := Some (Some (shift 1 0 0)) : option matx). pose proof (transformMatrices_pair default_params P0) as P.
  change (Some (Some (shift 1 0 0))) with P0.
  unfold of_params in P. rewrite P. clear P. cbn [fst snd].
  pose proof (transformMatrix_parent default_params P0) as A.
  pose proof (itransformMatrix_parent default_params P0) as B.
  unfold of_params in A, B. rewrite A, B. clear A B.
  rewrite fwd_product, bwd_product. cbn [default_params p_translation p_center p_rotation p_scale p_scaleOrientation].
  rewrite !rotMatrix_whole by apply whole_zero.
  subst P0. destruct (trans_cases (0, 0, 0)) as [[_ ->]|[E _]]; [|now destruct E].
  destruct (scale_cases (1, 1, 1)) as [[_ ->]|[E _]]; [|now destruct E].
  cbn [product fst snd matrix_of]. rewrite !xdot_ident_l.
  intros (x & y & [= <-] & [= <-] & H & _). unfold mdot, vdot, shift, ident4 in H; cbn in H.
  injection H; intros. lra.
Qed.

(** ** C52 *)
Theorem C52_none_iff_whole_turns : forall x y z a,
  rotMatrix (Some (x, y, z, a)) = (None, None) <-> whole_turns a.
Proof.
  intros x y z a. split; [|apply rotMatrix_whole]. intro H.
  destruct (whole_dec a) as [W|W]; [exact W|exfalso].
  destruct (Req_EM_T (len x y z) 0) as [E|E]; rewrite len_zero in E.
  - injection E as -> -> ->. rewrite rotMatrix_no_axis in H by exact W. discriminate.
  - rewrite rotMatrix_turn in H by assumption. discriminate.
Qed.
(** For every axis and every angle that is not a whole number of turns, R and R'
    exist; R' is the transpose and the two-sided inverse of R; R has determinant
    one, fixes its axis, preserves lengths, and turns points by Rodrigues' formula. *)
Theorem C52_rotation : forall x y z a, ~ whole_turns a -> (x, y, z) <> zero3 ->
  exists R1 R2, rotMatrix (Some (x, y, z, a)) = (Some (Some R1), Some (Some R2)) /\
    mdot R1 R2 = ident4 /\ mdot R2 R1 = ident4 /\ R2 = transpose R1 /\ det3 R1 = 1 /\
    vdot (x, y, z, 1) R1 = (x, y, z, 1) /\
    (forall p, exists q, vdot (hom p) R1 = hom q /\ norm3 q = norm3 p /\ q = rotate (x, y, z, a) p).
Proof.
  intros x y z a W NZ.
  pose proof (rot_inverse (x, y, z, a) (or_introl NZ)) as Inv.
  pose proof (fun p => rot_fwd (x, y, z, a) p (or_introl NZ)) as Fw.
  rewrite rotMatrix_turn in * by assumption. cbn [fst snd matrix_of] in Inv, Fw.
  pose proof (unit_sq _ _ _ NZ) as U. pose proof (cos_sin1 a) as T.
  assert (N : len x y z <> 0) by (intro E; apply len_zero in E; auto).
  destruct Inv as (r1 & r2 & [= <-] & [= <-] & I1 & I2).
  do 2 eexists. split; [reflexivity|]. repeat split; try assumption.
  - now rewrite rot_array_transpose.
  - now apply rot_array_det.
  - pose proof (rot_array_axis _ _ _ (cos a) (sin a) (len x y z) 1 U) as A.
    replace (len x y z * (x / len x y z)) with x in A by (field; exact N).
    replace (len x y z * (y / len x y z)) with y in A by (field; exact N).
    replace (len x y z * (z / len x y z)) with z in A by (field; exact N). exact A.
  - intro p. destruct (Fw p) as (r & [= <-] & Hp). eexists. split; [exact Hp|]. split; [|reflexivity].
    destruct p as [[p q] r].
    pose proof (rot_array_length _ _ _ (cos a) (sin a) p q r U T) as L.
    cbn [hom] in Hp. rewrite Hp in L. destruct (rotate (x, y, z, a) (p, q, r)) as [[p' q'] r']. cbn [hom] in L.
    unfold norm3, dot3. f_equal. apply L.
Qed.
(** The length of the axis does not matter. *)
Theorem C52_axis_length : forall x y z a k, 0 < k ->
  rotMatrix (Some (k * x, k * y, k * z, a)) = rotMatrix (Some (x, y, z, a)).
Proof.
  intros x y z a k K. destruct (whole_dec a) as [W|W]; [now rewrite !rotMatrix_whole|].
  destruct (Req_EM_T (len x y z) 0) as [E|E].
  { apply len_zero in E. injection E as -> -> ->. now rewrite !Rmult_0_r. }
  assert (L : len (k * x) (k * y) (k * z) = k * len x y z).
  { unfold len. replace (k*x*(k*x) + k*y*(k*y) + k*z*(k*z)) with ((k*k) * (x*x+y*y+z*z)) by ring.
    rewrite sqrt_mult by (try apply sq_nonneg; nra). rewrite sqrt_square by lra. reflexivity. }
  rewrite !rotMatrix_turn; try exact W.
  - rewrite L. cbv zeta. replace (k * x / (k * len x y z)) with (x / len x y z) by (field; lra).
    replace (k * y / (k * len x y z)) with (y / len x y z) by (field; lra).
    replace (k * z / (k * len x y z)) with (z / len x y z) by (field; lra). reflexivity.
  - intro Z. apply len_zero in Z. now apply E.
  - intro Z. apply len_zero in Z. rewrite L in Z. apply Rmult_integral in Z. destruct Z; [lra|contradiction].
Qed.
(** Turning about the opposite axis is turning back. *)
Theorem C52_opposite_axis : forall x y z a, (x, y, z) <> zero3 ->
  rotMatrix (Some (- x, - y, - z, a)) = let '(m, m') := rotMatrix (Some (x, y, z, a)) in (m', m).
Proof.
  intros x y z a NZ. destruct (whole_dec a) as [W|W]; [now rewrite !rotMatrix_whole|].
  assert (L : len (- x) (- y) (- z) = len x y z) by (unfold len; f_equal; ring).
  assert (N : len x y z <> 0) by (intro E; apply len_zero in E; auto).
  rewrite !rotMatrix_turn; try assumption.
  - rewrite L. cbv zeta. unfold rot_array. f_equal; f_equal; f_equal; entries; field; exact N.
  - intro Z. apply len_zero in Z. rewrite L in Z. contradiction.
Qed.
(** A zero axis yields no finite matrix. *)
Theorem C52_zero_axis : forall a, ~ whole_turns a -> rotMatrix (Some (0, 0, 0, a)) = (Some None, Some None).
Proof. exact rotMatrix_no_axis. Qed.

(** ** C53 *)
(** a node field value, or the field's default; vectors use three components *)
Definition val3 (d : vec3) (v : option vec4) : vec3 := match v with None => d | Some v => first3 v end.
Definition val4 (d : vec4) (v : option vec4) : vec4 := match v with None => d | Some v => v end.
(** what the flags leave of a Transform node *)
Definition effective (fl : flags) (v : nat -> option vec4) : params :=
  Params (if fl_t fl then val3 (0, 0, 0) (v f_translation) else (0, 0, 0))
         (if fl_s fl || fl_r fl then val3 (0, 0, 0) (v f_center) else (0, 0, 0))
         (if fl_r fl then val4 (0, 0, 1, 0) (v f_rotation) else (0, 0, 1, 0))
         (if fl_s fl then val3 (1, 1, 1) (v f_scale) else (1, 1, 1))
         (if fl_s fl then val4 (0, 0, 1, 0) (v f_scaleOrientation) else (0, 0, 1, 0)).
(** coerced field defaults of Transform (basenodes.py 564-569) *)
Definition field_default (f : nat) : vec4 :=
  if Nat.eqb f f_scale then (1, 1, 1, 0)
  else if Nat.eqb f f_rotation || Nat.eqb f f_scaleOrientation then (0, 0, 1, 0) else (0, 0, 0, 0).

Lemma trans_none : transMatrix (Some (0, 0, 0)) = (None, None).
Proof. destruct (trans_cases (0, 0, 0)) as [[_ E]|[E _]]; [exact E|now destruct E]. Qed.
Lemma scale_none : scaleMatrix (Some (1, 1, 1)) = (None, None).
Proof. destruct (scale_cases (1, 1, 1)) as [[_ E]|[E _]]; [exact E|now destruct E]. Qed.
Lemma rot_none x y z : rotMatrix (Some (x, y, z, 0)) = (None, None).
Proof. apply rotMatrix_whole, whole_zero. Qed.

Lemma local_ext t t' c c' r r' s s' so so' :
  transMatrix t = transMatrix t' -> transMatrix c = transMatrix c' -> rotMatrix r = rotMatrix r' ->
  scaleMatrix s = scaleMatrix s' -> rotMatrix so = rotMatrix so' ->
  Matrix_Model.localMatrices t c r s so = Matrix_Model.localMatrices t' c' r' s' so'.
Proof.
  intros A B C D E. unfold Matrix_Model.localMatrices, localMatrices_with. now rewrite A, B, C, D, E.
Qed.
Lemma arg_trans o : transMatrix (arg3 (0, 0, 0) (Some o)) = transMatrix (Some (val3 (0, 0, 0) o)).
Proof. destruct o; [reflexivity|]. symmetry. exact trans_none. Qed.
Lemma arg_scale o : scaleMatrix (arg3 (1, 1, 1) (Some o)) = scaleMatrix (Some (val3 (1, 1, 1) o)).
Proof. destruct o; [reflexivity|]. symmetry. exact scale_none. Qed.
Lemma arg_rot o : rotMatrix (arg4 (0, 1, 0, 0) (Some o)) = rotMatrix (Some (val4 (0, 0, 1, 0) o)).
Proof. destruct o; [reflexivity|]. symmetry. exact (rot_none 0 0 1). Qed.
Lemma rot_default : rotMatrix (arg4 (0, 1, 0, 0) None) = rotMatrix (Some (0, 0, 1, 0)).
Proof. etransitivity; [exact (rot_none 0 1 0)|symmetry; exact (rot_none 0 0 1)]. Qed.
Lemma local_effective fl v :
  local_compute localMatrices_kw fl v = of_params (effective fl v) Matrix_Model.localMatrices.
Proof.
  unfold local_compute, of_params, effective, localMatrices_kw, local_fields.
  cbn [p_translation p_center p_rotation p_scale p_scaleOrientation].
  destruct fl as [[] [] []]; apply local_ext;
    cbn [fl_t fl_s fl_r orb existsb app Nat.eqb f_translation f_center f_rotation f_scale f_scaleOrientation];
    first [apply arg_trans|apply arg_scale|apply arg_rot|apply rot_default|reflexivity].
Qed.
Lemma defaults_real : defaults_agree localMatrices_kw field_default.
Proof.
  intros t c r s so. cbv zeta. apply local_ext.
  - destruct t as [[t|]|]; try reflexivity. apply trans_none.
  - destruct c as [[c|]|]; try reflexivity. apply trans_none.
  - destruct r as [[r|]|]; try reflexivity. apply rot_none.
  - destruct s as [[s|]|]; try reflexivity. apply scale_none.
  - destruct so as [[so|]|]; try reflexivity. apply rot_none.
Qed.

Section Paths.
Variable path_of : nat -> option (list nat).
Variable pick : Cache_Model.state ckey (cdata matx) -> nat.
(** the program's transformMatrix(translate, scale, rotate, inverse) of a path object *)
Notation query st p fl inverse :=
  (snd (PathMatrix_Model.transformMatrix localMatrices_kw compressMatrices (Some ident4) path_of pick st p fl inverse)).
(** the state after any history of field changes, reads, queries, allocations and collections *)
Notation after history :=
  (hrun localMatrices_kw compressMatrices (Some ident4) path_of pick field_default hinit history).

Lemma fresh_real v p fl inverse nodes : path_of p = Some nodes ->
  fresh_matrix localMatrices_kw compressMatrices (Some ident4) path_of v p fl inverse
  = product (map (fun d => (if inverse then snd else fst) (of_params d Matrix_Model.localMatrices))
       (let ds := map (fun n => effective fl (v n)) nodes in if inverse then rev ds else ds)).
Proof.
  intro E. unfold fresh_matrix. rewrite E. rewrite <- compress_product. cbv zeta.
  match goal with |- _ = matrix_of (compressMatrices ?b) => match goal with |- context [compressMatrices ?a] => 
    change (matrix_of (compressMatrices a) = matrix_of (compressMatrices b)) end end.
  f_equal. f_equal.
  transitivity (map (fun d => (if inverse then snd else fst) (of_params d Matrix_Model.localMatrices))
     (map (fun n => effective fl (v n)) (if inverse then rev nodes else nodes))).
  - rewrite map_map. apply map_ext. intro n. rewrite local_effective. now destruct inverse.
  - destruct inverse; [now rewrite map_rev|reflexivity].
Qed.

(** C46 for the real matrix functions: whatever happened before, the matrix is
    that of the current field values. *)
Theorem C46_matrix_up_to_date_real : allocates pick -> forall history p fl inverse,
  (fl_r fl = true \/ fl_s fl = false) -> all_live path_of (cs (after history)) p = true ->
  query (after history) p fl inverse
  = fresh_matrix localMatrices_kw compressMatrices (Some ident4) path_of (vals (after history)) p fl inverse.
Proof.
  intros A history p fl inverse F L.
  apply (C46_matrix_up_to_date localMatrices_kw compressMatrices (Some ident4) path_of pick field_default A defaults_real); assumption.
Qed.

(** C53.  After any history, the matrix of a path takes leaf coordinates through
    the Transforms of the path, with the field values they have now. *)
Theorem C53_path_matrix : allocates pick -> forall history p nodes fl,
  path_of p = Some nodes -> (fl_r fl = true \/ fl_s fl = false) ->
  all_live path_of (cs (after history)) p = true ->
  let ds := map (fun n => effective fl (vals (after history) n)) nodes in
  Forall good_axes ds ->
  forall q, takes (query (after history) p fl false) q (path_transform ds q).
Proof.
  intros A history p nodes fl E F L ds G q.
  rewrite C46_matrix_up_to_date_real by assumption. rewrite (fresh_real _ _ _ _ _ E). now apply path_takes.
Qed.
(** C53.  With inverse=True the matrix is the two-sided inverse. *)
Theorem C53_inverse : allocates pick -> forall history p nodes fl,
  path_of p = Some nodes -> (fl_r fl = true \/ fl_s fl = false) ->
  all_live path_of (cs (after history)) p = true ->
  let ds := map (fun n => effective fl (vals (after history) n)) nodes in
  Forall good_axes ds -> Forall nonzero_scale ds ->
  inverse_of (query (after history) p fl false) (query (after history) p fl true).
Proof.
  intros A history p nodes fl E F L ds G NZ.
  rewrite !C46_matrix_up_to_date_real by assumption. rewrite !(fresh_real _ _ _ _ _ E). now apply path_inverse.
Qed.
End Paths.

(** ** C54 *)
Lemma recip_nz t : t <> 0 -> 1 / t <> 0.
Proof. intros H E. apply (Rmult_eq_compat_r t) in E. unfold Rdiv in E. rewrite Rmult_0_l, Rmult_assoc, Rinv_l in E by exact H. lra. Qed.
(** perspectiveMatrix(inverse=True) is the two-sided inverse for all non-degenerate parameters. *)
Theorem C54_perspective_inverse : forall fovy aspect zNear zFar,
  tan (fovy / 2) <> 0 -> aspect <> 0 -> zNear <> 0 -> zFar <> 0 -> zNear <> zFar ->
  inverse_of (perspectiveMatrix fovy aspect zNear zFar false) (perspectiveMatrix fovy aspect zNear zFar true).
Proof.
  intros fovy aspect n f T A N F D. unfold perspectiveMatrix. pose proof (recip_nz _ T) as R.
  assert (D' : n - f <> 0) by lra.
  assert (M : 2 * f * n <> 0) by (repeat apply Rmult_integral_contrapositive_currified; lra).
  rewrite !div_ok_true by assumption. cbn [andb]. rewrite or_else_nz by exact R.
  set (t := tan (fovy / 2)) in *. clearbody t.
  do 2 eexists. repeat split; unfold mdot, vdot, ident4; cbn; entries; field; repeat split; assumption.
Qed.
(** Under the documented use (row vectors) it maps the viewing frustum to the clip
    cube: a point at depth [w], at the fractions [sx], [sy] of the frustum's half
    width and half height there, goes to (sx, sy, depth), where depth is -1 on the
    near and 1 on the far plane. *)
Theorem C54_perspective_frustum : forall fovy aspect zNear zFar m sx sy w,
  tan (fovy / 2) <> 0 -> aspect <> 0 -> zNear <> zFar -> w <> 0 ->
  perspectiveMatrix fovy aspect zNear zFar false = Some m ->
  let h := w * tan (fovy / 2) in
  project (vdot (hom (sx * h * aspect, sy * h, - w)) m)
  = (sx, sy, ((zFar + zNear) * w - 2 * zFar * zNear) / (w * (zFar - zNear))).
Proof.
  intros fovy aspect n f m sx sy w T A D W. unfold perspectiveMatrix. pose proof (recip_nz _ T) as R.
  assert (D' : n - f <> 0) by lra. rewrite !div_ok_true by assumption. cbn [andb]. intros [= <-].
  set (t := tan (fovy / 2)) in *. clearbody t.
  unfold project, vdot, hom; cbn. entries; field; repeat split; try assumption; lra.
Qed.
Corollary C54_near_far : forall zNear zFar, zNear <> 0 -> zFar <> 0 -> zNear <> zFar ->
  ((zFar + zNear) * zNear - 2 * zFar * zNear) / (zNear * (zFar - zNear)) = -1 /\
  ((zFar + zNear) * zFar - 2 * zFar * zNear) / (zFar * (zFar - zNear)) = 1.
Proof. intros n f N F D. split; field; lra. Qed.

(** orthoMatrix as a column-vector matrix maps the view box to the clip cube. *)
Theorem C54_ortho_columns : forall left right bottom top zNear zFar u v w,
  left <> right -> bottom <> top -> zNear <> zFar ->
  exists m, orthoMatrix left right bottom top zNear zFar = Some m /\
  (* the point at fractions u, v, w between the sides of the box *)
  apply_column m (hom (left + u * (right - left), bottom + v * (top - bottom), - (zNear + w * (zFar - zNear))))
  = hom (2 * u - 1, 2 * v - 1, 2 * w - 1).
Proof.
  intros l r b t n f u v w A B C. unfold orthoMatrix.
  rewrite !div_ok_true by lra. cbn [andb]. eexists. split; [reflexivity|].
  unfold apply_column, transpose, vdot, hom; cbn. entries; field; lra.
Qed.
(** Under the documented convention (row vectors) it does so only for boxes
    centred at the origin; for any other box no translation happens. *)
Theorem C54_ortho_rows_refuted : forall left right bottom top zNear zFar m,
  orthoMatrix left right bottom top zNear zFar = Some m ->
  ((forall p, vdot (hom p) m = apply_column m (hom p)) <->
   (left = - right /\ bottom = - top /\ zNear = - zFar)).
Proof.
  intros l r b t n f m. unfold orthoMatrix, div_ok.
  destruct (Req_EM_T (r - l) 0) as [|A]; [discriminate|].
  destruct (Req_EM_T (t - b) 0) as [|B]; [discriminate|].
  destruct (Req_EM_T (f - n) 0) as [|C]; [discriminate|]. cbn [andb]. intros [= <-].
  assert (K : forall x y, y <> 0 -> - x / y = 0 -> x = 0).
  { intros x y Y E. apply (Rmult_eq_compat_r y) in E. unfold Rdiv in E. rewrite Rmult_assoc, Rinv_l in E by exact Y. lra. }
  split.
  - intro H. specialize (H (0, 0, 0)). unfold apply_column, transpose, vdot, hom in H; cbn in H.
    injection H; intros W Z Y X.
    assert (r + l = 0) by (apply (K _ _ A); lra). assert (t + b = 0) by (apply (K _ _ B); lra).
    assert (f + n = 0) by (apply (K _ _ C); lra). lra.
  - intros (-> & -> & ->) [[x y] z]. unfold apply_column, transpose, vdot, hom; cbn. entries; field; lra.
Qed.

(** ** C55 *)
(** center() raises for every non-zero translation or center... *)
Theorem C55_center_refuted : forall t c parent, t <> zero3 \/ c <> zero3 ->
  center_fn (Some t) (Some c) parent = CRaise.
Proof.
  intros t c parent H. unfold center_fn.
  destruct (trans_cases t) as [[Et ->]|[Et ->]].
  - destruct (trans_cases c) as [[Ec ->]|[Ec ->]]; [tauto|]. now destruct c as [[]].
  - destruct t as [[]]. destruct (transMatrix (Some c)) as [[|] ?]; reflexivity.
Qed.
(** ... and is right only in the remaining case. *)
Theorem C55_center_zero : forall parent,
  center_fn (Some zero3) (Some zero3) (Some parent) = CPoint (Some (vdot (hom zero3) parent)).
Proof.
  intro parent. unfold center_fn. destruct (trans_cases zero3) as [[_ ->]|[E _]]; [reflexivity|now destruct E].
Qed.

(** ** C56 *)
Theorem C56_rotation : forall r, axis r <> zero3 -> acc_rotMatrix (Some r) = rotMatrix (Some r).
Proof.
  intros [[[x y] z] a] NZ. cbn [axis] in NZ. destruct (whole_dec a) as [W|W].
  { rewrite rotMatrix_whole by exact W. unfold acc_rotMatrix. apply fmod_whole in W. now destruct (Req_EM_T (fmod a twopi) 0). }
  rewrite rotMatrix_turn by assumption.
  assert (K : forall b, ~ whole_turns b ->
    acc_rot x y z b = Some (rot_array (x / len x y z) (y / len x y z) (z / len x y z) (cos b) (sin b) (1 - cos b))).
  { intros b Wb. unfold acc_rot.
    assert (Y : (if Req_EM_T x y then if Req_EM_T y z then if Req_EM_T z 0 then 1 else y else y else y) = y).
    { destruct (Req_EM_T x y); [destruct (Req_EM_T y z); [destruct (Req_EM_T z 0)|]|]; try reflexivity.
      subst. now destruct NZ. }
    rewrite Y. destruct (Req_EM_T (fmod b twopi) 0) as [E|_]; [apply fmod_whole in E; contradiction|].
    destruct (Req_EM_T (x*x+y*y+z*z) 1) as [E|E].
    - assert (L : len x y z = 1) by (unfold len; rewrite E; apply sqrt_1). rewrite L, !div_one.
      f_equal. unfold rot_array. entries; ring.
    - fold (len x y z). f_equal. unfold rot_array. entries; ring. }
  unfold acc_rotMatrix. destruct (Req_EM_T (fmod a twopi) 0) as [E|_]; [apply fmod_whole in E; contradiction|].
  rewrite !K.
  - rewrite cos_neg, sin_neg. reflexivity.
  - intro H. apply W. apply whole_neg in H. now rewrite Ropp_involutive in H.
  - exact W.
Qed.
Theorem C56_scale_translation : forall v,
  acc_scaleMatrix v = scaleMatrix v /\ acc_transMatrix v = transMatrix v.
Proof. intros [[[x y] z]|]; split; reflexivity. Qed.
(** So all transform matrices agree, for parameters with axes. *)
Theorem C56_transforms : forall d parent, axis (p_rotation d) <> zero3 -> axis (p_scaleOrientation d) <> zero3 ->
  call d (transformMatrix_with acc_rotMatrix acc_scaleMatrix acc_transMatrix) parent = call d Matrix_Model.transformMatrix parent /\
  call d (itransformMatrix_with acc_rotMatrix acc_scaleMatrix acc_transMatrix) parent = call d itransformMatrix parent.
Proof.
  intros d parent A B. unfold transformMatrix_with, itransformMatrix_with, Matrix_Model.transformMatrix, itransformMatrix,
    transformMatrix_with, itransformMatrix_with.
  rewrite !(C56_rotation _ A), !(C56_rotation _ B). split; reflexivity.
Qed.
Theorem C56_projections : forall a b c d e f,
  (forall inverse, acc_perspectiveMatrix a b c d inverse = perspectiveMatrix a b c d inverse) /\
  (a <> b -> c <> d -> e <> f -> acc_orthoMatrix a b c d e f = orthoMatrix a b c d e f).
Proof.
  intros a b c d e f. split.
  - intro i. unfold acc_perspectiveMatrix, perspectiveMatrix.
    destruct (Req_EM_T (tan (a / 2)) 0) as [E|E]; [now rewrite !div_ok_false|].
    rewrite !div_ok_true by exact E. pose proof (recip_nz _ E) as R. destruct i; [|reflexivity].
    rewrite !or_else_nz by exact R. reflexivity.
  - intros A B C. unfold acc_orthoMatrix, orthoMatrix. rewrite !div_ok_true by lra. rewrite !or_else_nz by lra. reflexivity.
Qed.
(** They differ on zero axes, and on degenerate boxes. *)
Theorem C56_zero_axis_refuted : forall a, ~ whole_turns a ->
  acc_rotMatrix (Some (0, 0, 0, a)) = acc_rotMatrix (Some (0, 1, 0, a)) /\
  acc_rotMatrix (Some (0, 0, 0, a)) <> rotMatrix (Some (0, 0, 0, a)).
Proof.
  intros a W.
  assert (A : forall b, acc_rot 0 0 0 b = acc_rot 0 1 0 b).
  { intro b. unfold acc_rot. destruct (Req_EM_T 0 0) as [_|E]; [|now destruct E].
    destruct (Req_EM_T 0 1) as [E|_]; [lra|]. reflexivity. }
  assert (E : acc_rotMatrix (Some (0, 0, 0, a)) = acc_rotMatrix (Some (0, 1, 0, a))).
  { unfold acc_rotMatrix. now rewrite !A. }
  split; [exact E|]. rewrite E, C56_rotation, rotMatrix_no_axis, rotMatrix_turn by (try exact W; cbn; unfold zero3; congruence || (intros [=]; lra)).
  discriminate.
Qed.
Theorem C56_degenerate_box_refuted : forall left bottom top zNear zFar,
  orthoMatrix left left bottom top zNear zFar = None /\ acc_orthoMatrix left left bottom top zNear zFar <> None.
Proof.
  intros. split; [|discriminate]. unfold orthoMatrix. rewrite (div_ok_false (left - left)) by ring. reflexivity.
Qed.

(** ** Concrete cases *)
Lemma quarter_not_whole : ~ whole_turns (PI / 2).
Proof.
  intros W. apply whole_cos_sin in W as [C _]. rewrite cos_PI2 in C. lra.
Qed.
(** a quarter turn about z, stretched and moved, meets the hypotheses of C50 and C51 *)
Definition ex_params : params := Params (10, 0, 0) (0, 1, 0) (0, 0, 2, PI / 2) (2, 1, 1) (0, 0, 1, 0).
Lemma rotate_ex p : rotate (0, 0, 2, PI / 2) p = let '(x, y, z) := p in (- y, x, z).
Proof.
  destruct p as [[x y] z]. unfold rotate, rodrigues; cbn [axis angle]. rewrite cos_PI2, sin_PI2.
  replace (norm3 (0, 0, 2)) with 2.
  - cbn. entries; field.
  - unfold norm3; cbn. replace (0*0+0*0+2*2) with (2*2) by ring. rewrite sqrt_square; lra.
Qed.
Example C50_nonvacuous : good_axes ex_params /\ nonzero_scale ex_params /\
  vrml_transform ex_params (1, 2, 3) = (9, 3, 3).
Proof.
  repeat split; try (cbn; lra).
  - left. cbn. unfold zero3. intros [= H]. lra.
  - left. cbn. unfold zero3. intros [= H]. lra.
  - unfold vrml_transform, unrotate; cbn [ex_params p_translation p_center p_rotation p_scale p_scaleOrientation].
    rewrite rotate_ex. unfold rotate. rewrite !rodrigues_whole by (cbn; try rewrite Ropp_0; apply whole_zero).
    cbn. entries; ring.
Qed.
Example C52_nonvacuous : ~ whole_turns (PI / 2) /\ (0, 0, 2) <> zero3 /\ 0 < 3.
Proof. split; [apply quarter_not_whole|]. unfold zero3. split; [intros [= H]|]; lra. Qed.
Example C53_nonvacuous :
  let path_of := fun p => if Nat.eqb p 2 then Some [0; 1]%nat else None in
  let fl := {| fl_t := true; fl_s := true; fl_r := true |} in
  let h := [HNew 10%nat; HNew 20%nat; HNew 30%nat; HSet 0%nat f_translation (Some (5, 0, 0, 0));
            HSet 1%nat f_rotation (Some (0, 0, 2, PI / 2))] in
  let st := hrun localMatrices_kw compressMatrices (Some ident4) path_of ex_pick field_default hinit h in
  let ds := map (fun n => effective fl (vals st n)) [0; 1]%nat in
  all_live path_of (cs st) 2%nat = true /\ Forall good_axes ds /\ Forall nonzero_scale ds /\
  path_transform ds (1, 2, 3) = (3, 1, 3).
Proof.
  cbv zeta. split; [reflexivity|]. unfold effective; cbn [fl_t fl_s fl_r orb map].
  cbn -[zero3 vrml_transform]. repeat split.
  - repeat (apply Forall_cons; [split; left; cbn; unfold zero3; intros [= H]; lra|]). apply Forall_nil.
  - repeat (apply Forall_cons; [cbn; lra|]). apply Forall_nil.
  - unfold path_transform, vrml_transform, unrotate; cbn [fold_right p_translation p_center p_rotation p_scale p_scaleOrientation].
    rewrite rotate_ex. unfold rotate. rewrite !rodrigues_whole by (cbn; try rewrite Ropp_0; apply whole_zero).
    cbn. entries; ring.
Qed.
Lemma tan_PI4_nz : tan (PI / 2 / 2) <> 0.
Proof. replace (PI / 2 / 2) with (PI / 4) by field. rewrite tan_PI4. lra. Qed.
Example C54_nonvacuous : exists m, perspectiveMatrix (PI / 2) 2 1 100 false = Some m /\ tan (PI / 2 / 2) <> 0.
Proof.
  unfold perspectiveMatrix. pose proof tan_PI4_nz as T. rewrite !div_ok_true by (try exact T; lra).
  eexists. split; [reflexivity|exact T].
Qed.

Print Assumptions C50_transform_semantics.
Print Assumptions C50_parent_matrix.
Print Assumptions C50_same_matrix.
Print Assumptions C50_only_with_axes.
Print Assumptions C50_determined.
Print Assumptions C51_inverse.
Print Assumptions C51_undoes.
Print Assumptions C51_chain.
Print Assumptions C51_parent_pair_refuted.
Print Assumptions C52_none_iff_whole_turns.
Print Assumptions C52_rotation.
Print Assumptions C52_axis_length.
Print Assumptions C52_opposite_axis.
Print Assumptions C52_zero_axis.
Print Assumptions C46_matrix_up_to_date_real.
Print Assumptions C53_path_matrix.
Print Assumptions C53_inverse.
Print Assumptions C54_perspective_inverse.
Print Assumptions C54_perspective_frustum.
Print Assumptions C54_near_far.
Print Assumptions C54_ortho_columns.
Print Assumptions C54_ortho_rows_refuted.
Print Assumptions C55_center_refuted.
Print Assumptions C55_center_zero.
Print Assumptions C56_rotation.
Print Assumptions C56_scale_translation.
Print Assumptions C56_transforms.
Print Assumptions C56_projections.
Print Assumptions C56_zero_axis_refuted.
Print Assumptions C56_degenerate_box_refuted.
