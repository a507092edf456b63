(** Lemmas about the matrix functions. *)
From Coq Require Import Reals List Lra Lia Nsatz.
From Verif Require Import Matrix_Model Matrix_Spec.
Import ListNotations.
Local Open Scope R_scope.

(** split an equation of vectors or matrices into its entries *)
Ltac entries := repeat match goal with |- (_, _) = (_, _) => apply f_equal2 | |- Mat _ _ _ _ = Mat _ _ _ _ => f_equal end.

(** ** The matrix monoid *)
Lemma vdot_mdot p a b : vdot (vdot p a) b = vdot p (mdot a b).
Proof.
  destruct p as [[[x y] z] w].
  destruct a as [[[[a0 a1] a2] a3] [[[b0 b1] b2] b3] [[[c0 c1] c2] c3] [[[d0 d1] d2] d3]].
  destruct b as [[[[e0 e1] e2] e3] [[[f0 f1] f2] f3] [[[g0 g1] g2] g3] [[[h0 h1] h2] h3]].
  unfold mdot, vdot; cbn. entries; ring.
Qed.
Lemma mdot_assoc a b c : mdot (mdot a b) c = mdot a (mdot b c).
Proof. unfold mdot at 1 2 3; cbn. now rewrite !vdot_mdot. Qed.
Lemma vdot_ident p : vdot p ident4 = p.
Proof. destruct p as [[[x y] z] w]. unfold vdot; cbn. entries; ring. Qed.
Lemma mdot_ident_r a : mdot a ident4 = a.
Proof. destruct a as [r0 r1 r2 r3]. unfold mdot; cbn [row0 row1 row2 row3]. now rewrite !vdot_ident. Qed.
Lemma mdot_ident_l a : mdot ident4 a = a.
Proof.
  destruct a as [[[[a0 a1] a2] a3] [[[b0 b1] b2] b3] [[[c0 c1] c2] c3] [[[d0 d1] d2] d3]].
  unfold mdot, vdot; cbn. entries; ring.
Qed.
Lemma ident4_neq_shift : mdot ident4 ident4 = ident4.
Proof. apply mdot_ident_r. Qed.

Lemma xdot_assoc a b c : xdot (xdot a b) c = xdot a (xdot b c).
Proof. destruct a, b, c; cbn; try reflexivity. now rewrite mdot_assoc. Qed.
Lemma xdot_ident_r a : xdot a (Some ident4) = a.
Proof. destruct a; cbn; [|reflexivity]. now rewrite mdot_ident_r. Qed.
Lemma xdot_ident_l a : xdot (Some ident4) a = a.
Proof. destruct a; cbn; [|reflexivity]. now rewrite mdot_ident_l. Qed.

Lemma matrix_of_step f i : matrix_of (compress_step f i) = xdot (matrix_of i) (matrix_of f).
Proof.
  destruct f as [f|], i as [i|]; cbn [compress_step matrix_of].
  - reflexivity.
  - now rewrite xdot_ident_l.
  - now rewrite xdot_ident_r.
  - now rewrite xdot_ident_l.
Qed.
(** the product a compression stands for: the last matrix applies first *)
Fixpoint product (ms : list (option matx)) : matx :=
  match ms with [] => Some ident4 | m :: ms => xdot (product ms) (matrix_of m) end.
Lemma fold_product ms : forall f, matrix_of (fold_left compress_step ms f) = xdot (product ms) (matrix_of f).
Proof.
  induction ms as [|m ms IH]; intro f; cbn [fold_left product].
  - now rewrite xdot_ident_l.
  - rewrite IH, matrix_of_step. symmetry. apply xdot_assoc.
Qed.
Lemma compress_product ms : matrix_of (compressMatrices ms) = product ms.
Proof. destruct ms as [|m ms]; [reflexivity|]. cbn [compressMatrices product]. apply fold_product. Qed.

(** ** takes and inverse_of compose *)
Lemma takes_xdot a b p q r : takes a p q -> takes b q r -> takes (xdot a b) p r.
Proof.
  intros (x & -> & H) (y & -> & H'). exists (mdot x y). split; [reflexivity|].
  now rewrite <- vdot_mdot, H.
Qed.
Lemma takes_ident p : takes (Some ident4) p p.
Proof. exists ident4. split; [reflexivity|apply vdot_ident]. Qed.
Lemma inverse_of_sym a b : inverse_of a b -> inverse_of b a.
Proof. intros (x & y & ? & ? & ? & ?). exists y, x. auto. Qed.
Lemma inverse_of_ident : inverse_of (Some ident4) (Some ident4).
Proof. exists ident4, ident4. rewrite mdot_ident_r. auto. Qed.
Lemma inverse_of_xdot a a' b b' : inverse_of a a' -> inverse_of b b' -> inverse_of (xdot a b) (xdot b' a').
Proof.
  intros (x & y & -> & -> & H1 & H2) (z & w & -> & -> & H3 & H4).
  exists (mdot x z), (mdot w y). cbn. repeat split.
  - rewrite mdot_assoc, <- (mdot_assoc z w y), H3, mdot_ident_l. exact H1.
  - rewrite mdot_assoc, <- (mdot_assoc y x z), H2, mdot_ident_l. exact H4.
Qed.

(** ** Whole turns *)
Lemma twopi_pos : 0 < twopi.
Proof. unfold twopi. generalize PI_RGT_0. lra. Qed.
Lemma Int_part_IZR k : Int_part (IZR k) = k.
Proof.
  destruct (base_Int_part (IZR k)) as [A B].
  assert (Int_part (IZR k) <= k)%Z by now apply le_IZR.
  assert (IZR k < IZR (Int_part (IZR k) + 1)) by (rewrite plus_IZR; lra).
  apply lt_IZR in H0. lia.
Qed.
Lemma fmod_whole a : fmod a twopi = 0 <-> whole_turns a.
Proof.
  pose proof twopi_pos. unfold fmod, whole_turns, twopi in *. split.
  - intro E. exists (Int_part (a / (2 * PI))). lra.
  - intros (k & ->). replace (2 * PI * IZR k / (2 * PI)) with (IZR k) by (field; lra).
    rewrite Int_part_IZR. ring.
Qed.
Lemma whole_cos_sin a : whole_turns a -> cos a = 1 /\ sin a = 0.
Proof.
  intros (k & ->).
  destruct (Z_le_gt_dec 0 k) as [L|L].
  - rewrite <- (Z2Nat.id k L), <- INR_IZR_INZ.
    replace (2 * PI * INR (Z.to_nat k)) with (0 + 2 * INR (Z.to_nat k) * PI) by ring.
    rewrite cos_period, sin_period, cos_0, sin_0. auto.
  - replace (2 * PI * IZR k) with (- (0 + 2 * INR (Z.to_nat (- k)) * PI)).
    + rewrite cos_neg, sin_neg, cos_period, sin_period, cos_0, sin_0. split; ring.
    + rewrite INR_IZR_INZ, Z2Nat.id by lia. rewrite opp_IZR. ring.
Qed.
Lemma whole_neg a : whole_turns a -> whole_turns (- a).
Proof. intros (k & ->). exists (- k)%Z. rewrite opp_IZR. ring. Qed.

Lemma div_one x : x / 1 = x.
Proof. field. Qed.
Lemma div_ok_true y : y <> 0 -> div_ok y = true.
Proof. intro H. unfold div_ok. now destruct (Req_EM_T y 0). Qed.
Lemma div_ok_false y : y = 0 -> div_ok y = false.
Proof. intro H. unfold div_ok. now destruct (Req_EM_T y 0). Qed.

(** ** Factors *)
Lemma sq_nonneg x y z : 0 <= x*x + y*y + z*z.
Proof. pose proof (Rle_0_sqr x). pose proof (Rle_0_sqr y). pose proof (Rle_0_sqr z). unfold Rsqr in *. lra. Qed.
Lemma sq_zero x y z : x*x + y*y + z*z = 0 -> x = 0 /\ y = 0 /\ z = 0.
Proof.
  intro H. pose proof (Rle_0_sqr x). pose proof (Rle_0_sqr y). pose proof (Rle_0_sqr z). unfold Rsqr in *.
  repeat split; apply Rsqr_0_uniq; unfold Rsqr; lra.
Qed.
Definition len (x y z : R) : R := sqrt (x*x + y*y + z*z).
Lemma len_zero x y z : len x y z = 0 <-> (x, y, z) = zero3.
Proof.
  unfold len, zero3. split.
  - intro H. apply sqrt_eq_0 in H; [|apply sq_nonneg]. apply sq_zero in H as (-> & -> & ->). reflexivity.
  - intros [= -> -> ->]. replace (0*0+0*0+0*0) with 0 by ring. apply sqrt_0.
Qed.
Lemma len_sq x y z : len x y z * len x y z = x*x + y*y + z*z.
Proof. unfold len. apply sqrt_sqrt, sq_nonneg. Qed.
Lemma unit_sq x y z : (x, y, z) <> zero3 ->
  x / len x y z * (x / len x y z) + y / len x y z * (y / len x y z) + z / len x y z * (z / len x y z) = 1.
Proof.
  intro H. assert (N : len x y z <> 0) by (intro E; apply len_zero in E; auto).
  apply (Rmult_eq_reg_r (len x y z * len x y z)); [|now apply Rmult_integral_contrapositive].
  transitivity (x*x + y*y + z*z); [field; exact N|]. rewrite len_sq. ring.
Qed.

(** rotMatrix, in one formula *)
Lemma rotMatrix_whole x y z a : whole_turns a -> rotMatrix (Some (x, y, z, a)) = (None, None).
Proof. intro W. unfold rotMatrix. apply fmod_whole in W. now destruct (Req_EM_T (fmod a twopi) 0). Qed.
Lemma rotMatrix_turn x y z a : ~ whole_turns a -> (x, y, z) <> zero3 ->
  rotMatrix (Some (x, y, z, a)) =
  let n := len x y z in
  (Some (Some (rot_array (x/n) (y/n) (z/n) (cos a) (sin a) (1 - cos a))),
   Some (Some (rot_array (x/n) (y/n) (z/n) (cos a) (- sin a) (1 - cos a)))).
Proof.
  intros W Z. unfold rotMatrix. destruct (Req_EM_T (fmod a twopi) 0) as [E|_].
  { apply fmod_whole in E. now destruct W. }
  rewrite cos_neg, sin_neg. cbn zeta. destruct (Req_EM_T (x*x+y*y+z*z) 1) as [E|E].
  - assert (L : len x y z = 1) by (unfold len; rewrite E; apply sqrt_1). rewrite L.
    now rewrite !div_one.
  - fold (len x y z). rewrite div_ok_true; [reflexivity|]. intro E'. apply len_zero in E'. auto.
Qed.
Lemma rotMatrix_no_axis a : ~ whole_turns a -> rotMatrix (Some (0, 0, 0, a)) = (Some None, Some None).
Proof.
  intro W. unfold rotMatrix. destruct (Req_EM_T (fmod a twopi) 0) as [E|_].
  { apply fmod_whole in E. now destruct W. }
  destruct (Req_EM_T (0*0+0*0+0*0) 1) as [E|E]; [lra|].
  rewrite div_ok_false; [reflexivity|]. replace (0*0+0*0+0*0) with 0 by ring. apply sqrt_0.
Qed.

Lemma whole_dec a : whole_turns a \/ ~ whole_turns a.
Proof. destruct (Req_EM_T (fmod a twopi) 0) as [E|E]; rewrite fmod_whole in E; auto. Qed.

Lemma rot_array_orth x y z c s : x*x+y*y+z*z = 1 -> c*c+s*s = 1 ->
  mdot (rot_array x y z c s (1-c)) (rot_array x y z c (-s) (1-c)) = ident4.
Proof.
  intros U T. unfold mdot, vdot, rot_array, ident4; cbn.
  entries; nsatz.
Qed.
Lemma rot_array_axis x y z c s k w : x*x+y*y+z*z = 1 ->
  vdot (k*x, k*y, k*z, w) (rot_array x y z c s (1-c)) = (k*x, k*y, k*z, w).
Proof. intro U. unfold vdot, rot_array; cbn. entries; nsatz. Qed.
Lemma rot_array_det x y z c s : x*x+y*y+z*z = 1 -> c*c+s*s = 1 -> det3 (rot_array x y z c s (1-c)) = 1.
Proof. intros U T. unfold det3, rot_array; cbn. nsatz. Qed.
Lemma rot_array_transpose x y z c s t : transpose (rot_array x y z c s t) = rot_array x y z c (-s) t.
Proof. unfold transpose, rot_array; cbn. entries; ring. Qed.
Lemma rot_array_length x y z c s p q r : x*x+y*y+z*z = 1 -> c*c+s*s = 1 ->
  let '(p', q', r', w) := vdot (p, q, r, 1) (rot_array x y z c s (1-c)) in
  p'*p' + q'*q' + r'*r' = p*p + q*q + r*r /\ w = 1.
Proof. intros U T. unfold vdot, rot_array; cbn. split; [nsatz|ring]. Qed.
Lemma rot_array_rodrigues k a p :
  vdot (hom p) (let '(x, y, z) := k in rot_array x y z (cos a) (sin a) (1 - cos a)) = hom (rodrigues k a p).
Proof.
  destruct k as [[x y] z], p as [[u v] w].
  unfold vdot, rot_array, hom, rodrigues, cross, dot3, scal3, add3; cbn. entries; ring.
Qed.

Lemma rodrigues_whole k a p : whole_turns a -> rodrigues k a p = p.
Proof.
  intro W. apply whole_cos_sin in W as [C S]. unfold rodrigues. rewrite C, S.
  destruct k as [[x y] z], p as [[u v] w]. cbn. entries; ring.
Qed.

Lemma cos_sin1 a : cos a * cos a + sin a * sin a = 1.
Proof. generalize (sin2_cos2 a). unfold Rsqr. lra. Qed.

(** what the two matrices of a rotation do *)
Lemma rot_fwd r p : has_axis r -> takes (matrix_of (fst (rotMatrix (Some r)))) p (rotate r p).
Proof.
  destruct r as [[[x y] z] a]. intro H. unfold rotate; cbn [axis angle].
  destruct (whole_dec a) as [W|W].
  { rewrite rotMatrix_whole, rodrigues_whole by exact W. apply takes_ident. }
  destruct H as [H|H]; [|now destruct W]. cbn [axis] in H.
  rewrite rotMatrix_turn by assumption. cbn [fst matrix_of]. eexists. split; [reflexivity|].
  rewrite <- rot_array_rodrigues. cbn [scal3]. unfold norm3, dot3. fold (len x y z).
  f_equal; f_equal; unfold Rdiv; ring.
Qed.
Lemma rot_bwd r p : has_axis r -> takes (matrix_of (snd (rotMatrix (Some r)))) p (unrotate r p).
Proof.
  destruct r as [[[x y] z] a]. intro H. unfold unrotate; cbn [axis angle].
  destruct (whole_dec a) as [W|W].
  { rewrite rotMatrix_whole, rodrigues_whole by (try apply whole_neg; exact W). apply takes_ident. }
  destruct H as [H|H]; [|now destruct W]. cbn [axis] in H.
  rewrite rotMatrix_turn by assumption. cbn [snd matrix_of]. eexists. split; [reflexivity|].
  rewrite <- rot_array_rodrigues. cbn [scal3]. rewrite cos_neg, sin_neg. unfold norm3, dot3. fold (len x y z).
  f_equal; f_equal; unfold Rdiv; ring.
Qed.
Lemma rot_inverse r : has_axis r ->
  inverse_of (matrix_of (fst (rotMatrix (Some r)))) (matrix_of (snd (rotMatrix (Some r)))).
Proof.
  destruct r as [[[x y] z] a]. intro H. destruct (whole_dec a) as [W|W].
  { rewrite rotMatrix_whole by exact W. apply inverse_of_ident. }
  destruct H as [H|H]; [|now destruct W]. cbn [axis] in H.
  rewrite rotMatrix_turn by assumption. cbn [fst snd matrix_of]. pose proof (unit_sq _ _ _ H) as U.
  pose proof (cos_sin1 a) as T. do 2 eexists. repeat split.
  - apply rot_array_orth; assumption.
  - etransitivity; [|apply (rot_array_orth (x / len x y z) (y / len x y z) (z / len x y z) (cos a) (- sin a)); [exact U|lra]].
    f_equal. f_equal; ring.
Qed.

Lemma trans_cases (v : vec3) : (v = zero3 /\ transMatrix (Some v) = (None, None)) \/
  (v <> zero3 /\ transMatrix (Some v) =
   let '(x, y, z) := v in (Some (Some (shift x y z)), Some (Some (shift (-x) (-y) (-z))))).
Proof.
  destruct v as [[x y] z]. unfold transMatrix, zero3.
  destruct (Req_EM_T x y); [destruct (Req_EM_T y z); [destruct (Req_EM_T z 0)|]|].
  - left. split; [subst; reflexivity|reflexivity].
  - right. split; [congruence|reflexivity].
  - right. split; [congruence|reflexivity].
  - right. split; [congruence|reflexivity].
Qed.
Lemma scale_cases (v : vec3) : (v = (1, 1, 1) /\ scaleMatrix (Some v) = (None, None)) \/
  (v <> (1, 1, 1) /\ scaleMatrix (Some v) =
   let '(x, y, z) := v in
   (Some (Some (diag x y z)),
    Some (Some (diag (1 / or_else x very_small) (1 / or_else y very_small) (1 / or_else z very_small))))).
Proof.
  destruct v as [[x y] z]. unfold scaleMatrix.
  destruct (Req_EM_T x y); [destruct (Req_EM_T y z); [destruct (Req_EM_T z 1)|]|].
  - left. split; [subst; reflexivity|reflexivity].
  - right. split; [congruence|reflexivity].
  - right. split; [congruence|reflexivity].
  - right. split; [congruence|reflexivity].
Qed.
Lemma trans_fwd v p : takes (matrix_of (fst (transMatrix (Some v)))) p (add3 p v).
Proof.
  destruct (trans_cases v) as [[-> ->]|[_ ->]].
  - exists ident4. split; [reflexivity|]. rewrite vdot_ident. destruct p as [[x y] z]. cbn. entries; ring.
  - destruct v as [[a b] c]. eexists. split; [reflexivity|]. destruct p as [[x y] z].
    unfold vdot, hom, shift; cbn. entries; ring.
Qed.
Lemma trans_bwd v p : takes (matrix_of (snd (transMatrix (Some v)))) p (add3 p (neg3 v)).
Proof.
  destruct (trans_cases v) as [[-> ->]|[_ ->]].
  - exists ident4. split; [reflexivity|]. rewrite vdot_ident. destruct p as [[x y] z]. cbn. entries; ring.
  - destruct v as [[a b] c]. eexists. split; [reflexivity|]. destruct p as [[x y] z].
    unfold vdot, hom, shift; cbn. entries; ring.
Qed.
Lemma trans_inverse v :
  inverse_of (matrix_of (fst (transMatrix (Some v)))) (matrix_of (snd (transMatrix (Some v)))).
Proof.
  destruct (trans_cases v) as [[-> ->]|[_ ->]]; [apply inverse_of_ident|].
  destruct v as [[a b] c]. do 2 eexists. repeat split; unfold mdot, vdot, shift, ident4; cbn; entries; ring.
Qed.
Lemma scale_fwd v p : takes (matrix_of (fst (scaleMatrix (Some v)))) p (stretch v p).
Proof.
  destruct (scale_cases v) as [[E E']|[_ E']]; rewrite E'; clear E'.
  - subst v. exists ident4. split; [reflexivity|]. rewrite vdot_ident. destruct p as [[x y] z]. cbn. entries; ring.
  - destruct v as [[a b] c]. eexists. split; [reflexivity|]. destruct p as [[x y] z].
    unfold vdot, hom, diag; cbn. entries; ring.
Qed.
Lemma or_else_nz x y : x <> 0 -> or_else x y = x.
Proof. intro H. unfold or_else. now destruct (Req_EM_T x 0). Qed.
Lemma or_else_z x y : x = 0 -> or_else x y = y.
Proof. intro H. unfold or_else. now destruct (Req_EM_T x 0). Qed.
Lemma scale_inverse (v : vec3) : (let '(x, y, z) := v in x <> 0 /\ y <> 0 /\ z <> 0) <->
  inverse_of (matrix_of (fst (scaleMatrix (Some v)))) (matrix_of (snd (scaleMatrix (Some v)))).
Proof.
  destruct (scale_cases v) as [[E E']|[_ E']]; rewrite E'; clear E'.
  { subst v. split; [intros _; apply inverse_of_ident|intros _; repeat split; lra]. }
  destruct v as [[a b] c]. split.
  - intros (A & B & C). rewrite !or_else_nz by assumption. do 2 eexists.
    repeat split; unfold mdot, vdot, diag, ident4; cbn; entries; field; assumption.
  - intros (x & y & [= <-] & [= <-] & H & _). unfold mdot, vdot, diag, ident4 in H; cbn in H.
    injection H; intros. repeat split; intros ->; lra.
Qed.

(** ** Whole transforms *)
Definition of_params (d : params) {A} (f : option vec3 -> option vec3 -> option vec4 -> option vec3 -> option vec4 -> A) : A :=
  f (Some (p_translation d)) (Some (p_center d)) (Some (p_rotation d)) (Some (p_scale d)) (Some (p_scaleOrientation d)).
Definition fwd (d : params) : matx := matrix_of (fst (of_params d localMatrices)).
Definition bwd (d : params) : matx := matrix_of (snd (of_params d localMatrices)).

Lemma fwd_product d : fwd d = product
  [fst (transMatrix (Some (p_translation d))); fst (transMatrix (Some (p_center d)));
   fst (rotMatrix (Some (p_rotation d))); fst (rotMatrix (Some (p_scaleOrientation d)));
   fst (scaleMatrix (Some (p_scale d))); snd (rotMatrix (Some (p_scaleOrientation d)));
   snd (transMatrix (Some (p_center d)))].
Proof.
  unfold fwd, of_params, localMatrices, localMatrices_with.
  destruct (transMatrix (Some (p_translation d))), (transMatrix (Some (p_center d))), (rotMatrix (Some (p_rotation d))),
    (rotMatrix (Some (p_scaleOrientation d))), (scaleMatrix (Some (p_scale d))).
  cbn [fst snd]. apply compress_product.
Qed.
Lemma bwd_product d : bwd d = product
  [fst (transMatrix (Some (p_center d))); fst (rotMatrix (Some (p_scaleOrientation d)));
   snd (scaleMatrix (Some (p_scale d))); snd (rotMatrix (Some (p_scaleOrientation d)));
   snd (rotMatrix (Some (p_rotation d))); snd (transMatrix (Some (p_center d)));
   snd (transMatrix (Some (p_translation d)))].
Proof.
  unfold bwd, of_params, localMatrices, localMatrices_with.
  destruct (transMatrix (Some (p_translation d))), (transMatrix (Some (p_center d))), (rotMatrix (Some (p_rotation d))),
    (rotMatrix (Some (p_scaleOrientation d))), (scaleMatrix (Some (p_scale d))).
  cbn [fst snd]. apply compress_product.
Qed.

Lemma transformMatrix_parent d parent :
  matrix_of (of_params d transformMatrix parent) = xdot (fwd d) (matrix_of parent).
Proof.
  rewrite fwd_product. unfold of_params, transformMatrix, transformMatrix_with.
  destruct (transMatrix (Some (p_translation d))), (transMatrix (Some (p_center d))), (rotMatrix (Some (p_rotation d))),
    (rotMatrix (Some (p_scaleOrientation d))), (scaleMatrix (Some (p_scale d))).
  cbn [fst snd]. rewrite compress_product. reflexivity.
Qed.
Lemma itransformMatrix_parent d parent :
  matrix_of (of_params d itransformMatrix parent) = xdot (bwd d) (matrix_of parent).
Proof.
  rewrite bwd_product. unfold of_params, itransformMatrix, itransformMatrix_with.
  destruct (transMatrix (Some (p_translation d))), (transMatrix (Some (p_center d))), (rotMatrix (Some (p_rotation d))),
    (rotMatrix (Some (p_scaleOrientation d))), (scaleMatrix (Some (p_scale d))).
  cbn [fst snd]. rewrite compress_product. reflexivity.
Qed.
Lemma transformMatrices_pair d parent :
  of_params d transformMatrices parent = (of_params d transformMatrix parent, of_params d itransformMatrix parent).
Proof.
  unfold of_params, transformMatrices, transformMatrices_with, transformMatrix, transformMatrix_with, itransformMatrix, itransformMatrix_with.
  destruct (transMatrix (Some (p_translation d))), (transMatrix (Some (p_center d))), (rotMatrix (Some (p_rotation d))),
    (rotMatrix (Some (p_scaleOrientation d))), (scaleMatrix (Some (p_scale d))). reflexivity.
Qed.

Lemma fwd_takes d p : good_axes d -> takes (fwd d) p (vrml_transform d p).
Proof.
  intros [GR GS]. rewrite fwd_product. unfold vrml_transform. cbn [product].
  repeat (eapply takes_xdot;
    [|first [apply trans_fwd|apply trans_bwd|now apply rot_fwd|now apply rot_bwd|apply scale_fwd]]).
  apply takes_ident.
Qed.

Lemma inverse_eq a b : inverse_of a b -> xdot a b = Some ident4 /\ xdot b a = Some ident4.
Proof. intros (x & y & -> & -> & H & H'). cbn. now rewrite H, H'. Qed.

(** the factors around the scale *)
Definition outer (d : params) : matx :=
  xdot (matrix_of (snd (transMatrix (Some (p_center d))))) (matrix_of (snd (rotMatrix (Some (p_scaleOrientation d))))).
Definition outer' (d : params) : matx :=
  xdot (matrix_of (fst (rotMatrix (Some (p_scaleOrientation d))))) (matrix_of (fst (transMatrix (Some (p_center d))))).
Definition inner (d : params) : matx :=
  xdot (matrix_of (fst (rotMatrix (Some (p_scaleOrientation d))))) (xdot (matrix_of (fst (rotMatrix (Some (p_rotation d)))))
    (xdot (matrix_of (fst (transMatrix (Some (p_center d))))) (matrix_of (fst (transMatrix (Some (p_translation d))))))).
Definition inner' (d : params) : matx :=
  xdot (xdot (xdot (matrix_of (snd (transMatrix (Some (p_translation d))))) (matrix_of (snd (transMatrix (Some (p_center d))))))
    (matrix_of (snd (rotMatrix (Some (p_rotation d)))))) (matrix_of (snd (rotMatrix (Some (p_scaleOrientation d))))).
Definition sc (d : params) : matx := matrix_of (fst (scaleMatrix (Some (p_scale d)))).
Definition sc' (d : params) : matx := matrix_of (snd (scaleMatrix (Some (p_scale d)))).
Lemma fwd_split d : fwd d = xdot (outer d) (xdot (sc d) (inner d)).
Proof.
  rewrite fwd_product. unfold outer, inner, sc. cbn [product]. rewrite !xdot_ident_l. now rewrite !xdot_assoc.
Qed.
Lemma bwd_split d : bwd d = xdot (xdot (inner' d) (sc' d)) (outer' d).
Proof.
  rewrite bwd_product. unfold outer', inner', sc'. cbn [product]. rewrite !xdot_ident_l. now rewrite !xdot_assoc.
Qed.
Lemma outer_inverse d : good_axes d -> inverse_of (outer d) (outer' d).
Proof.
  intros [GR GS]. apply inverse_of_xdot; apply inverse_of_sym; [apply trans_inverse|now apply rot_inverse].
Qed.
Lemma inner_inverse d : good_axes d -> inverse_of (inner d) (inner' d).
Proof.
  intros [GR GS]. unfold inner, inner'.
  repeat apply inverse_of_xdot; try apply trans_inverse; now apply rot_inverse.
Qed.

Lemma fwd_bwd_inverse d : good_axes d -> (nonzero_scale d <-> inverse_of (fwd d) (bwd d)).
Proof.
  intro G. unfold nonzero_scale. rewrite (scale_inverse (p_scale d)).
  change (inverse_of (sc d) (sc' d) <-> inverse_of (fwd d) (bwd d)).
  rewrite fwd_split, bwd_split.
  pose proof (outer_inverse d G) as O. pose proof (inner_inverse d G) as I. split; intro H.
  - apply inverse_of_xdot; [exact O|]. apply inverse_of_xdot; [exact H|exact I].
  - destruct (inverse_eq _ _ O) as [O1 O2]. destruct (inverse_eq _ _ I) as [I1 I2].
    assert (A : sc d = xdot (outer' d) (xdot (xdot (outer d) (xdot (sc d) (inner d))) (inner' d))).
    { rewrite !xdot_assoc, I1, xdot_ident_r, <- xdot_assoc, O2, xdot_ident_l. reflexivity. }
    assert (B : sc' d = xdot (xdot (inner d) (xdot (xdot (inner' d) (sc' d)) (outer' d))) (outer d)).
    { rewrite !xdot_assoc, O2, xdot_ident_r, <- xdot_assoc, I1, xdot_ident_l. reflexivity. }
    rewrite A, B. apply inverse_of_xdot; [now apply inverse_of_sym|].
    apply inverse_of_xdot; [exact H|now apply inverse_of_sym].
Qed.

(** without an axis, no finite matrix *)
Lemma has_axis_dec r : has_axis r \/ ~ has_axis r.
Proof.
  destruct r as [[[x y] z] a]. unfold has_axis; cbn [axis angle].
  destruct (whole_dec a); [tauto|]. destruct (Req_EM_T (len x y z) 0) as [E|E]; rewrite len_zero in E; tauto.
Qed.
Lemma rot_undef r : ~ has_axis r -> rotMatrix (Some r) = (Some None, Some None).
Proof.
  destruct r as [[[x y] z] a]. unfold has_axis; cbn [axis angle]. intro H.
  destruct (Req_EM_T (len x y z) 0) as [E|E]; rewrite len_zero in E; [|tauto].
  injection E as -> -> ->. apply rotMatrix_no_axis. tauto.
Qed.
Lemma xdot_none_r a : xdot a None = None.
Proof. now destruct a. Qed.
Lemma fwd_undef d : ~ good_axes d -> fwd d = None /\ bwd d = None.
Proof.
  intro H. rewrite fwd_product, bwd_product.
  destruct (has_axis_dec (p_rotation d)) as [A|A]; [destruct (has_axis_dec (p_scaleOrientation d)) as [B|B]|].
  - now destruct H.
  - rewrite (rot_undef _ B). cbn [product fst snd matrix_of]. now rewrite !xdot_none_r.
  - rewrite (rot_undef _ A). cbn [product fst snd matrix_of]. now rewrite !xdot_none_r.
Qed.

(** ** Paths *)
Lemma product_app a b : product (a ++ b) = xdot (product b) (product a).
Proof.
  induction a as [|m a IH]; cbn [app product]; [now rewrite xdot_ident_r|]. now rewrite IH, xdot_assoc.
Qed.
Lemma path_takes ds p : Forall good_axes ds ->
  takes (product (map (fun d => fst (of_params d localMatrices)) ds)) p (path_transform ds p).
Proof.
  induction 1 as [|d ds G _ IH]; cbn [map product path_transform fold_right]; [apply takes_ident|].
  eapply takes_xdot; [exact IH|]. now apply fwd_takes.
Qed.
Lemma path_inverse ds : Forall good_axes ds -> Forall nonzero_scale ds ->
  inverse_of (product (map (fun d => fst (of_params d localMatrices)) ds))
             (product (map (fun d => snd (of_params d localMatrices)) (rev ds))).
Proof.
  induction 1 as [|d ds G _ IH]; intro NZ; cbn [map product rev]; [apply inverse_of_ident|].
  inversion NZ; subst. rewrite map_app, product_app. cbn [map product].
  apply inverse_of_xdot; [auto|]. rewrite xdot_ident_l. now apply fwd_bwd_inverse.
Qed.
