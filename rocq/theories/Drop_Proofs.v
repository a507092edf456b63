(** Attributes left out because they compare equal to the default. *)
From Coq Require Import Reals Psatz SpecFloat.
From Flocq Require Import Core.Core IEEE754.BinarySingleNaN.
From Verif Require Import Base Text Float Float_Proofs Coerce_Model Coerce_Spec PyNum PyNum_Proofs VrmlStr_Model VrmlStr_Spec VrmlStr_Values
  FloatStr Scene_Model Scene_Spec.
Local Open Scope nat_scope.
Local Open Scope list_scope.

Lemma sfeqb_same x y : SFeqb x y = true -> x = y \/ exists s s', x = S754_zero s /\ y = S754_zero s'.
Proof.
  unfold SFeqb. destruct x as [sx|sx| |sx mx ex], y as [sy|sy| |sy my ey]; cbn; intros H; try discriminate; eauto.
  all: try (destruct sx; discriminate H); try (destruct sy; discriminate H).
  - destruct sx, sy; try discriminate; auto.
  - left. destruct sx, sy; try discriminate; destruct (Z.compare ex ey) eqn:E; try discriminate.
    + apply Z.compare_eq in E. subst. unfold CompOpp in H. change (Pos.compare_cont Eq mx my) with (Pos.compare mx my) in H.
      destruct (Pos.compare mx my) eqn:M; try discriminate. apply Pos.compare_eq in M. congruence.
    + apply Z.compare_eq in E. subst. change (Pos.compare_cont Eq mx my) with (Pos.compare mx my) in H.
      destruct (Pos.compare mx my) eqn:M; try discriminate. apply Pos.compare_eq in M. congruence.
Qed.
Lemma fl_is_Z_real f z : fl_is_Z f z = true -> is_finite_SF f = true /\ fR f = IZR z.
Proof.
  destruct f as [s|s| |s m e]; cbn; try discriminate.
  - rewrite Z.eqb_eq. intros ->. auto.
  - intros H. split; [reflexivity|]. unfold fR, SF2R, F2R. cbn [Fnum Fexp].
    destruct (Z.leb_spec 0 e) as [L|L]; apply Z.eqb_eq in H.
    + rewrite <- H, mult_IZR, <- IZR_Zpower by exact L. reflexivity.
    + rewrite H, mult_IZR. change (2 ^ (- e))%Z with (Zpower radix2 (- e)). rewrite IZR_Zpower by lia.
      rewrite Rmult_assoc, <- bpow_plus. replace (- e + e)%Z with 0%Z by lia. cbn. ring.
Qed.
Lemma float_of_Z_round z g : z <> 0%Z -> float_of_Z z = Some g ->
  g = round_to 53 1024 (S754_finite (z <? 0)%Z (Z.to_pos (Z.abs z)) 0).
Proof.
  unfold float_of_Z. intros Z0. destruct (is_inf _); [discriminate|]. intros [= <-]. cbn [round_to].
  destruct z as [|p|p]; [congruence| |]; reflexivity.
Qed.
Lemma float_of_int f z g : valid64 f = true -> fl_is_Z f z = true -> float_of_Z z = Some g ->
  f = g \/ exists s s', f = S754_zero s /\ g = S754_zero s'.
Proof.
  intros V H G. destruct (fl_is_Z_real f z H) as [F R]. destruct (Z.eq_dec z 0) as [->|Z0].
  - right. destruct f as [s|s| |s m e]; try discriminate F.
    + injection G as <-. eauto.
    + exfalso. cbn in H. destruct (0 <=? e)%Z eqn:L; apply Z.eqb_eq in H.
      * apply Z.mul_eq_0 in H as [H|H]; [destruct s; discriminate|]. apply Z.leb_le in L.
        pose proof (Z.pow_pos_nonneg 2 e ltac:(lia) L). lia.
      * destruct s; cbn in H; lia.
  - left. pose proof (float_of_Z_valid z g G) as Vg. apply float_of_Z_round in G; [|exact Z0].
    set (h := S754_finite (z <? 0)%Z (Z.to_pos (Z.abs z)) 0) in G.
    assert (Fh : fR h = IZR z).
    { unfold fR, h, SF2R, F2R. cbn [Fnum Fexp bpow]. rewrite Rmult_1_r. f_equal.
      rewrite Z2Pos.id by lia. unfold cond_Zopp. destruct (Z.ltb_spec z 0); lia. }
    assert (G53 : generic_format radix2 (SpecFloat.fexp 53 1024) (IZR z)).
    { pose proof (generic_format_B2R 53 1024 (SF2B f V)) as Q. rewrite B2R_SF2B in Q. fold (fR f) in Q. rewrite R in Q. exact Q. }
    assert (L53 : (Rabs (IZR z) < bpow radix2 1024)%R).
    { pose proof (abs_B2R_lt_emax 53 1024 (SF2B f V)) as Q. rewrite B2R_SF2B in Q. fold (fR f) in Q. rewrite R in Q. exact Q. }
    assert (R53 : round radix2 (SpecFloat.fexp 53 1024) (round_mode mode_NE) (IZR z) = IZR z)
      by (apply round_generic; [apply (valid_rnd_round_mode mode_NE)|exact G53]).
    destruct (round_to_spec 53 1024 prec53 lt53 h eq_refl) as (A & B & C).
    { rewrite Fh, R53. exact L53. }
    rewrite <- G, Fh, R53 in A. rewrite <- G in B, C.
    apply fl_inj; auto; [congruence|]. rewrite C.
    destruct f as [s|s| |s m e]; try discriminate F.
    + exfalso. cbn in R. apply Z0. apply eq_IZR. symmetry. exact R.
    + cbn [sign_SF]. unfold fR, SF2R in R. unfold h. cbn [sign_SF].
      pose proof (bpow_gt_0 radix2 e) as B0. unfold F2R in R. cbn [Fnum Fexp] in R.
      destruct (Z.ltb_spec z 0) as [Lz|Lz], s; auto; exfalso.
      * apply IZR_lt in Lz. cbn [cond_Zopp] in R. rewrite <- R in Lz.
        assert (0 <= IZR (Z.pos m))%R by (apply IZR_le; lia). nra.
      * assert (0 < z)%Z by lia. apply IZR_lt in H0. rewrite <- R in H0. cbn [cond_Zopp] in H0.
        assert (IZR (- Z.pos m) <= 0)%R by (apply IZR_le; lia). nra.
Qed.
Lemma float_to_int f z : fl_is_Z f z = true -> trunc f = Some z.
Proof.
  destruct f as [s|s| |s m e]; cbn [fl_is_Z trunc]; try discriminate.
  - rewrite Z.eqb_eq. intros ->. reflexivity.
  - intros H. f_equal. destruct (0 <=? e)%Z eqn:L; apply Z.eqb_eq in H.
    + unfold cond_Zopp in H. destruct s; nia.
    + apply Z.leb_gt in L. pose proof (Z.pow_pos_nonneg 2 (- e) ltac:(lia) ltac:(lia)) as Q.
      destruct s; cbn [cond_Zopp] in H.
      * replace (Z.pos m) with ((- z) * 2 ^ (- e))%Z by lia. rewrite Z.div_mul by lia. lia.
      * rewrite H, Z.div_mul by lia. reflexivity.
Qed.
Lemma strs_eq l l' : py_eq (PSeq KList (map PStr l)) (PSeq KList (map PStr l')) = true -> l = l'.
Proof.
  cbn. revert l'. induction l as [|s l IH]; intros [|s' l']; cbn; try discriminate; [reflexivity|].
  rewrite andb_true_iff, text_eqb_spec. intros [-> H]. f_equal. apply IH. exact H.
Qed.
Lemma strs_refl l : py_eq (PSeq KList (map PStr l)) (PSeq KList (map PStr l)) = true.
Proof.
  cbn. induction l as [|s l IH]; [reflexivity|]. cbn. rewrite IH, andb_true_r. apply text_eqb_spec. reflexivity.
Qed.

(** what is left out because it equals a default reads back as that value *)
Lemma dropped_same P t d v w : ok_default t d -> stored t v -> coerce P t d = Ok w -> safe_compare d v = Ok true ->
  same_value v w.
Proof.
  unfold ok_default, coerce. rewrite stored_base. intros D V W C. destruct (fbase t) eqn:B.
  - (* SFBool *)
    assert (exists z, v = PInt z /\ (z = 0 \/ z = 1)%Z) as (z & -> & Z01) by (destruct V as [->| ->]; eauto).
    left. destruct d as [|b|x|f| | | |]; destruct D as [n D]; try discriminate D; cbn in C, W; injection C as C.
    + injection W as <-. f_equal. destruct b; apply Z.eqb_eq in C; lia.
    + injection W as <-. f_equal. apply Z.eqb_eq in C. subst x. destruct Z01 as [->| ->]; reflexivity.
    + destruct f as [s|s| |s m e]; cbn in C, W; try discriminate; injection W as <-; f_equal.
      * apply Z.eqb_eq in C. congruence.
      * destruct Z01 as [->| ->]; [exfalso|reflexivity]. destruct (0 <=? e)%Z eqn:L; apply Z.eqb_eq in C.
        -- apply Z.mul_eq_0 in C as [C|C]; [destruct s; discriminate|]. apply Z.leb_le in L.
           pose proof (Z.pow_pos_nonneg 2 e ltac:(lia) L). lia.
        -- destruct s; cbn in C; lia.
  - destruct V as [z ->]. left. unfold sfint32_coerce in W.
    destruct d as [|b|x|f| | | |]; destruct D as [n D]; try discriminate D; cbn [safe_compare py_eq as_num num_eq] in C;
      injection C as C; cbn [py_int bind] in W.
    + injection W as <-. f_equal. apply Z.eqb_eq in C. congruence.
    + injection W as <-. f_equal. apply Z.eqb_eq in C. congruence.
    + unfold int_of_float in W. rewrite (float_to_int f z C) in W. injection W as <-. reflexivity.
  - destruct V as (f & -> & V). unfold same_value. unfold sffloat_coerce in W.
    assert (Q : forall g, (f = g \/ exists s s', f = S754_zero s /\ g = S754_zero s') ->
      PFloat f = PFloat g \/ exists s s', PFloat f = PFloat (S754_zero s) /\ PFloat g = PFloat (S754_zero s')).
    { intros g [->|(s & s' & -> & ->)]; [left; reflexivity|right; eauto]. }
    destruct d as [|b|x|g| | | |]; destruct D as [n D]; try discriminate D; cbn [safe_compare py_eq as_num num_eq] in C;
      injection C as C; cbn [py_float bind] in W.
    + destruct (float_of_Z (if b then 1 else 0)) as [g|] eqn:E; [|discriminate]. cbn in W. injection W as <-.
      apply Q. eapply float_of_int; eauto.
    + destruct (float_of_Z x) as [g|] eqn:E; [|discriminate]. cbn in W. injection W as <-.
      apply Q. eapply float_of_int; eauto.
    + injection W as <-. apply Q. destruct (sfeqb_same _ _ C) as [->|(s & s' & -> & ->)]; [left; reflexivity|right; eauto].
  - destruct D as [s ->], V as [s' ->]. cbn in C, W. injection C as C. apply text_eqb_spec in C. injection W as <-. left. congruence.
  - destruct D as [l ->], V as [l' ->]. left. assert (l = l') as <- by (apply strs_eq; cbn in C |- *; injection C; auto).
    unfold mfstring_coerce in W. cbn [py_iter bind] in W.
    assert (M : mapM (sfstring_coerce P) (map PStr l) = Ok (map PStr l)).
    { clear. induction l as [|s ss IH]; [reflexivity|]. cbn [map mapM]. cbn [sfstring_coerce bind]. rewrite IH. reflexivity. }
    rewrite M in W. injection W as <-. reflexivity.
  - destruct D as (k & l & ->), V as (xs & -> & _). discriminate C.
  - destruct D as (k & l & ->), V as (xs & -> & _). discriminate C.
  - destruct D as (k & l & ->), V as (xs & -> & _). discriminate C.
  - destruct D as (k & l & ->), V as (n & xs & -> & _). discriminate C.
  - destruct D as (k & l & ->), V as ((xs & -> & _) & _). discriminate C.
  - destruct D as (k & l & ->), V as ((n & xs & -> & _) & _). discriminate C.
Qed.
(** the comparison itself succeeds *)
Lemma compare_ok t d v : ok_default t d -> stored t v -> exists b, safe_compare d v = Ok b.
Proof.
  unfold ok_default. rewrite stored_base. intros D V. destruct (fbase t) eqn:B.
  - destruct d; destruct D as [n D]; try discriminate D; destruct V as [->| ->]; eexists; reflexivity.
  - destruct d; destruct D as [n D]; try discriminate D; destruct V as [zz ->]; eexists; reflexivity.
  - destruct d; destruct D as [n D]; try discriminate D; destruct V as (zz & -> & _); eexists; reflexivity.
  - destruct D as [s ->], V as [s' ->]. eexists; reflexivity.
  - destruct D as [s ->], V as [s' ->]. eexists; reflexivity.
  - destruct D as (k & l & ->), V as (xs & -> & _). eexists; reflexivity.
  - destruct D as (k & l & ->), V as (xs & -> & _). eexists; reflexivity.
  - destruct D as (k & l & ->), V as (xs & -> & _). eexists; reflexivity.
  - destruct D as (k & l & ->), V as (n & xs & -> & _). eexists; reflexivity.
  - destruct D as (k & l & ->), V as ((xs & -> & _) & _). eexists; reflexivity.
  - destruct D as (k & l & ->), V as ((n & xs & -> & _) & _). eexists; reflexivity.
Qed.
