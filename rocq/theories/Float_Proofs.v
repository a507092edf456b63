(** Facts about the float conversions of Float.v. *)
From Verif Require Import Base Float.
From Coq Require Import Reals Psatz.
From Flocq Require Import Core.Core IEEE754.BinarySingleNaN.
Local Open Scope Z_scope.
Local Notation is_nan := Float.is_nan.

Lemma prec24 : FLX.Prec_gt_0 24. Proof. reflexivity. Qed.
Lemma prec53 : FLX.Prec_gt_0 53. Proof. reflexivity. Qed.
Lemma lt24 : Prec_lt_emax 24 128. Proof. reflexivity. Qed.
Lemma lt53 : Prec_lt_emax 53 1024. Proof. reflexivity. Qed.

Lemma choice_NE s m l : choice_mode mode_NE s m l = round_nearest_even m l.
Proof.
  destruct l as [|[]]; cbn; try reflexivity.
  unfold Round.cond_incr. destruct (Z.even m); reflexivity.
Qed.
Lemma sf_round_flocq prec emax s m e :
  SpecFloat.binary_round prec emax s m e = binary_round prec emax mode_NE s m e.
Proof.
  unfold SpecFloat.binary_round, binary_round, shl_align_fexp.
  destruct (shl_align m e _) as [mz ez].
  unfold SpecFloat.binary_round_aux, binary_round_aux.
  destruct (shr_fexp _ _ _ _ _) as [mrs' e'].
  rewrite choice_NE. reflexivity.
Qed.

Lemma binary_normalize_valid prec emax (Hp : FLX.Prec_gt_0 prec) (He : Prec_lt_emax prec emax) z e s :
  valid_binary prec emax (SpecFloat.binary_normalize prec emax z e s) = true.
Proof.
  destruct z as [|m|m]; cbn; [reflexivity| |];
    rewrite sf_round_flocq; apply (binary_round_correct prec emax Hp He).
Qed.

Lemma round_to_valid prec emax (Hp : FLX.Prec_gt_0 prec) (He : Prec_lt_emax prec emax) f :
  valid_binary prec emax (round_to prec emax f) = true.
Proof. destruct f; try reflexivity. apply binary_normalize_valid; assumption. Qed.

Lemma r32_valid f : valid32 (r32 f) = true.
Proof. apply round_to_valid; [apply prec24|apply lt24]. Qed.
Lemma r64_valid f : valid64 (r64 f) = true.
Proof. apply round_to_valid; [apply prec53|apply lt53]. Qed.

(** rounding a value of the format changes nothing *)
Lemma binary_round_exact prec emax s m e :
  SpecFloat.bounded prec emax m e = true ->
  SpecFloat.binary_round prec emax s m e = S754_finite s m e.
Proof.
  unfold SpecFloat.bounded, canonical_mantissa. intros H. apply andb_true_iff in H as [Hc He].
  apply Zeq_bool_eq in Hc.
  unfold SpecFloat.binary_round, shl_align. rewrite Hc, Z.sub_diag.
  unfold SpecFloat.binary_round_aux, shr_fexp. cbn [Zdigits2].
  rewrite Hc, Z.sub_diag. cbn [shr shr_record_of_loc shr_m loc_of_shr_record round_nearest_even Zdigits2].
  rewrite Hc, Z.sub_diag. cbn [shr shr_record_of_loc shr_m loc_of_shr_record round_nearest_even Zdigits2].
  rewrite He. reflexivity.
Qed.
Lemma round_to_exact prec emax f : valid_binary prec emax f = true -> round_to prec emax f = f.
Proof.
  destruct f as [s|s| |s m e]; cbn; try reflexivity. intros H.
  destruct s; cbn; apply binary_round_exact, H.
Qed.
Lemma r32_exact f : valid32 f = true -> r32 f = f.
Proof. apply round_to_exact. Qed.
Lemma r64_exact f : valid64 f = true -> r64 f = f.
Proof. apply round_to_exact. Qed.
Lemma r32_idem f : r32 (r32 f) = r32 f.
Proof. apply r32_exact, r32_valid. Qed.

Lemma float_of_Z_valid z f : float_of_Z z = Some f -> valid64 f = true.
Proof.
  unfold float_of_Z. destruct (is_inf _); [discriminate|]. intros [= <-].
  apply binary_normalize_valid; [apply prec53|apply lt53].
Qed.

(** real value of a number; the value of nan and of the infinities is not used *)
Definition fR (f : fl) : R := SF2R radix2 f.
Definition is_finite (f : fl) : bool := is_finite_SF f.

Lemma fR_fone32 : fR fone32 = 1%R.
Proof. unfold fR, fone32. cbn. unfold F2R. cbn. lra. Qed.

Lemma flt_real f g : valid32 f = true -> valid32 g = true -> is_finite f = true -> is_finite g = true ->
  flt f g = Rlt_bool (fR f) (fR g).
Proof.
  intros Hf Hg Ff Fg.
  pose proof (Bltb_correct 24 128 (SF2B f Hf) (SF2B g Hg)) as H.
  rewrite !is_finite_SF2B in H. specialize (H Ff Fg).
  unfold Bltb in H. rewrite !B2SF_SF2B, !B2R_SF2B in H. exact H.
Qed.

Lemma valid32_fone : valid32 fone32 = true. Proof. reflexivity. Qed.
Lemma valid32_fzero : valid32 fzero = true. Proof. reflexivity. Qed.

Lemma clip01_valid f : valid32 f = true -> valid32 (clip01 fone32 f) = true.
Proof. unfold clip01. intros H. destruct (flt f fzero), (flt fone32 f); auto. Qed.

Lemma clip01_finite f : valid32 f = true -> is_nan f = false -> is_finite (clip01 fone32 f) = true.
Proof.
  intros Hv Hn. destruct f as [s|s| |s m e]; try discriminate; try reflexivity.
  - destruct s; reflexivity.
  - unfold clip01. destruct (flt _ fzero); [reflexivity|]. destruct (flt fone32 _); reflexivity.
Qed.

(** clipped values are in [0,1] *)
Lemma clip01_range f : valid32 f = true -> is_nan f = false ->
  (0 <= fR (clip01 fone32 f) <= 1)%R.
Proof.
  intros Hv Hn. destruct (is_finite f) eqn:Hf.
  - unfold clip01. rewrite (flt_real f fzero), (flt_real fone32 f); auto.
    rewrite fR_fone32. change (fR fzero) with 0%R.
    destruct (Rlt_bool_spec (fR f) 0); [change (fR fzero) with 0%R; lra|].
    destruct (Rlt_bool_spec 1 (fR f)); [rewrite fR_fone32; lra|]. lra.
  - destruct f as [s|s| |s m e]; try discriminate.
    destruct s; [change (0 <= 0 <= 1)%R; lra|].
    change (0 <= fR fone32 <= 1)%R. rewrite fR_fone32. lra.
Qed.
(** values in range are unchanged *)
Lemma clip01_id f : valid32 f = true -> is_finite f = true -> (0 <= fR f <= 1)%R ->
  clip01 fone32 f = f.
Proof.
  intros Hv Hf [H0 H1]. unfold clip01. rewrite (flt_real f fzero), (flt_real fone32 f); auto.
  rewrite fR_fone32. change (fR fzero) with 0%R.
  rewrite Rlt_bool_false, Rlt_bool_false by lra. reflexivity.
Qed.
Lemma clip01_nan : clip01 fone32 S754_nan = S754_nan.
Proof. reflexivity. Qed.
Lemma clip01_idem f : clip01 fone32 (clip01 fone32 f) = clip01 fone32 f.
Proof.
  unfold clip01. destruct (flt f fzero) eqn:E1; [reflexivity|].
  destruct (flt fone32 f) eqn:E2; [reflexivity|]. rewrite E1, E2. reflexivity.
Qed.
