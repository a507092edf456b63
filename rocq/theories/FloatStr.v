(** A rendering of floats that satisfies what is assumed of str( float ): the
    exact decimal expansion.  Used only to show that the assumption
    [faithful] can be met. *)
From Coq Require Import Reals Psatz SpecFloat.
From Flocq Require Import Core.Core IEEE754.BinarySingleNaN.
From Verif Require Import Base Text Float Float_Proofs Coerce_Model Lex_Spec Doc_Spec PyNum PyNum_Proofs
  VrmlStr_Model VrmlStr_Spec VrmlStr_Proofs.
Local Open Scope Z_scope.
Local Open Scope list_scope.

Definition pad (n : nat) (t : text) : text := repeat 48%N (n - List.length t) ++ t.
Definition exact_str (_ : tcode) (f : fl) : text :=
  match f with
  | S754_finite s m e =>
      if 0 <=? e then sgt s ++ decN (Z.to_N (Zpos m * 2 ^ e)) ++ lit ".0"
      else let k := Z.to_nat (- e) in
           let d := pad (S k) (decN (Z.to_N (Zpos m * 5 ^ (- e)))) in
           sgt s ++ firstn (List.length d - k) d ++ lit "." ++ skipn (List.length d - k) d
  | S754_zero s => sgt s ++ lit "0.0"
  | S754_infinity s => sgt s ++ lit "inf"
  | S754_nan => lit "nan"
  end.

Lemma pad_digit n t : forallb digit t = true -> forallb digit (pad n t) = true.
Proof.
  intros H. unfold pad. rewrite forallb_app, H, andb_true_r. apply forallb_forall. intros c Hc.
  apply repeat_spec in Hc. subst. reflexivity.
Qed.
Lemma pad_val n t : digits_val (pad n t) = digits_val t.
Proof.
  unfold pad. rewrite digits_val_app. replace (digits_val (repeat 48%N _)) with 0; [ring|].
  induction (n - List.length t)%nat as [|m IH]; [reflexivity|]. cbn [repeat]. rewrite digits_val_0. exact IH.
Qed.
Lemma pad_length n t : (n <= List.length (pad n t))%nat.
Proof. unfold pad. rewrite app_length, repeat_length. lia. Qed.

Definition exact_m (f : fl) : Z :=
  match f with S754_finite _ m e => if 0 <=? e then Zpos m * 2 ^ e * 10 else Zpos m * 5 ^ (- e) | _ => 0 end.
Definition exact_e (f : fl) : Z :=
  match f with S754_finite _ m e => if 0 <=? e then -1 else e | _ => -1 end.
Lemma exact_m_nonneg f : 0 <= exact_m f.
Proof.
  destruct f as [s|s| |s m e]; cbn [exact_m]; try lia. destruct (Z.leb_spec 0 e).
  - pose proof (Z.pow_pos_nonneg 2 e ltac:(lia) ltac:(lia)). nia.
  - pose proof (Z.pow_pos_nonneg 5 (- e) ltac:(lia) ltac:(lia)). nia.
Qed.

Lemma exact_shape c f : is_finite_SF f = true -> exists ip fp,
  exact_str c f = sgt (sign_SF f) ++ ip ++ frac (Some fp) ++ expo None /\ digits ip /\ digits fp /\
  digits_val (ip ++ fp) = exact_m f /\ - Z.of_nat (List.length fp) = exact_e f.
Proof.
  destruct f as [s|s| |s m e]; try discriminate; intros _.
  - exists [48%N], [48%N]. split; [reflexivity|]. repeat split; discriminate.
  - cbn [exact_str exact_m exact_e]. destruct (Z.leb_spec 0 e) as [He|He].
    + exists (decN (Z.to_N (Zpos m * 2 ^ e))), [48%N]. split; [cbn [frac expo app]; reflexivity|].
      split; [apply decN_digits|]. split; [split; [reflexivity|discriminate]|]. split; [|reflexivity].
      rewrite digits_val_app, decN_val. cbn [List.length]. change (10 ^ Z.of_nat 1) with 10. change (digits_val [48%N]) with 0.
      pose proof (Z.pow_pos_nonneg 2 e ltac:(lia) ltac:(lia)). rewrite Z2N.id by nia. ring.
    + set (d := pad _ _). cbv zeta. set (k := Z.to_nat (- e)).
      assert (Ld : (S k <= List.length d)%nat) by apply pad_length.
      assert (Dd : forallb digit d = true) by (apply pad_digit; apply decN_digit).
      rewrite <- (firstn_skipn (List.length d - k) d), forallb_app in Dd. apply andb_true_iff in Dd as [D1 D2].
      exists (firstn (List.length d - k) d), (skipn (List.length d - k) d).
      split; [cbn [frac expo]; rewrite app_nil_r; reflexivity|].
      assert (L1 : List.length (firstn (List.length d - k) d) = (List.length d - k)%nat) by (rewrite firstn_length; lia).
      assert (L2 : List.length (skipn (List.length d - k) d) = k) by (rewrite skipn_length; lia).
      split; [split; [exact D1|intros E; rewrite E in L1; cbn [List.length] in L1; lia]|].
      split; [split; [exact D2|intros E; rewrite E in L2; cbn [List.length] in L2; subst k; lia]|].
      rewrite firstn_skipn, L2. split; [|subst k; lia].
      unfold d. rewrite pad_val, decN_val. pose proof (Z.pow_pos_nonneg 5 (- e) ltac:(lia) ltac:(lia)). rewrite Z2N.id by nia. reflexivity.
Qed.
Lemma exact_is_shape c f : is_finite_SF f = true -> float_shape (exact_str c f).
Proof.
  intros F. destruct (exact_shape c f F) as (ip & fp & -> & Hi & Hf & _).
  apply (shape (sign_SF f) ip (46%N :: fp) []); eauto.
Qed.
Lemma exact_read c f : is_finite_SF f = true -> read_float (exact_str c f) = Some (dec2fl (sign_SF f) (exact_m f) (exact_e f)).
Proof.
  intros F. destruct (exact_shape c f F) as (ip & fp & -> & Hi & Hf & E1 & E2).
  rewrite read_float_gen; [|apply Hi|apply Hf|apply digits_ne; exact Hi|exact I]. cbn [fdig expo_val].
  rewrite E1, Z.sub_0_l, E2. reflexivity.
Qed.
Lemma exact_real f : is_finite_SF f = true -> fR f = sgn (sign_SF f) (dec_val (exact_m f) (exact_e f)).
Proof.
  destruct f as [s|s| |s m e]; try discriminate; intros _.
  - cbn. unfold dec_val. rewrite Rmult_0_l. unfold sgn. destruct s; cbn; ring.
  - assert (E : (IZR (Zpos m) * bpow radix2 e = dec_val (exact_m (S754_finite s m e)) (exact_e (S754_finite s m e)))%R).
    { unfold dec_val, p10. cbn [exact_m exact_e]. destruct (Z.leb_spec 0 e) as [He|He].
      - rewrite !mult_IZR. rewrite <- (IZR_Zpower radix2 e) by exact He. change (radix_val radix2) with 2.
        cbn [bpow]. change (Z.pow_pos radix10 1) with 10. field.
      - rewrite mult_IZR, Rmult_assoc. f_equal.
        pose (k := - e). assert (Ek : e = - k) by (unfold k; lia). assert (Hk : 0 <= k) by lia. clearbody k. subst e.
        rewrite Z.opp_involutive, !bpow_opp.
        rewrite <- (IZR_Zpower radix2 k), <- (IZR_Zpower radix10 k) by exact Hk.
        change (radix_val radix2) with 2. change (radix_val radix10) with (5 * 2). rewrite Z.pow_mul_l, mult_IZR.
        assert (P5 : IZR (5 ^ k) <> 0%R) by (apply IZR_neq; pose proof (Z.pow_pos_nonneg 5 k); lia).
        assert (P2 : IZR (2 ^ k) <> 0%R) by (apply IZR_neq; pose proof (Z.pow_pos_nonneg 2 k); lia).
        field. auto. }
    rewrite <- E. unfold fR, sgn. cbn [SF2R sign_SF]. unfold F2R. cbn [Fnum Fexp]. destruct s; cbn [cond_Zopp].
    + rewrite opp_IZR. ring.
    + reflexivity.
Qed.

(** widening a single to a double and narrowing it again *)
Lemma round_to_spec prec emax (Hp : FLX.Prec_gt_0 prec) (He : Prec_lt_emax prec emax) f : is_finite_SF f = true ->
  let x := round radix2 (SpecFloat.fexp prec emax) (round_mode mode_NE) (fR f) in
  (Rabs x < bpow radix2 emax)%R ->
  fR (round_to prec emax f) = x /\ is_finite_SF (round_to prec emax f) = true /\ sign_SF (round_to prec emax f) = sign_SF f.
Proof.
  intros F x Hx. destruct f as [s|s| |s m e]; try discriminate.
  - cbn. split; [|auto]. unfold x. cbn. symmetry. apply round_0. apply (valid_rnd_round_mode mode_NE).
  - assert (E : round_to prec emax (S754_finite s m e) = BinarySingleNaN.binary_round prec emax mode_NE s m e).
    { rewrite <- sf_round_flocq. destruct s; reflexivity. }
    rewrite E. pose proof (binary_round_correct prec emax Hp He mode_NE s m e) as H. cbv zeta in H.
    destruct H as [_ H]. assert (X : F2R (Float radix2 (cond_Zopp s (Zpos m)) e) = fR (S754_finite s m e)) by reflexivity.
    rewrite X in H. rewrite Rlt_bool_true in H by exact Hx. exact H.
Qed.
Lemma fl_inj32 f g : valid32 f = true -> valid32 g = true -> is_finite_SF f = true ->
  is_finite_SF g = true -> fR f = fR g -> sign_SF f = sign_SF g -> f = g.
Proof.
  intros Vf Vg Ff Fg E S.
  assert (H : SF2B (prec := 24) (emax := 128) f Vf = SF2B g Vg).
  { apply B2R_Bsign_inj.
    - rewrite is_finite_SF2B. exact Ff.
    - rewrite is_finite_SF2B. exact Fg.
    - rewrite !B2R_SF2B. exact E.
    - rewrite !Bsign_SF2B. exact S. }
  apply (f_equal B2SF) in H. rewrite !B2SF_SF2B in H. exact H.
Qed.
Lemma wide f : valid32 f = true -> is_finite_SF f = true ->
  is_finite_SF (r64 f) = true /\ fR (r64 f) = fR f /\ sign_SF (r64 f) = sign_SF f /\ r32 (r64 f) = f.
Proof.
  intros V F.
  assert (G24 : generic_format radix2 (SpecFloat.fexp 24 128) (fR f)).
  { pose proof (generic_format_B2R 24 128 (SF2B f V)) as G. rewrite B2R_SF2B in G. exact G. }
  assert (L24 : (Rabs (fR f) < bpow radix2 128)%R).
  { pose proof (abs_B2R_lt_emax 24 128 (SF2B f V)) as G. rewrite B2R_SF2B in G. exact G. }
  assert (G53 : generic_format radix2 (SpecFloat.fexp 53 1024) (fR f)).
  { revert G24. apply generic_inclusion_mag. intros _. unfold SpecFloat.fexp, SpecFloat.emin. lia. }
  assert (R53 : round radix2 (SpecFloat.fexp 53 1024) (round_mode mode_NE) (fR f) = fR f)
    by (apply round_generic; [apply (valid_rnd_round_mode mode_NE)|exact G53]).
  assert (R24 : round radix2 (SpecFloat.fexp 24 128) (round_mode mode_NE) (fR f) = fR f)
    by (apply round_generic; [apply (valid_rnd_round_mode mode_NE)|exact G24]).
  destruct (round_to_spec 53 1024 prec53 lt53 f F) as (A & B & C).
  { rewrite R53. eapply Rlt_le_trans; [exact L24|]. apply bpow_le. lia. }
  rewrite R53 in A. fold (r64 f) in A, B, C.
  destruct (round_to_spec 24 128 prec24 lt24 (r64 f) B) as (A' & B' & C').
  { rewrite A, R24. exact L24. }
  rewrite A, R24 in A'. fold (r32 (r64 f)) in A', B', C'.
  repeat split; auto. apply fl_inj32; auto; [apply r32_valid|congruence].
Qed.

Lemma exact_faithful : faithful exact_str.
Proof.
  split; intros f V F; (split; [apply exact_is_shape; exact F|]).
  - rewrite exact_read by exact F. f_equal. apply dec2fl_exact; auto; [apply exact_m_nonneg|apply exact_real; exact F].
  - rewrite exact_read by exact F. destruct (wide f V F) as (A & B & C & D). exists (r64 f). split; [|exact D].
    f_equal. rewrite <- C. apply dec2fl_exact; auto; [apply r64_valid|apply exact_m_nonneg|].
    rewrite B, C. apply exact_real; exact F.
Qed.
