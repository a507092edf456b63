(** Reading of numbers: correctly rounded, and insensitive to how the decimal
    is written. *)
From Coq Require Import Reals Psatz SpecFloat.
From Flocq Require Import Core.Core IEEE754.BinarySingleNaN Calc.Bracket Calc.Div.
From Flocq Require Import Core.Float_prop.
From Verif Require Import Base Text Float Float_Proofs Lex_Spec PyNum.
Local Open Scope Z_scope.
Local Open Scope list_scope.

Local Notation fexp64 := (SpecFloat.fexp 53 1024).
(** the double nearest to a real, ties to even *)
Definition rnd64 (x : R) : R := round radix2 fexp64 ZnearestE x.

Lemma digits2_mag p : Z.pos (digits2_pos p) = mag radix2 (IZR (Zpos p)).
Proof. rewrite Zpos_digits2_pos. apply Zdigits_mag. discriminate. Qed.

Lemma aux_flocq s m e l :
  SpecFloat.binary_round_aux 53 1024 s m e l = BinarySingleNaN.binary_round_aux 53 1024 mode_NE s m e l.
Proof.
  unfold SpecFloat.binary_round_aux, BinarySingleNaN.binary_round_aux.
  destruct (shr_fexp _ _ _ _ _) as [mrs' e']. rewrite choice_NE. reflexivity.
Qed.

Lemma new_location_flocq d r : SpecFloat.new_location d r = Bracket.new_location d r loc_Exact.
Proof.
  unfold SpecFloat.new_location, Bracket.new_location, Bracket.new_location_even, Bracket.new_location_odd,
    SpecFloat.new_location_even, SpecFloat.new_location_odd.
  destruct (Z.even d); cbv beta; destruct (Zeq_bool r 0); try reflexivity; match goal with |- context [(?a ?= ?b)%Z] => destruct (a ?= b)%Z end; reflexivity.
Qed.

Definition sgn (s : bool) (x : R) : R := if s then Ropp x else x.
Lemma rat_pos n d : (0 < IZR (Zpos n) / IZR (Zpos d))%R.
Proof. apply Rdiv_lt_0_compat; apply IZR_lt; reflexivity. Qed.

Lemma rat2fl_spec s n d : let x := sgn s (IZR (Zpos n) / IZR (Zpos d)) in
  valid64 (rat2fl s n d) = true /\
  if Rlt_bool (Rabs (rnd64 x)) (bpow radix2 1024) then
    fR (rat2fl s n d) = rnd64 x /\ Float_Proofs.is_finite (rat2fl s n d) = true /\ sign_SF (rat2fl s n d) = s
  else rat2fl s n d = S754_infinity s.
Proof.
  intros x. pose proof (rat_pos n d) as Hp. unfold rat2fl.
  set (k := Z.max 0 _). destruct (Z.div_eucl _ _) as [q r] eqn:E. rewrite aux_flocq, new_location_flocq.
  assert (Hs : s = Rlt_bool x 0).
  { unfold x, sgn. destruct s; [rewrite Rlt_bool_true|rewrite Rlt_bool_false]; auto; lra. }
  assert (Habs : Rabs x = (IZR (Zpos n) / IZR (Zpos d))%R).
  { unfold x, sgn. destruct s; rewrite ?Rabs_Ropp; apply Rabs_pos_eq; lra. }
  assert (Hx0 : x <> 0%R) by (intros H; rewrite H, Rabs_R0 in Habs; lra).
  assert (Hin : inbetween_float radix2 q (- k) (Rabs x) (Bracket.new_location (Zpos d) r loc_Exact)).
  { pose proof (Fdiv_core_correct radix2 (Zpos n) 0 (Zpos d) 0 (- k) eq_refl eq_refl) as H.
    unfold Fdiv_core in H.
    assert (Hk : (- k <=? 0 - 0) = true) by (apply Z.leb_le; unfold k; lia). rewrite Hk in H.
    replace (0 - 0 - - k) with k in H by lia.
    change (Zpower radix2 k) with (2 ^ k) in H. rewrite E in H.
    rewrite Habs. unfold F2R in H. cbn [Defs.Fnum Defs.Fexp bpow] in H. rewrite !Rmult_1_r in H. exact H. }
  assert (Hex : - k <= cexp radix2 fexp64 x).
  { unfold cexp. rewrite <- mag_abs, Habs.
    pose proof (mag_div radix2 (IZR (Zpos n)) (IZR (Zpos d))) as Hm.
    destruct Hm as [Hm _]; try (apply Rgt_not_eq; apply IZR_lt; reflexivity).
    rewrite <- !digits2_mag in Hm. unfold SpecFloat.fexp, emin. unfold k. lia. }
  pose proof (binary_round_aux_correct' 53 1024 prec53 lt53 mode_NE x q (- k) _ Hx0 Hin Hex) as H.
  cbv zeta in H. rewrite <- Hs in H. destruct H as [Hv H]. split; [exact Hv|].
  unfold rnd64. cbn [round_mode] in H. destruct (Rlt_bool _ _); [|exact H].
  exact H.
Qed.

(** a double is determined by its value and sign *)
Lemma fl_inj f g : valid64 f = true -> valid64 g = true -> Float_Proofs.is_finite f = true ->
  Float_Proofs.is_finite g = true -> fR f = fR g -> sign_SF f = sign_SF g -> f = g.
Proof.
  intros Vf Vg Ff Fg E S.
  assert (H : SF2B (prec := 53) (emax := 1024) f Vf = SF2B g Vg).
  { apply B2R_Bsign_inj.
    - rewrite is_finite_SF2B. exact Ff.
    - rewrite is_finite_SF2B. exact Fg.
    - rewrite !B2R_SF2B. exact E.
    - rewrite !Bsign_SF2B. exact S. }
  apply (f_equal B2SF) in H. rewrite !B2SF_SF2B in H. exact H.
Qed.
Lemma rat2fl_same s n d n' d' : (IZR (Zpos n) / IZR (Zpos d) = IZR (Zpos n') / IZR (Zpos d'))%R ->
  rat2fl s n d = rat2fl s n' d'.
Proof.
  intros E. pose proof (rat2fl_spec s n d) as H. pose proof (rat2fl_spec s n' d') as H'.
  cbv zeta in H, H'. rewrite <- E in H'. destruct H as [V H], H' as [V' H'].
  destruct (Rlt_bool _ _).
  - destruct H as (A & B & C), H' as (A' & B' & C'). apply fl_inj; congruence.
  - congruence.
Qed.

Definition radix10 : radix := Build_radix 10 eq_refl.
(** *** the value of decimal parts *)
Definition p10 (e : Z) : R := bpow radix10 e.
Definition dec_val (m e : Z) : R := (IZR m * p10 e)%R.
Lemma p10_pos e : (0 < p10 e)%R.
Proof. apply bpow_gt_0. Qed.
Lemma dec2fl_pos s p e : exists n d, dec2fl s (Zpos p) e = rat2fl s n d /\
  (IZR (Zpos n) / IZR (Zpos d) = dec_val (Zpos p) e)%R.
Proof.
  cbn [dec2fl]. destruct (Z.leb_spec 0 e) as [H|H].
  - exists (p * Z.to_pos (10 ^ e))%positive, 1%positive. split; [reflexivity|].
    rewrite Pos2Z.inj_mul, mult_IZR, Z2Pos.id by (apply Z.pow_pos_nonneg; lia).
    unfold dec_val, p10. rewrite <- (IZR_Zpower radix10 e) by exact H. change (radix_val radix10) with 10.
    unfold Rdiv. rewrite Rinv_1. ring.
  - exists p, (Z.to_pos (10 ^ (- e))). split; [reflexivity|].
    rewrite Z2Pos.id by (apply Z.pow_pos_nonneg; lia).
    unfold dec_val, p10. rewrite <- (Z.opp_involutive e) at 2. rewrite bpow_opp.
    rewrite <- (IZR_Zpower radix10 (- e)) by lia. reflexivity.
Qed.
(** a literal is read as the double nearest to the number it denotes *)
Lemma dec2fl_nearest s m e : 0 <= m ->
  let x := sgn s (dec_val m e) in
  valid64 (dec2fl s m e) = true /\
  if Rlt_bool (Rabs (rnd64 x)) (bpow radix2 1024) then
    fR (dec2fl s m e) = rnd64 x /\ Float_Proofs.is_finite (dec2fl s m e) = true /\ sign_SF (dec2fl s m e) = s
  else dec2fl s m e = S754_infinity s.
Proof.
  intros Hm. destruct m as [|p|p]; [| |lia].
  - cbv zeta. unfold dec_val. rewrite Rmult_0_l.
    assert (Hz : sgn s 0 = 0%R) by (destruct s; cbn; lra). rewrite Hz.
    unfold rnd64. rewrite round_0 by apply (valid_rnd_round_mode mode_NE). rewrite Rabs_R0.
    rewrite Rlt_bool_true by apply bpow_gt_0.
    repeat split; destruct s; reflexivity.
  - destruct (dec2fl_pos s p e) as (n & d & -> & <-). apply rat2fl_spec.
Qed.
Lemma dec2fl_same s m e m' e' : 0 <= m -> 0 <= m' -> dec_val m e = dec_val m' e' ->
  dec2fl s m e = dec2fl s m' e'.
Proof.
  intros Hm Hm' E. unfold dec_val in E. pose proof (p10_pos e) as P. pose proof (p10_pos e') as P'.
  destruct m as [|p|p], m' as [|p'|p']; try lia; try reflexivity.
  - exfalso. rewrite Rmult_0_l in E. symmetry in E. apply Rmult_integral in E as [E|E]; [|lra].
    apply eq_IZR in E. discriminate.
  - exfalso. rewrite Rmult_0_l in E. apply Rmult_integral in E as [E|E]; [|lra].
    apply eq_IZR in E. discriminate.
  - destruct (dec2fl_pos s p e) as (n & d & -> & E1). destruct (dec2fl_pos s p' e') as (n' & d' & -> & E2).
    apply rat2fl_same. rewrite E1, E2. exact E.
Qed.
(** reading the exact value of a double gives that double *)
Lemma dec2fl_exact f m e : valid64 f = true -> Float_Proofs.is_finite f = true -> 0 <= m ->
  fR f = sgn (sign_SF f) (dec_val m e) -> dec2fl (sign_SF f) m e = f.
Proof.
  intros V F Hm E. pose proof (dec2fl_nearest (sign_SF f) m e Hm) as H. cbv zeta in H. rewrite <- E in H.
  assert (G : rnd64 (fR f) = fR f).
  { unfold rnd64. apply round_generic; [apply (valid_rnd_round_mode mode_NE)|].
    pose proof (generic_format_B2R 53 1024 (SF2B f V)) as G. rewrite B2R_SF2B in G. exact G. }
  rewrite G in H.
  assert (Hlt : (Rabs (fR f) < bpow radix2 1024)%R).
  { pose proof (abs_B2R_lt_emax 53 1024 (SF2B f V)) as G2. rewrite B2R_SF2B in G2. exact G2. }
  rewrite Rlt_bool_true in H by exact Hlt. destruct H as (V' & A & B & C). apply fl_inj; auto.
Qed.

(** *** decimal digits *)
Lemma digits_val_app a b : digits_val (a ++ b) = digits_val a * 10 ^ Z.of_nat (List.length b) + digits_val b.
Proof.
  unfold digits_val. rewrite fold_left_app. set (x := fold_left _ a 0). clearbody x. clear a. revert x.
  assert (H : forall b x, fold_left (fun a c => a * 10 + (Z.of_N c - 48)) b x =
             x * 10 ^ Z.of_nat (List.length b) + fold_left (fun a c => a * 10 + (Z.of_N c - 48)) b 0).
  { clear b. intros b. induction b as [|c l IH]; intros x; [cbn; ring|cbn [fold_left List.length]].
    rewrite IH, (IH (0 * 10 + _)). rewrite Nat2Z.inj_succ, Z.pow_succ_r by lia. ring. }
  intros x. apply H.
Qed.
Lemma digits_val_nonneg l : forallb digit l = true -> 0 <= digits_val l.
Proof.
  induction l as [|c l IH] using rev_ind; [cbn; lia|]. rewrite forallb_app, digits_val_app. cbn [forallb].
  rewrite andb_true_r, andb_true_iff. intros [H1 H2]. specialize (IH H1).
  unfold digit in H2. rewrite andb_true_iff, !N.leb_le in H2. cbn [List.length]. change (10 ^ Z.of_nat 1) with 10.
  cbn. lia.
Qed.
Lemma span_all f l k : forallb f l = true -> match k with [] => true | c :: _ => negb (f c) end = true ->
  span f (l ++ k) = (l, k).
Proof.
  intros Hl Hk. induction l as [|c l IH]; cbn in *.
  - destruct k as [|c k]; [reflexivity|]. apply negb_true_iff in Hk. cbn. rewrite Hk. reflexivity.
  - apply andb_true_iff in Hl as [-> Hl]. rewrite IH by exact Hl. reflexivity.
Qed.
Lemma digit_not c : digit c = true -> (c =? 45)%N = false /\ (c =? 43)%N = false /\ (c =? 46)%N = false
  /\ (c =? 101)%N = false /\ (c =? 69)%N = false.
Proof. unfold digit. rewrite andb_true_iff, !N.leb_le. intros H. repeat split; apply N.eqb_neq; lia. Qed.
