(** C19: colour strings. *)
From Verif Require Import Base Text Float Float_Proofs Color_Model Color_Spec.
From Coq Require Import Reals Psatz.
From Flocq Require Import Core.Core IEEE754.BinarySingleNaN.
Local Open Scope Z_scope.

Lemma hexdigit_spec c v : hex c v -> hexdigit (lower_char c) = Some v /\ 0 <= v <= 15 /\ (lower_char c =? 95)%N = false
   /\ is_space (lower_char c) = false.
Proof.
  intros H. destruct H as [v H|v H|v H];
  (assert (C : v = 0 \/ v = 1 \/ v = 2 \/ v = 3 \/ v = 4 \/ v = 5 \/ v = 6 \/ v = 7 \/ v = 8 \/ v = 9
      \/ v = 10 \/ v = 11 \/ v = 12 \/ v = 13 \/ v = 14 \/ v = 15) by lia;
   repeat destruct C as [-> | C]; try subst v; try lia; cbn; repeat split; try reflexivity; lia).
Qed.

Lemma lower_same a b : same_but_case a b -> lower a = lower b.
Proof.
  induction 1 as [|x y a b H _ IH]; cbn; [reflexivity|]. f_equal; auto.
  destruct H as [-> | [[H ->] | [H ->]]]; auto; unfold lower_char.
  - replace (65 <=? x)%N with true by (symmetry; apply N.leb_le; lia).
    replace (x <=? 90)%N with true by (symmetry; apply N.leb_le; lia). cbn [andb].
    replace (x + 32 <=? 90)%N with false by (symmetry; apply N.leb_gt; lia).
    now rewrite andb_false_r.
  - replace (65 <=? y)%N with true by (symmetry; apply N.leb_le; lia).
    replace (y <=? 90)%N with true by (symmetry; apply N.leb_le; lia). cbn [andb].
    replace (y + 32 <=? 90)%N with false by (symmetry; apply N.leb_gt; lia).
    now rewrite andb_false_r.
Qed.

Lemma css_no_hash : forallb (fun p => match fst p with 35%N :: _ => false | _ => true end) cssColors = true.
Proof. vm_compute. reflexivity. Qed.
Lemma css_get_hash r : css_get (35%N :: r) cssColors = None.
Proof.
  pose proof css_no_hash as H. induction cssColors as [|[n c] l IH]; [reflexivity|].
  cbn [forallb] in H. apply andb_true_iff in H as [H1 H2]. cbn [css_get].
  destruct (text_eqb n (35%N :: r)) eqn:E; [|auto].
  apply text_eqb_spec in E. subst n. discriminate.
Qed.
Lemma css_get_in n c : forall l, NoDup (map fst l) -> In (n, c) l -> css_get n l = Some c.
Proof.
  induction l as [|[m d] l IH]; intros ND H; [destruct H|]. destruct H as [E|H]; cbn.
  - injection E as -> ->. destruct (text_eqb n n) eqn:F; auto.
    assert (text_eqb n n = true) by now apply text_eqb_spec. congruence.
  - inversion ND; subst. destruct (text_eqb m n) eqn:F; [|auto].
    apply text_eqb_spec in F. subst m. exfalso. apply H2. apply in_map_iff. now exists (n, c).
Qed.
Lemma css_nodup : NoDup (map fst cssColors).
Proof.
  assert (E : (if List.list_eq_dec (list_eq_dec N.eq_dec) (nodup (list_eq_dec N.eq_dec) (map fst cssColors)) (map fst cssColors) then true else false) = true)
    by (vm_compute; reflexivity).
  destruct (List.list_eq_dec _ _ _) as [H|]; [|discriminate]. rewrite <- H. apply NoDup_nodup.
Qed.
Lemma css_lower n c : In (n, c) cssColors -> lower n = n.
Proof.
  intros H.
  assert (E : forallb (fun p => text_eqb (lower (fst p)) (fst p)) cssColors = true) by (vm_compute; reflexivity).
  rewrite forallb_forall in E. apply E in H. now apply text_eqb_spec in H.
Qed.

(** hexadecimal digits, of any number *)
Fixpoint hexnum (acc : Z) (vs : list Z) : Z :=
  match vs with [] => acc | v :: r => hexnum (16 * acc + v) r end.
Lemma hexdigits_run cs vs : Forall2 hex cs vs -> forall acc us, vs <> [] \/ us = true ->
  hexdigits acc us us (lower cs) = Some (hexnum acc vs).
Proof.
  induction 1 as [|c v cs vs Hc _ IH]; intros acc us N; cbn.
  - destruct N; [congruence|]. subst. reflexivity.
  - apply hexdigit_spec in Hc as (E & _ & E2 & _). rewrite E2, E. apply IH. auto.
Qed.
Lemma lower_rev t : lower (List.rev t) = List.rev (lower t).
Proof. apply map_rev. Qed.
Lemma lstrip_hex cs vs : Forall2 hex cs vs -> lstrip (lower cs) = lower cs.
Proof. intros [|c v cs' vs' Hc _]; cbn; [reflexivity|]. now apply hexdigit_spec in Hc as (_ & _ & _ & ->). Qed.
Lemma Forall2_rev' {A B} (P : A -> B -> Prop) l l' : Forall2 P l l' -> Forall2 P (List.rev l) (List.rev l').
Proof. induction 1; cbn; [constructor|]. apply Forall2_app; auto. Qed.
Lemma int16_hex cs vs : Forall2 hex cs vs -> vs <> [] -> int16 (lower cs) = Some (hexnum 0 vs).
Proof.
  intros H N. unfold int16, strip. rewrite (lstrip_hex _ _ H), <- lower_rev.
  rewrite (lstrip_hex _ _ (Forall2_rev' _ _ _ H)), <- lower_rev, rev_involutive.
  assert (D : forall c v, hex c v -> lower_char c <> 45%N /\ lower_char c <> 43%N).
  { intros c v Hc. apply hexdigit_spec in Hc as (E & _). split; intros F; rewrite F in E; discriminate. }
  assert (D2 : hexprefixed (lower cs) = Some (hexnum 0 vs)).
  { destruct H as [|c v cs vs Hc H]; [congruence|].
    assert (G : hexdigits 0 false false (lower (c :: cs)) = Some (hexnum 0 (v :: vs)))
      by (apply hexdigits_run; [constructor; auto|left; discriminate]).
    unfold hexprefixed. cbn [lower map] in *.
    destruct cs as [|c2 cs]; cbn [map] in *.
    - destruct (lower_char c) as [|p]; [exact G|]. do 6 (destruct p as [p|p|]; try exact G).
    - inversion H; subst. apply hexdigit_spec in H2 as (E & _).
      replace (_ || _) with false.
      2:{ symmetry. apply orb_false_iff. split; apply N.eqb_neq; intros F; rewrite F in E; discriminate. }
      destruct (lower_char c) as [|p]; [exact G|]. do 6 (destruct p as [p|p|]; try exact G). }
  destruct H as [|c v cs vs Hc H]; [congruence|].
  destruct (D _ _ Hc) as [D3 D4]. cbn [lower map] in *.
  destruct (lower_char c) as [|p]; [exact D2|].
  do 6 (destruct p as [p|p|]; try exact D2; try congruence).
Qed.

(** any number of digits: the colour is made of the low 24 bits *)
Theorem C19_hex_any_length cs vs : Forall2 hex cs vs -> vs <> [] ->
  let n := hexnum 0 vs in
  stringToColor (35%N :: cs) = Ok (toFloat n 16, toFloat n 8, toFloat n 0).
Proof.
  intros H N n. unfold stringToColor. cbn [lower map].
  change (lower_char 35) with 35%N. rewrite css_get_hash.
  change (map lower_char cs) with (lower cs). rewrite (int16_hex _ _ H N). reflexivity.
Qed.

Lemma byte_land n : 0 <= n -> Z.land n 255 = n mod 256.
Proof. intros. apply (Z.land_ones n 8). lia. Qed.
Lemma channel n k : 0 <= n -> 0 <= k -> Z.shiftr (Z.land n (Z.shiftl 255 k)) k = (n / 2 ^ k) mod 256.
Proof.
  intros Hn Hk. rewrite Z.shiftr_land, Z.shiftr_shiftl_l by lia. rewrite Z.sub_diag, Z.shiftl_0_r.
  rewrite Z.shiftr_div_pow2 by lia. apply byte_land. apply Z.div_pos; auto. apply Z.pow_pos_nonneg; lia.
Qed.

(** the 256 values a byte can take *)
Definition bytes : list Z := map Z.of_nat (seq 0 256).
Lemma in_bytes n : 0 <= n < 256 -> In n bytes.
Proof.
  intros H. unfold bytes. rewrite <- (Z2Nat.id n) by lia. apply in_map, in_seq. lia.
Qed.
Lemma forall_bytes (P : Z -> bool) : forallb P bytes = true -> forall n, 0 <= n < 256 -> P n = true.
Proof. intros H n Hn. rewrite forallb_forall in H. apply H, in_bytes, Hn. Qed.

Lemma valid_finite_of_Z n : 0 <= n < 256 ->
  exists f, float_of_Z n = Some f /\ valid64 f = true /\ is_finite_SF f = true /\ SF2R radix2 f = IZR n.
Proof.
  intros H. unfold float_of_Z.
  pose proof (BinarySingleNaN.binary_normalize_correct 53 1024 prec53 lt53 mode_NE n 0 false) as B.
  cbv zeta in B.
  assert (E : F2R (Float radix2 n 0) = IZR n) by (unfold F2R; cbn; lra).
  rewrite E in B.
  rewrite round_generic in B; [| typeclasses eauto | ].
  2:{ apply generic_format_FLT. exists (Float radix2 n 0); cbn; try lia. now rewrite E. }
  rewrite Rlt_bool_true in B.
  2:{ apply Rle_lt_trans with 256%R.
      - rewrite <- abs_IZR. apply IZR_le. lia.
      - change 256%R with (bpow radix2 8). apply bpow_lt. lia. }
  destruct B as (B1 & B2 & _).
  assert (E2 : B2SF (BinarySingleNaN.binary_normalize 53 1024 prec53 lt53 mode_NE n 0 false) = SpecFloat.binary_normalize 53 1024 n 0 false).
  { destruct n as [|p|p]; try lia; cbn [BinarySingleNaN.binary_normalize SpecFloat.binary_normalize]; [reflexivity|].
    rewrite B2SF_SF2B, sf_round_flocq. reflexivity. }
  rewrite <- E2. set (b := BinarySingleNaN.binary_normalize _ _ _ _ _ _ _ _) in *.
  exists (B2SF b). rewrite SF2R_B2SF. repeat split; auto.
  - destruct b; try discriminate; reflexivity.
  - apply valid_binary_B2SF.
  - now rewrite is_finite_SF_B2SF.
Qed.
Lemma f255_real : SF2R radix2 f255 = 255%R.
Proof. unfold f255. cbn. unfold F2R. cbn. lra. Qed.

Lemma sf_round_aux_flocq prec emax s m e l :
  SpecFloat.binary_round_aux prec emax s m e l = binary_round_aux prec emax mode_NE s m e l.
Proof.
  unfold SpecFloat.binary_round_aux, binary_round_aux.
  destruct (shr_fexp _ _ _ _ _) as [mrs' e'].
  rewrite choice_NE. reflexivity.
Qed.
Lemma Bdiv_SF x y : B2SF (@Bdiv 53 1024 prec53 lt53 mode_NE x y) = SFdiv 53 1024 (B2SF x) (B2SF y).
Proof.
  destruct x as [?|?| |? ? ? ?], y as [?|?| |? ? ? ?]; cbn -[SFdiv_core_binary]; try reflexivity;
  rewrite ?B2SF_SF2B; try reflexivity.
  destruct (SFdiv_core_binary _ _ _ _ _ _) as [[? ?] ?]. now rewrite sf_round_aux_flocq.
Qed.

(** a channel of the colour is the double nearest to byte/255 *)
Lemma toFloat_nearest n k : 0 <= n -> 0 <= k ->
  is_double_nearest (IZR ((n / 2 ^ k) mod 256) / 255) (toFloat n k).
Proof.
  intros Hn Hk. unfold toFloat. rewrite channel by auto.
  set (b := (n / 2 ^ k) mod 256).
  assert (Hb : 0 <= b < 256) by (apply Z.mod_pos_bound; lia).
  destruct (valid_finite_of_Z b Hb) as (f & -> & V & F & R).
  assert (V255 : valid_binary 53 1024 f255 = true) by reflexivity.
  pose proof (Bdiv_correct 53 1024 prec53 lt53 mode_NE (SF2B f V) (SF2B f255 V255)) as D.
  rewrite !B2R_SF2B, R, f255_real in D. specialize (D ltac:(lra)).
  assert (L : (0 <= IZR b / 255 <= 1)%R).
  { assert (0 <= IZR b <= 255)%R by (split; [apply IZR_le|apply (IZR_le b 255)]; lia). lra. }
  rewrite Rlt_bool_true in D.
  2:{ apply Rle_lt_trans with 1%R.
      - rewrite Rabs_pos_eq.
        + apply round_le_generic; try typeclasses eauto; [apply (fexp_correct 53 1024 prec53)| |lra].
          change 1%R with (bpow radix2 0). apply generic_format_bpow. cbv; discriminate.
        + apply round_ge_generic; try typeclasses eauto; [apply (fexp_correct 53 1024 prec53)| |lra]. apply generic_format_0.
      - change 1%R with (bpow radix2 0). apply bpow_lt. lia. }
  destruct D as (D1 & D2 & _). unfold is_double_nearest, fdiv.
  pose proof (Bdiv_SF (SF2B f V) (SF2B f255 V255)) as E. rewrite !B2SF_SF2B in E. rewrite <- E.
  repeat split.
  - apply valid_binary_B2SF.
  - rewrite is_finite_SF_B2SF, D2, is_finite_SF2B. exact F.
  - rewrite SF2R_B2SF, D1. reflexivity.
Qed.

(** C19.  '#rrggbb', in either letter case, is the colour (r/255, g/255, b/255):
    each component is the double nearest to that fraction. *)
Theorem C19_hex_rrggbb c1 c2 c3 c4 c5 c6 v1 v2 v3 v4 v5 v6 :
  hex c1 v1 -> hex c2 v2 -> hex c3 v3 -> hex c4 v4 -> hex c5 v5 -> hex c6 v6 ->
  exists r g b,
    stringToColor [35; c1; c2; c3; c4; c5; c6]%N = Ok (r, g, b) /\
    is_double_nearest (IZR (16 * v1 + v2) / 255) r /\
    is_double_nearest (IZR (16 * v3 + v4) / 255) g /\
    is_double_nearest (IZR (16 * v5 + v6) / 255) b.
Proof.
  intros H1 H2 H3 H4 H5 H6.
  pose proof (C19_hex_any_length [c1; c2; c3; c4; c5; c6] [v1; v2; v3; v4; v5; v6]
     ltac:(repeat (constructor; auto)) ltac:(discriminate)) as E. cbv zeta in E.
  cbn [hexnum] in E.
  apply hexdigit_spec in H1 as (_ & B1 & _), H2 as (_ & B2 & _), H3 as (_ & B3 & _),
    H4 as (_ & B4 & _), H5 as (_ & B5 & _), H6 as (_ & B6 & _).
  set (n := 16 * _ + v6) in E.
  assert (Hn : n = (16 * v1 + v2) * 65536 + (16 * v3 + v4) * 256 + (16 * v5 + v6)) by (unfold n; lia).
  clearbody n. subst n.
  set (r := 16 * v1 + v2) in *. set (g := 16 * v3 + v4) in *. set (b := 16 * v5 + v6) in *.
  assert (0 <= r < 256 /\ 0 <= g < 256 /\ 0 <= b < 256) as (Hr & Hg & Hb) by lia.
  assert (N : 0 <= r * 65536 + g * 256 + b) by lia.
  eexists _, _, _. split; [exact E|].
  pose proof (toFloat_nearest _ 16 N ltac:(lia)) as T1.
  pose proof (toFloat_nearest _ 8 N ltac:(lia)) as T2.
  pose proof (toFloat_nearest _ 0 N ltac:(lia)) as T3.
  change (2 ^ 16) with 65536 in T1. change (2 ^ 8) with 256 in T2. change (2 ^ 0) with 1 in T3.
  replace ((r * 65536 + g * 256 + b) / 65536) with r in T1
    by (apply (Z.div_unique _ 65536 _ (g * 256 + b)); lia).
  replace ((r * 65536 + g * 256 + b) / 256) with (r * 256 + g) in T2
    by (apply (Z.div_unique _ 256 _ b); lia).
  rewrite Z.div_1_r in T3.
  replace (r mod 256) with r in T1 by (symmetry; apply Z.mod_small; lia).
  replace ((r * 256 + g) mod 256) with g in T2
    by (apply (Z.mod_unique _ 256 r); lia).
  replace ((r * 65536 + g * 256 + b) mod 256) with b in T3
    by (apply (Z.mod_unique _ 256 (r * 256 + g)); lia).
  auto.
Qed.

Definition byte_ok (n : Z) : bool :=
  match toInt (toFloat n 0), toInt (r64 (r32 (toFloat n 0))) with
  | Some a, Some b => (a =? n) && (b =? n)
  | _, _ => false
  end.
Lemma byte_ok_spec n : byte_ok n = true ->
  toInt (toFloat n 0) = Some n /\ toInt (r64 (r32 (toFloat n 0))) = Some n.
Proof.
  unfold byte_ok. set (x := toInt (toFloat n 0)). set (y := toInt (r64 _)). clearbody x y.
  destruct x as [a|], y as [b|]; intros H; try discriminate H.
  apply andb_true_iff in H as [F1 F2]. apply Z.eqb_eq in F1, F2. now subst.
Qed.
Lemma bytes_ok : forallb byte_ok bytes = true.
Proof. vm_compute. reflexivity. Qed.
(** toInt( toFloat( n )) = n for every byte; and still after storage in a
    float32 array. *)
Theorem C19_byte_round_trip n : 0 <= n < 256 ->
  toInt (toFloat n 0) = Some n /\ toInt (r64 (r32 (toFloat n 0))) = Some n.
Proof. intros H. apply byte_ok_spec, (forall_bytes _ bytes_ok), H. Qed.

(** names, in any mixture of cases *)
Theorem C19_names_case_insensitive s name c :
  In (name, c) cssColors -> same_but_case s name -> stringToColor s = Ok c.
Proof.
  intros H S. apply lower_same in S. unfold stringToColor. rewrite S, (css_lower _ _ H).
  rewrite (css_get_in _ _ _ css_nodup H). reflexivity.
Qed.
(** more generally no string's colour depends on its case *)
Theorem C19_case_insensitive s s' : same_but_case s s' -> stringToColor s = stringToColor s'.
Proof. intros S. unfold stringToColor. now rewrite (lower_same _ _ S). Qed.

(** strings that neither are names nor start with '#' are rejected *)
Theorem C19_other_strings_rejected s :
  (forall name c, In (name, c) cssColors -> lower s <> name) ->
  (forall r, s <> 35%N :: r) -> stringToColor s = Exc ValueError.
Proof.
  intros H N. unfold stringToColor.
  assert (E : css_get (lower s) cssColors = None).
  { induction cssColors as [|[n c] l IH]; [reflexivity|]. cbn.
    destruct (text_eqb n (lower s)) eqn:F.
    - apply text_eqb_spec in F. exfalso. eapply (H n c); [left; auto|auto].
    - apply IH. intros. eapply H. right. eauto. }
  rewrite E. destruct s as [|c r]; [reflexivity|]. cbn [lower map].
  assert (C : lower_char c <> 35%N).
  { unfold lower_char. destruct (_ && _) eqn:F.
    - apply andb_true_iff in F as [F _]. apply N.leb_le in F. lia.
    - intros ->. eapply N. reflexivity. }
  destruct (lower_char c) as [|p]; [reflexivity|].
  do 6 (destruct p as [p|p|]; try reflexivity; try congruence).
Qed.

(** every named colour is in [0,1]^3 (as real numbers) and is a double *)
Definition in01 (f : fl) : Prop :=
  valid64 f = true /\ is_finite_SF f = true /\ (0 <= SF2R radix2 f <= 1)%R.
Lemma in01_dec f : valid64 f && fle fzero f && fle f fone = true -> in01 f.
Proof.
  intros H. apply andb_true_iff in H as [H H2]. apply andb_true_iff in H as [V H1].
  assert (F : is_finite_SF f = true) by (destruct f as [?|[]| |? ? ?]; try discriminate; reflexivity).
  split; [auto|]. split; [auto|].
  assert (V1 : valid_binary 53 1024 fone = true) by reflexivity.
  assert (V0 : valid_binary 53 1024 fzero = true) by reflexivity.
  pose proof (Bleb_correct 53 1024 (SF2B fzero V0) (SF2B f V)) as B0.
  pose proof (Bleb_correct 53 1024 (SF2B f V) (SF2B fone V1)) as B1.
  rewrite !is_finite_SF2B in B0, B1. specialize (B0 eq_refl F). specialize (B1 F eq_refl).
  unfold Bleb in B0, B1. rewrite !B2SF_SF2B, !B2R_SF2B in B0, B1.
  unfold fle in H1, H2. rewrite B0 in H1. rewrite B1 in H2.
  replace (SF2R radix2 fone) with 1%R in H2 by (cbn; unfold F2R; cbn; lra).
  change (SF2R radix2 fzero) with 0%R in H1.
  destruct (Rle_bool_spec 0 (SF2R radix2 f)); [|discriminate].
  destruct (Rle_bool_spec (SF2R radix2 f) 1); [|discriminate]. lra.
Qed.
Theorem C19_named_in_range name r g b :
  In (name, (r, g, b)) cssColors -> in01 r /\ in01 g /\ in01 b.
Proof.
  intros H.
  assert (E : forallb (fun p => let '(_, (r, g, b)) := p in
     forallb (fun f => valid64 f && fle fzero f && fle f fone) [r; g; b]) cssColors = true)
    by (vm_compute; reflexivity).
  rewrite forallb_forall in E. apply E in H. cbn [forallb] in H.
  apply andb_true_iff in H as [H1 H]. apply andb_true_iff in H as [H2 H].
  apply andb_true_iff in H as [H3 _]. auto using in01_dec.
Qed.

(** The CSS shorthand '#rgb' is accepted but is a different colour: the
    first component is always 0, for every three digits; so '#fff' is not
    white. *)
Theorem C19_shorthand_refuted c1 c2 c3 v1 v2 v3 :
  hex c1 v1 -> hex c2 v2 -> hex c3 v3 ->
  exists g b, stringToColor [35; c1; c2; c3]%N = Ok (fzero, g, b) /\
              is_double_nearest (IZR v1 / 255) g.
Proof.
  intros H1 H2 H3.
  pose proof (C19_hex_any_length [c1; c2; c3] [v1; v2; v3]
     ltac:(repeat (constructor; auto)) ltac:(discriminate)) as E. cbv zeta in E.
  cbn [hexnum] in E.
  apply hexdigit_spec in H1 as (_ & B1 & _), H2 as (_ & B2 & _), H3 as (_ & B3 & _).
  set (n := 16 * _ + v3) in E.
  assert (Hn : n = v1 * 256 + (16 * v2 + v3)) by (unfold n; lia). clearbody n. subst n.
  assert (N : 0 <= v1 * 256 + (16 * v2 + v3)) by lia.
  assert (Z0 : toFloat (v1 * 256 + (16 * v2 + v3)) 16 = fzero).
  { unfold toFloat. rewrite channel by lia.
    rewrite Z.div_small by (change (2 ^ 16) with 65536; lia). vm_compute. reflexivity. }
  rewrite Z0 in E. eexists _, _. split; [exact E|].
  pose proof (toFloat_nearest _ 8 N ltac:(lia)) as T. change (2 ^ 8) with 256 in T.
  replace ((v1 * 256 + (16 * v2 + v3)) / 256) with v1 in T
    by (apply (Z.div_unique _ 256 _ (16 * v2 + v3)); lia).
  replace (v1 mod 256) with v1 in T by (symmetry; apply Z.mod_small; lia). exact T.
Qed.

(** concrete cases *)
Example ex_hex : stringToColor (lit "#FF8000") = Ok (fone, toFloat 128 0, fzero).
Proof. vm_compute. reflexivity. Qed.
Example ex_hex_digits : hex 70 15 /\ hex 102 15 /\ hex 56 8.
Proof. repeat split; [apply (hex_up 15)|apply (hex_low 15)|apply (hex_dec 8)]; lia. Qed.
Example ex_name : same_but_case (lit "DarkOrange") (lit "darkorange") /\
   stringToColor (lit "DarkOrange") = Ok (dlit 10 1, dlit 549 3, dlit 0 1).
Proof.
  split; [|vm_compute; reflexivity].
  assert (U : forall x, (65 <= x <= 90)%N -> same_letter x (x + 32)) by (unfold same_letter; auto).
  assert (S : forall x, same_letter x x) by (unfold same_letter; auto).
  unfold same_but_case. cbn [lit].
  apply Forall2_cons; [apply (U 68%N); lia|].
  do 3 (apply Forall2_cons; [apply S|]). apply Forall2_cons; [apply (U 79%N); lia|].
  repeat (apply Forall2_cons; [apply S|]). constructor.
Qed.
Example ex_rejected : stringToColor (lit "no such colour") = Exc ValueError /\ stringToColor [] = Exc ValueError
  /\ stringToColor (lit "#") = Exc ValueError /\ stringToColor (lit "#12g456") = Exc ValueError.
Proof. vm_compute. auto. Qed.

Print Assumptions C19_hex_rrggbb.
Print Assumptions C19_byte_round_trip.
Print Assumptions C19_names_case_insensitive.
Print Assumptions C19_other_strings_rejected.
Print Assumptions C19_named_in_range.
Print Assumptions C19_shorthand_refuted.
