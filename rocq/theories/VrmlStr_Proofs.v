(** Lemmas about VrmlStr_Model: number texts. *)
From Coq Require Import Reals Psatz SpecFloat.
From Flocq Require Import Core.Core IEEE754.BinarySingleNaN.
From Verif Require Import Base Text Float Float_Proofs Coerce_Model Coerce_Spec Coerce_Proofs Grammar_Model Grammar_Proofs
  Lex_Spec Lex_Proofs Doc_Spec Doc_Proofs PyNum PyNum_Proofs VrmlStr_Model VrmlStr_Spec.
Local Open Scope Z_scope.
Local Open Scope list_scope.

Definition sgt (neg : bool) : text := if neg then [45%N] else [].
Definition frac (fp : option text) : text := match fp with None => [] | Some l => 46%N :: l end.
Definition fdig (fp : option text) : text := match fp with None => [] | Some l => l end.
Definition expo (x : option (text * text)) : text := match x with None => [] | Some (sg, xp) => 101%N :: sg ++ xp end.
Definition expo_ok (x : option (text * text)) : Prop :=
  match x with None => True | Some (sg, xp) => digits xp /\ (sg = [] \/ sg = [45%N] \/ sg = [43%N]) end.
Definition expo_val (x : option (text * text)) : Z :=
  match x with None => 0 | Some (sg, xp) => if text_eqb sg [45%N] then - digits_val xp else digits_val xp end.

Lemma shape_inv t : float_shape t -> exists neg ip fp x, t = sgt neg ++ ip ++ frac fp ++ expo x /\
  digits ip /\ (forall l, fp = Some l -> digits l) /\ expo_ok x.
Proof.
  intros [neg ip fr ex Hi Hf Hx].
  destruct Hf as [->|(fp & -> & Hfp)]; [exists neg, ip, None|exists neg, ip, (Some fp)];
  (destruct Hx as [->|(sg & xp & -> & Hxp & Hsg)]; [exists None|exists (Some (sg, xp))]);
  (split; [reflexivity|split; [exact Hi|split; [intros l [=]; subst; auto|cbn; auto]]]).
Qed.

Lemma take_sign_sgt neg r : (match r with [] => true | c :: _ => negb (c =? 45)%N && negb (c =? 43)%N end) = true ->
  take_sign (sgt neg ++ r) = (neg, r).
Proof.
  destruct neg; [reflexivity|]. destruct r as [|c r]; [reflexivity|]. cbn.
  intros H. apply andb_true_iff in H as [H1 H2]. apply negb_true_iff in H1, H2. rewrite H1, H2. reflexivity.
Qed.

Lemma dec_parts_gen neg ip fp x : forallb digit ip = true -> forallb digit (fdig fp) = true ->
  nonempty (ip ++ fdig fp) = true -> expo_ok x ->
  dec_parts (sgt neg ++ ip ++ frac fp ++ expo x) =
  Some (neg, digits_val (ip ++ fdig fp), expo_val x - Z.of_nat (List.length (fdig fp))).
Proof.
  intros Hi Hf Hne Hx. unfold dec_parts.
  assert (Hexp_head : match expo x with [] => true | c :: _ => negb (digit c) end = true).
  { destruct x as [[sg xp]|]; reflexivity. }
  assert (Hfr_head : match frac fp ++ expo x with [] => true | c :: _ => negb (digit c) end = true).
  { destruct fp; [reflexivity|]. exact Hexp_head. }
  rewrite take_sign_sgt.
  2:{ destruct ip as [|c ip].
      - destruct fp as [fp|]; [reflexivity|discriminate Hne].
      - cbn in Hi |- *. apply andb_true_iff in Hi as [Hc _]. apply digit_not in Hc as (-> & -> & _). reflexivity. }
  rewrite (span_all digit ip) by auto. cbv beta iota.
  assert (E : match frac fp ++ expo x with
              | [] => ([], [])
              | c :: r' => if (c =? 46)%N then span digit r' else ([], frac fp ++ expo x)
              end = (fdig fp, expo x)).
  { destruct fp as [fp|]; cbn [frac app].
    - change ((46 =? 46)%N) with true. cbv iota. apply span_all; auto.
    - destruct x as [[sg xp]|]; reflexivity. }
  match goal with |- (let (_, _) := ?m in _) = _ => change m with (match frac fp ++ expo x with
              | [] => ([], [])
              | c :: r' => if (c =? 46)%N then span digit r' else ([], frac fp ++ expo x)
              end) end.
  rewrite E. rewrite Hne. cbn [negb].
  destruct x as [[sg xp]|]; cbn [expo expo_val]; [|reflexivity].
  change ((101 =? 101)%N || (101 =? 69)%N)%bool with true. cbv iota.
  destruct Hx as [[Hxd Hxn] Hsg].
  assert (Hxh : (match xp with [] => true | c :: _ => negb (c =? 45)%N && negb (c =? 43)%N end) = true).
  { destruct xp as [|c xp]; [reflexivity|]. cbn in Hxd. apply andb_true_iff in Hxd as [Hc _].
    apply digit_not in Hc as (-> & -> & _). reflexivity. }
  assert (Es : take_sign (sg ++ xp) = (text_eqb sg [45%N], xp)).
  { destruct Hsg as [->|[->| ->]].
    - apply (take_sign_sgt false); exact Hxh.
    - reflexivity.
    - reflexivity. }
  rewrite Es.
  pose proof (span_all digit xp [] Hxd eq_refl) as Sp. rewrite app_nil_r in Sp. rewrite Sp.
  destruct xp as [|c xp]; [congruence|]. cbn [nonempty negb andb].
  destruct (text_eqb sg [45%N]); reflexivity.
Qed.

Lemma read_float_gen neg ip fp x : forallb digit ip = true -> forallb digit (fdig fp) = true ->
  nonempty (ip ++ fdig fp) = true -> expo_ok x ->
  read_float (sgt neg ++ ip ++ frac fp ++ expo x) =
  Some (dec2fl neg (digits_val (ip ++ fdig fp)) (expo_val x - Z.of_nat (List.length (fdig fp)))).
Proof. intros. unfold read_float. rewrite dec_parts_gen; auto. Qed.

Lemma digit_dd l : forallb digit l = true -> forallb digit_or_dot l = true.
Proof.
  intros H. apply forallb_forall. intros c Hc. rewrite forallb_forall in H. unfold digit_or_dot. rewrite H; auto.
Qed.
Lemma number_gen neg ip fp x : forallb digit ip = true -> forallb digit (fdig fp) = true ->
  nonempty (ip ++ fdig fp) = true -> expo_ok x ->
  is_number (sgt neg ++ ip ++ frac fp ++ expo x).
Proof.
  intros Hi Hf Hne Hx.
  assert (Hs : forallb sign (sgt neg) = true) by (destruct neg; reflexivity).
  assert (Hd : forallb digit_or_dot (ip ++ frac fp) = true).
  { rewrite forallb_app, digit_dd by auto. destruct fp as [fp|]; [|reflexivity]. cbn. apply digit_dd. exact Hf. }
  assert (Hn : nonempty (ip ++ frac fp) = true).
  { destruct ip; [|reflexivity]. destruct fp; [reflexivity|discriminate]. }
  destruct x as [[sg xp]|]; cbn [expo].
  - rewrite (app_assoc ip). apply num_exp; auto.
    + rewrite forallb_app. destruct Hx as [[Hxd _] Hsg]. apply andb_true_iff. split.
      * destruct Hsg as [->|[->| ->]]; reflexivity.
      * apply forallb_forall. intros c Hc. apply digit_dd in Hxd. rewrite forallb_forall in Hxd.
        rewrite Hxd; auto. apply orb_true_r.
    + destruct Hx as [[_ Hxn] _]. destruct sg; [|reflexivity]. destruct xp; [congruence|reflexivity].
  - rewrite app_nil_r. apply num_plain; auto.
Qed.

Lemma digits_ne l k : digits l -> nonempty (l ++ k) = true.
Proof. intros [_ H]. destruct l; [congruence|reflexivity]. Qed.

Lemma shape_number t : float_shape t -> is_number t.
Proof.
  intros H. apply shape_inv in H as (neg & ip & fp & x & -> & Hi & Hf & Hx).
  apply number_gen; auto; [apply Hi| |apply digits_ne; exact Hi].
  destruct fp as [fp|]; [apply Hf; reflexivity|reflexivity].
Qed.

Lemma digits_val_0 l : digits_val (48%N :: l) = digits_val l.
Proof. reflexivity. Qed.
Lemma not_digit_in c l : forallb digit l = true -> digit c = false -> ~ In c l.
Proof. intros H Hc Hin. rewrite forallb_forall in H. specialize (H _ Hin). congruence. Qed.

(** the three leading cases and the trailing one of [compact] *)
Lemma lead (neg : bool) ip fp x : digits ip -> firstn 2 (ip ++ frac fp ++ expo x) = lit "0." ->
  ip = [48%N] /\ exists l, fp = Some l.
Proof.
  intros [Hd Hn] E. destruct ip as [|c ip]; [congruence|]. cbn in E. injection E as -> E.
  destruct ip as [|c ip].
  - split; [reflexivity|]. destruct fp as [l|]; [eauto|]. destruct x as [[sg xp]|]; discriminate E.
  - cbn in E. injection E as ->. cbn in Hd. discriminate.
Qed.
Lemma tail2 (a l : text) (p q : N) : last_n 2 (a ++ l) = [p; q] -> (2 <= List.length l)%nat -> exists l', l = l' ++ [p; q].
Proof.
  unfold last_n. intros E H. rewrite skipn_app in E. rewrite app_length in E.
  rewrite (skipn_all2 a) in E by lia. cbn [app] in E.
  exists (firstn (List.length l - 2) l). rewrite <- E.
  replace (List.length a + List.length l - 2 - List.length a)%nat with (List.length l - 2)%nat by lia.
  symmetry. apply firstn_skipn.
Qed.
Lemma trail neg ip fp x : digits ip -> (forall l, fp = Some l -> digits l) -> expo_ok x ->
  last_n 2 (sgt neg ++ ip ++ frac fp ++ expo x) = lit ".0" -> fp = Some [48%N] /\ x = None.
Proof.
  intros Hi Hf Hx E.
  destruct x as [[sg xp]|].
  - exfalso. destruct Hx as [[Hxd Hxn] Hsg]. rewrite !app_assoc in E. apply tail2 in E as (l' & E).
    2:{ cbn [expo List.length]. rewrite app_length. destruct xp; [congruence|]. cbn. lia. }
    cbn [expo] in E. assert (I46 : In 46%N (101%N :: sg ++ xp)) by (rewrite E; apply in_app_iff; right; left; reflexivity).
    destruct I46 as [I|I]; [discriminate|]. apply in_app_iff in I as [I|I].
    + destruct Hsg as [->|[->| ->]]; cbn in I; intuition discriminate.
    + revert I. apply not_digit_in; auto.
  - cbn [expo] in E. rewrite app_nil_r in E. split; [|reflexivity]. destruct fp as [l|].
    + destruct (Hf l eq_refl) as [Hl Hn]. rewrite app_assoc in E. apply tail2 in E as (l' & E).
      2:{ cbn. destruct l; [congruence|cbn; lia]. }
      cbn [frac] in E. destruct l' as [|c l'].
      * cbn in E. injection E as ->. reflexivity.
      * exfalso. cbn in E. injection E as Ec E. rewrite E, forallb_app in Hl. apply andb_true_iff in Hl as [_ Hl]. cbv in Hl. discriminate Hl.
    + exfalso. cbn [frac] in E. rewrite app_nil_r in E. destruct Hi as [Hd Hn].
      destruct ip as [|c [|d ip]]; [congruence| |].
      * destruct neg; cbn in E; [|discriminate E]. discriminate E.
      * apply tail2 in E as (l' & E); [|cbn; lia]. rewrite E, forallb_app in Hd. apply andb_true_iff in Hd as [_ Hd]. cbv in Hd. discriminate Hd.
Qed.

Lemma dec2fl_tail neg ip : forallb digit ip = true ->
  dec2fl neg (digits_val (ip ++ [48%N])) (0 - 1) = dec2fl neg (digits_val ip) 0.
Proof.
  intros Hd. assert (H0 := digits_val_nonneg ip Hd).
  assert (E : digits_val (ip ++ [48%N]) = digits_val ip * 10).
  { rewrite digits_val_app. cbn [List.length]. change (10 ^ Z.of_nat 1) with 10. change (digits_val [48%N]) with 0. ring. }
  rewrite E. apply dec2fl_same; try lia. unfold dec_val. rewrite mult_IZR. unfold p10. cbn [bpow].
  change (Z.pow_pos radix10 1) with 10. cbn. change (radix_val radix10) with 10. field.
Qed.

Lemma compact_ok t : float_shape t ->
  is_number (compact t) /\ read_float (compact t) = read_float t.
Proof.
  intros H. pose proof H as H0. apply shape_inv in H as (neg & ip & fp & x & -> & Hi & Hf & Hx).
  assert (Hfd : forallb digit (fdig fp) = true) by (destruct fp as [l|]; [apply (Hf l); reflexivity|reflexivity]).
  assert (Hid : forallb digit ip = true) by apply Hi.
  pose proof (read_float_gen neg ip fp x Hid Hfd (digits_ne _ _ Hi) Hx) as R. rewrite R. clear R.
  unfold compact.
  destruct (text_eqb _ (lit "0.0")) eqn:E1.
  { apply text_eqb_spec in E1. split; [apply (num_plain [] [48%N]); reflexivity|].
    destruct neg; [discriminate E1|].
    assert (E2 : firstn 2 (ip ++ frac fp ++ expo x) = lit "0.") by (cbn [sgt app] in E1; rewrite E1; reflexivity).
    destruct (lead false ip fp x Hi E2) as [-> [l ->]]. cbn [frac sgt app] in E1. cbn in E1. injection E1 as E1.
    assert (l = [48%N] /\ expo x = []) as [-> E].
    { destruct (Hf l eq_refl) as [Hl Hn]. destruct l as [|c l]; [congruence|]. cbn in E1. injection E1 as -> E1.
      apply app_eq_nil in E1 as [-> ->]. auto. }
    reflexivity. }
  destruct (text_eqb _ (lit "0.")) eqn:E2.
  { apply text_eqb_spec in E2. destruct neg; [destruct ip as [|? [|]]; discriminate E2|].
    cbn [sgt app] in E2. destruct (lead false ip fp x Hi E2) as [-> [l ->]]. destruct (Hf l eq_refl) as [Hl Hn].
    change (skipn 1 (sgt false ++ [48%N] ++ frac (Some l) ++ expo x)) with (sgt false ++ [] ++ frac (Some l) ++ expo x).
    assert (Hne : nonempty ([] ++ fdig (Some l)) = true) by (destruct l; [congruence|reflexivity]).
    split; [apply number_gen; auto|]. rewrite read_float_gen; auto. }
  destruct (text_eqb (firstn 3 _) _) eqn:E3.
  { apply text_eqb_spec in E3. destruct neg.
    2:{ exfalso. destruct ip as [|c ip]; [destruct Hi; congruence|]. cbn in E3. injection E3 as -> _.
        cbn in Hid. discriminate. }
    assert (E4 : firstn 2 (ip ++ frac fp ++ expo x) = lit "0.").
    { change (firstn 3 (sgt true ++ ip ++ frac fp ++ expo x)) with (45%N :: firstn 2 (ip ++ frac fp ++ expo x)) in E3.
      injection E3 as E3. exact E3. }
    destruct (lead true ip fp x Hi E4) as [-> [l ->]]. destruct (Hf l eq_refl) as [Hl Hn].
    change (lit "-" ++ skipn 2 (sgt true ++ [48%N] ++ frac (Some l) ++ expo x)) with (sgt true ++ [] ++ frac (Some l) ++ expo x).
    assert (Hne : nonempty ([] ++ fdig (Some l)) = true) by (destruct l; [congruence|reflexivity]).
    split; [apply number_gen; auto|]. rewrite read_float_gen; auto. }
  destruct (text_eqb (last_n 2 _) _) eqn:E4.
  { apply text_eqb_spec in E4. destruct (trail neg ip fp x Hi Hf Hx E4) as [-> ->].
    assert (E : but_last 2 (sgt neg ++ ip ++ frac (Some [48%N]) ++ expo None) = sgt neg ++ ip ++ frac None ++ expo None).
    { cbn [frac expo]. rewrite !app_nil_r. unfold but_last.
      rewrite (app_assoc (sgt neg)). rewrite app_length. cbn [List.length].
      replace (List.length (sgt neg ++ ip) + 2 - 2)%nat with (List.length (sgt neg ++ ip) + 0)%nat by lia.
      rewrite firstn_app_2. cbn. apply app_nil_r. }
    rewrite E. assert (Hne := digits_ne ip (fdig None) Hi).
    split; [apply number_gen; auto|]. rewrite read_float_gen; auto. cbn [fdig List.length expo_val]. rewrite app_nil_r.
    rewrite <- dec2fl_tail by auto. reflexivity. }
  split; [apply shape_number; exact H0|]. apply read_float_gen; auto. apply digits_ne. exact Hi.
Qed.

(** *** integers *)
Lemma uint_text_digit d : forallb digit (uint_text d) = true.
Proof. induction d; cbn; auto. Qed.
Lemma digits_acc (l : text) : forall a, fold_left (fun a c => a * 10 + (Z.of_N c - 48)) l a = a * 10 ^ Z.of_nat (List.length l) + digits_val l.
Proof.
  intros a. unfold digits_val. revert a. induction l as [|c l IH]; intros a; [cbn; ring|].
  cbn [fold_left List.length]. rewrite IH, (IH (0 * 10 + _)). rewrite Nat2Z.inj_succ, Z.pow_succ_r by lia. ring.
Qed.
Lemma uint_val d : digits_val (uint_text d) = Z.of_N (N.of_uint d).
Proof.
  unfold N.of_uint.
  assert (H : forall d a, fold_left (fun a c => a * 10 + (Z.of_N c - 48)) (uint_text d) (Zpos a) = Zpos (Pos.of_uint_acc d a)).
  { clear d. induction d; intros a; cbn [uint_text fold_left Pos.of_uint_acc]; [reflexivity|..];
      rewrite <- IHd; f_equal; cbn [Z.of_N]; lia. }
  unfold digits_val. induction d; cbn [uint_text fold_left Pos.of_uint]; [reflexivity|..];
    try (change (0 * 10 + (Z.of_N 48 - 48)) with 0; exact IHd);
    cbn [Z.of_N]; rewrite <- H; reflexivity.
Qed.
Lemma decN_val n : digits_val (decN n) = Z.of_N n.
Proof. unfold decN. rewrite uint_val. rewrite DecimalN.Unsigned.of_to. reflexivity. Qed.
Lemma decN_digit n : forallb digit (decN n) = true.
Proof. apply uint_text_digit. Qed.
(** no leading zero *)
Lemma nzhead_head d x : Decimal.nzhead d <> Decimal.D0 x.
Proof. induction d; cbn; try discriminate. exact IHd. Qed.
Lemma decN_head p : exists c r, decN (Npos p) = c :: r /\ (c =? 48)%N = false.
Proof.
  unfold decN. pose proof (DecimalN.Unsigned.to_of (N.to_uint (Npos p))) as H.
  rewrite DecimalN.Unsigned.of_to in H.
  assert (NN : N.to_uint (Npos p) <> Decimal.D0 Decimal.Nil).
  { intros E. pose proof (DecimalN.Unsigned.of_to (Npos p)) as Q. rewrite E in Q. discriminate Q. }
  unfold Decimal.unorm in H. pose proof (nzhead_head (N.to_uint (Npos p))) as Z.
  destruct (Decimal.nzhead (N.to_uint (Npos p))) as [|d|d|d|d|d|d|d|d|d|d]; rewrite H in *; try congruence;
    try (cbn [uint_text]; do 2 eexists; split; reflexivity).
Qed.
Lemma decN_digits n : digits (decN n).
Proof.
  split; [apply decN_digit|]. destruct n; [discriminate|]. destruct (decN_head p) as (c & r & -> & _). discriminate.
Qed.
Lemma str_int_shape z : exists neg n, str_int z = sgt neg ++ decN n.
Proof.
  destruct z as [|p|p]; [exists false, 0%N|exists false, (Npos p)|exists true, (Npos p)]; reflexivity.
Qed.
Lemma str_int_number z : is_number (str_int z).
Proof.
  destruct (str_int_shape z) as (neg & n & ->).
  pose proof (number_gen neg (decN n) None None (decN_digit n) eq_refl (digits_ne _ _ (decN_digits n)) I) as H.
  cbn [frac expo] in H. rewrite !app_nil_r in H. exact H.
Qed.
Lemma str_int_read z : read_int (str_int z) = Some z.
Proof.
  destruct z as [|p|p]; [reflexivity|..]; cbn [str_int]; destruct (decN_head p) as (c & r & E & H0);
    pose proof (decN_val (Npos p)) as V; pose proof (decN_digit (Npos p)) as D; rewrite E in *;
    assert (Dc := D); cbn [forallb] in Dc; apply andb_true_iff in Dc as [Dc _]; apply digit_not in Dc as (D1 & D2 & _);
    unfold read_int; cbn [take_sign].
  - rewrite D1, D2, H0, D, V. reflexivity.
  - change (45 =? 45)%N with true. cbv iota. rewrite H0, D, V. reflexivity.
Qed.

(** *** strings *)
Local Open Scope nat_scope.
Definition esc_char (c : N) : text :=
  if (c =? 92)%N then [92; 92]%N else if (c =? 34)%N then [92; 34]%N else [c].
Lemma join_cons sep x l : l <> [] -> join sep (x :: l) = x ++ sep ++ join sep l.
Proof. destruct l; [congruence|reflexivity]. Qed.
Lemma split_loop_ne c cur s : split_loop c cur s <> [].
Proof. revert cur. induction s as [|x s IH]; intros cur; cbn; [discriminate|]. destruct (x =? c)%N; [discriminate|apply IH]. Qed.
Lemma join_split sep c s : forall cur,
  join sep (split_loop c cur s) = cur ++ List.concat (map (fun x => if (x =? c)%N then sep else [x]) s).
Proof.
  induction s as [|x s IH]; intros cur; cbn [split_loop map List.concat].
  - cbn. symmetry. apply app_nil_r.
  - destruct (x =? c)%N.
    + rewrite join_cons by apply split_loop_ne. rewrite IH. reflexivity.
    + rewrite IH, <- app_assoc. reflexivity.
Qed.
Lemma escape_spec s : sfstring_vrmlstr s = 34%N :: List.concat (map esc_char s) ++ [34%N].
Proof.
  unfold sfstring_vrmlstr, split. cbv zeta. rewrite !join_split, !app_nil_l. cbn [app]. f_equal. f_equal.
  induction s as [|c s IH]; [reflexivity|]. cbn [map List.concat]. rewrite map_app, concat_app, IH. f_equal.
  unfold esc_char. destruct (N.eqb_spec c 92) as [->|]; [reflexivity|]. cbn. destruct (N.eqb_spec c 34); reflexivity.
Qed.
Lemma escape_body s : string_body (List.concat (map esc_char s)) s.
Proof.
  induction s as [|c s IH]; [constructor|]. cbn [map List.concat]. unfold esc_char.
  destruct (N.eqb_spec c 92) as [->|H1]; [apply sb_back; exact IH|].
  destruct (N.eqb_spec c 34) as [->|H2]; [apply sb_quote; exact IH|]. apply sb_char; auto.
Qed.
(** what the reader makes of the body of a string *)
Lemma read_flush sp rn l : read_string (T G_SFString sp (flush rn ++ l)) = rn ++ read_string (T G_SFString sp l).
Proof. destruct rn; reflexivity. Qed.
Lemma read_pieces sp b s : string_body b s -> forall rn, read_string (T G_SFString sp (pieces rn b)) = rn ++ s.
Proof.
  intros H. induction H as [|c b s H1 H2 H IH|b s H IH|b s H IH|b s Hne H IH]; intros rn; cbn [pieces].
  - rewrite <- (app_nil_r (flush rn)), read_flush. reflexivity.
  - assert (Hc : plain_char c = true) by (apply plain_iff; auto). rewrite Hc, IH, <- app_assoc. reflexivity.
  - change (plain_char 92) with false. change (plain_char 34) with false. cbv iota. rewrite read_flush. f_equal.
    change (34%N :: s) with ([34%N] ++ [] ++ s). rewrite <- (IH []). try (cbn [pieces]; rewrite Hc). reflexivity.
  - change (plain_char 92) with false. cbv iota. rewrite read_flush. f_equal.
    change (92%N :: s) with ([92%N] ++ [] ++ s). rewrite <- (IH []). try (cbn [pieces]; rewrite Hc). reflexivity.
  - change (plain_char 92) with false. cbv iota. rewrite read_flush. f_equal.
    destruct Hne as (c & r & -> & H1 & H2). assert (Hc : plain_char c = true) by (apply plain_iff; auto). rewrite Hc.
    change (92%N :: s) with ([92%N] ++ [] ++ s). rewrite <- (IH []). try (cbn [pieces]; rewrite Hc). reflexivity.
Qed.

(** *** items separated by non-empty separators *)
Inductive laid : list item -> text -> Prop :=
| laid_one i : laid [i] (show_item i)
| laid_cons i w l t : sep_text w -> w <> [] -> laid l t -> laid (i :: l) (show_item i ++ w ++ t).
Lemma laid_ne l t : laid l t -> l <> [].
Proof. intros []; discriminate. Qed.
Lemma laid_app l1 t1 l2 t2 w : laid l1 t1 -> sep_text w -> w <> [] -> laid l2 t2 -> laid (l1 ++ l2) (t1 ++ w ++ t2).
Proof.
  intros H Hw Hn H2. induction H as [i|i v l t Hv Hvn H IH]; cbn [app].
  - apply laid_cons; auto.
  - rewrite <- !app_assoc. apply laid_cons; auto.
Qed.
Lemma laid_join sep ls ts : sep_text sep -> sep <> [] -> Forall2 laid ls ts -> ls <> [] ->
  laid (List.concat ls) (join sep ts).
Proof.
  intros Hs Hn H. induction H as [|l t ls ts H1 H2 IH]; [congruence|]. intros _. destruct H2 as [|l2 t2 ls ts H2 H3].
  - cbn. rewrite app_nil_r. exact H1.
  - rewrite join_cons by discriminate. change (List.concat (l :: l2 :: ls)) with (l ++ List.concat (l2 :: ls)).
    apply laid_app; auto. apply IH. discriminate.
Qed.
Definition vitem (i : item) : Prop :=
  match i with INum n => is_number n | IBool _ => True | IStr b => exists s, string_body b s | _ => False end.
Lemma laid_items l t : laid l t -> Forall vitem l -> forall br w k, sep_text w -> stop (w ++ k) = true ->
  exists its, show_items its = t ++ w /\ sk_items its = map sk_item l /\ ok_items br its k /\ its <> SNil.
Proof.
  assert (V : forall i k, vitem i -> stop k = true -> ok_item i k /\ i <> INull).
  { intros [] k; cbn; try contradiction; intros; split; auto; discriminate. }
  intros H. induction H as [i|i v l t Hv Hvn H IH]; intros Hl br w k Hw Hs; inversion Hl as [|? ? Hi Hl']; subst.
  - destruct (V i (w ++ k) Hi Hs). exists (SCons i w SNil). cbn. rewrite app_nil_r. repeat split; auto. discriminate.
  - destruct (IH Hl' br w k Hw Hs) as (its & E1 & E2 & E3 & E4).
    assert (S : stop (v ++ show_items its ++ k) = true) by (apply sep_stop; auto).
    destruct (V i _ Hi S). exists (SCons i v its). cbn [show_items sk_items map ok_items]. rewrite E2.
    split; [rewrite E1, <- !app_assoc; reflexivity|]. repeat split; auto. discriminate.
Qed.

(** *** chunks *)
Lemma chunks_ok k sep l : 1 <= k -> forall fuel, List.length l <= fuel ->
  exists sets, chunks fuel k sep l = Some sets /\
    forall (R : list item -> text -> Prop) ls, (forall ls ts, Forall2 R ls ts -> ls <> [] -> R (List.concat ls) (join sep ts)) ->
      Forall2 R ls l -> exists ls', Forall2 R ls' sets /\ List.concat ls' = List.concat ls /\ (ls <> [] -> ls' <> []).
Proof.
  intros Hk. remember (List.length l) as n eqn:En. revert l En.
  induction n as [n IH] using lt_wf_ind. intros l En fuel Hf. destruct l as [|x l].
  - exists []. split; [destruct fuel; reflexivity|]. intros R ls HR H. inversion H; subst. exists []. auto.
  - destruct fuel as [|fuel]; [cbn in En; lia|]. cbn [chunks].
    assert (Hlen : List.length (skipn k (x :: l)) < n) by (rewrite skipn_length; cbn [List.length] in *; lia).
    destruct (IH _ Hlen (skipn k (x :: l)) eq_refl fuel) as (sets & E & Hsets); [lia|].
    rewrite E. eexists. split; [reflexivity|]. intros R ls HR H.
    rewrite <- (firstn_skipn k (x :: l)) in H. apply Forall2_app_inv_r in H as (l1 & l2 & H1 & H2 & ->).
    destruct (Hsets R l2 HR H2) as (ls' & H3 & H4 & _).
    assert (Hl1 : l1 <> []).
    { intros ->. inversion H1 as [Q|]. destruct k; [lia|]. cbn in Q. discriminate. }
    exists (List.concat l1 :: ls'). split; [|split].
    + constructor; [|exact H3]. apply HR; auto.
    + cbn. rewrite concat_app, H4. reflexivity.
    + discriminate.
Qed.
