(** Lemmas about Bytes_Model. *)
From Coq Require Import ZifyBool ZifyN.
From Verif Require Import Base Text Coerce_Model Bytes_Model Bytes_Spec.
Ltac Zify.zify_post_hook ::= Z.div_mod_to_equations.
Local Open Scope N_scope.
Local Open Scope list_scope.

Lemma encode_char_spec c b : c <= 1114111 -> encode_char c = Some b <-> utf8_char c b.
Proof.
  intros U. unfold encode_char. split.
  - destruct (N.ltb_spec c 128); [intros [= <-]; constructor; assumption|].
    destruct (N.ltb_spec c 2048). { intros [= <-]. replace c with (c / 64 * 64 + c mod 64) at 1 by lia. constructor; lia. }
    destruct (N.ltb_spec c 65536).
    { destruct ((55296 <=? c) && (c <=? 57343)) eqn:E; [discriminate|]. intros [= <-].
      replace c with (c / 4096 * 4096 + c / 64 mod 64 * 64 + c mod 64) at 1 by lia. constructor; lia. }
    intros [= <-]. replace c with (c / 262144 * 262144 + c / 4096 mod 64 * 4096 + c / 64 mod 64 * 64 + c mod 64) at 1 by lia. constructor; lia.
  - intros H. destruct H as [c L|x y Lx Ly L|x y z Lx Ly Lz L N|w x y z Lw Lx Ly Lz L].
    + replace (c <? 128) with true by lia. reflexivity.
    + replace (x * 64 + y <? 128) with false by lia. replace (x * 64 + y <? 2048) with true by lia.
      replace ((x * 64 + y) / 64) with x by lia. replace ((x * 64 + y) mod 64) with y by lia. reflexivity.
    + set (v := x * 4096 + y * 64 + z) in *. replace (v <? 128) with false by lia. replace (v <? 2048) with false by lia. replace (v <? 65536) with true by lia.
      replace ((55296 <=? v) && (v <=? 57343)) with false by lia. subst v.
      replace ((x * 4096 + y * 64 + z) / 4096) with x by lia. replace ((x * 4096 + y * 64 + z) / 64 mod 64) with y by lia.
      replace ((x * 4096 + y * 64 + z) mod 64) with z by lia. reflexivity.
    + set (v := w * 262144 + x * 4096 + y * 64 + z) in *. replace (v <? 128) with false by lia. replace (v <? 2048) with false by lia. replace (v <? 65536) with false by lia. subst v.
      set (v := w * 262144 + x * 4096 + y * 64 + z) in *.
      replace (v / 262144) with w by lia. replace (v / 4096 mod 64) with x by lia. replace (v / 64 mod 64) with y by lia. replace (v mod 64) with z by lia. reflexivity.
Qed.
Lemma encode_none c : c <= 1114111 -> encode_char c = None <-> surrogate c.
Proof.
  intros U. unfold encode_char, surrogate. destruct (N.ltb_spec c 128); [split; [discriminate|lia]|]. destruct (N.ltb_spec c 2048); [split; [discriminate|lia]|].
  destruct (N.ltb_spec c 65536); [|split; [discriminate|lia]]. destruct ((55296 <=? c) && (c <=? 57343)) eqn:E; split; try discriminate; try lia; reflexivity.
Qed.
Lemma encode_spec s : is_str s -> forall b, encode s = Some b <-> utf8 s b.
Proof.
  induction 1 as [|c s U _ IH]; intros b; cbn [encode].
  - split; [intros [= <-]; constructor|]. intros H. inversion H. reflexivity.
  - split.
    + destruct (encode_char c) as [b1|] eqn:E; [|discriminate]. destruct (encode s) as [b2|] eqn:E2; [|discriminate]. intros [= <-].
      constructor; [apply encode_char_spec; assumption|apply IH; reflexivity].
    + intros H. inversion H as [|? b1 ? b2 H1 H2]; subst. apply (encode_char_spec c b1 U) in H1. apply IH in H2. rewrite H1, H2. reflexivity.
Qed.
Lemma char_str c b : utf8_char c b -> c <= 1114111 /\ ~ surrogate c /\ is_bytes b.
Proof. unfold surrogate. destruct 1; (split; [lia|]); (split; [lia|]); repeat constructor; lia. Qed.
Lemma utf8_str s b : utf8 s b -> is_str s /\ Forall (fun c => ~ surrogate c) s /\ is_bytes b.
Proof.
  induction 1 as [|c b s bs H _ (A & B & C)]; [repeat constructor|]. destruct (char_str _ _ H) as (A' & B' & C'). repeat split; try (constructor; assumption).
  apply Forall_app. split; assumption.
Qed.
(** decoding undoes one character *)
Lemma decode_char c b r : utf8_char c b -> decode (b ++ r) = more c (decode r).
Proof.
  intros H. destruct H as [c L|x y Lx Ly L|x y z Lx Ly Lz L N|w x y z Lw Lx Ly Lz L]; cbn [app decode].
  - replace (c <? 128) with true by lia. reflexivity.
  - replace (192 + x <? 128) with false by lia. replace ((194 <=? 192 + x) && (192 + x <=? 223)) with true by lia. unfold cont.
    replace ((128 <=? 128 + y) && (128 + y <=? 191)) with true by lia. f_equal. lia.
  - replace (224 + x <? 128) with false by lia. replace ((194 <=? 224 + x) && (224 + x <=? 223)) with false by lia.
    replace ((224 <=? 224 + x) && (224 + x <=? 239)) with true by lia. unfold cont.
    match goal with |- (if ?g then _ else _) = _ => replace g with true by lia end. f_equal. lia.
  - replace (240 + w <? 128) with false by lia. replace ((194 <=? 240 + w) && (240 + w <=? 223)) with false by lia.
    replace ((224 <=? 240 + w) && (240 + w <=? 239)) with false by lia. replace ((240 <=? 240 + w) && (240 + w <=? 244)) with true by lia. unfold cont.
    match goal with |- (if ?g then _ else _) = _ => replace g with true by lia end. f_equal. lia.
Qed.
Lemma decode_encoded s b : utf8 s b -> forall r, decode (b ++ r) = match decode r with Some t => Some (s ++ t) | None => None end.
Proof.
  induction 1 as [|c b s bs H _ IH]; intros r; cbn [app]; [destruct (decode r); reflexivity|].
  rewrite <- app_assoc, (decode_char _ _ _ H), IH. destruct (decode r); reflexivity.
Qed.
Lemma more_some c r s : more c r = Some s -> exists t, r = Some t /\ s = c :: t.
Proof. destruct r; [|discriminate]. cbn. intros [= <-]. eauto. Qed.
Lemma cons_char c c' b bs s : utf8_char c' b -> c = c' -> utf8 s bs -> utf8 (c :: s) (b ++ bs).
Proof. intros A -> B. constructor; assumption. Qed.
Lemma decode_sound n : forall b s, (List.length b <= n)%nat -> decode b = Some s -> utf8 s b.
Proof.
  induction n as [|n IH]; intros [|a b] s L; cbn [List.length] in L; try lia; cbn [decode]; try (intros [= <-]; constructor).
  destruct (N.ltb_spec a 128).
  { intros E. apply more_some in E as (t & E & ->). change (a :: b) with ([a] ++ b). constructor; [constructor; assumption|]. apply IH; [lia|exact E]. }
  destruct ((194 <=? a) && (a <=? 223)) eqn:Q2.
  { destruct b as [|x r]; [discriminate|]. cbn [List.length] in L. destruct (cont x) eqn:X; [|discriminate]. unfold cont in X. intros E. apply more_some in E as (t & E & ->).
    change (a :: x :: r) with ([a; x] ++ r). replace a with (192 + (a - 192)) at 2 by lia. replace x with (128 + (x - 128)) at 2 by lia. constructor; [constructor; lia|]. apply IH; [lia|exact E]. }
  destruct ((224 <=? a) && (a <=? 239)) eqn:Q3.
  { destruct b as [|x [|y r]]; try discriminate. cbn [List.length] in L.
    match goal with |- (if ?g then _ else _) = _ -> _ => destruct g eqn:X end; [|discriminate]. unfold cont in X. intros E. apply more_some in E as (t & E & ->).
    change (a :: x :: y :: r) with ([a; x; y] ++ r). replace a with (224 + (a - 224)) at 2 by lia. replace x with (128 + (x - 128)) at 2 by lia. replace y with (128 + (y - 128)) at 2 by lia.
    constructor; [constructor; lia|]. apply IH; [lia|exact E]. }
  destruct ((240 <=? a) && (a <=? 244)) eqn:Q4; [|discriminate].
  destruct b as [|x [|y [|z r]]]; try discriminate. cbn [List.length] in L.
  match goal with |- (if ?g then _ else _) = _ -> _ => destruct g eqn:X end; [|discriminate]. unfold cont in X. intros E. apply more_some in E as (t & E & ->).
  change (a :: x :: y :: z :: r) with ([a; x; y; z] ++ r). replace a with (240 + (a - 240)) at 2 by lia. replace x with (128 + (x - 128)) at 2 by lia.
  replace y with (128 + (y - 128)) at 2 by lia. replace z with (128 + (z - 128)) at 2 by lia.
  constructor; [constructor; lia|]. apply IH; [lia|exact E].
Qed.
Lemma decode_spec b s : decode b = Some s <-> utf8 s b.
Proof.
  split; [apply (decode_sound (List.length b)); lia|]. intros H. pose proof (decode_encoded _ _ H []) as E. rewrite app_nil_r in E. rewrite E. cbn. rewrite app_nil_r. reflexivity.
Qed.
