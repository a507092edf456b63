(** C96: text and bytes. *)
From Verif Require Import Base Text Coerce_Model Bytes_Model Bytes_Spec Bytes_Proofs.
Local Open Scope N_scope.
Local Open Scope list_scope.

(** C96.  Encoding a text fails exactly when it contains a surrogate. *)
Theorem C96_encoding_fails_only_on_surrogates : forall P s, is_str s ->
  (exists e, as_8_bit P (PStr s) = Exc e) <-> Exists surrogate s.
Proof.
  intros P s U. unfold as_8_bit. induction U as [|c s U _ IH]; cbn [encode].
  - split; [intros (e & [=])|]. intros H. inversion H.
  - destruct (encode_char c) as [b|] eqn:E.
    + assert (N : ~ surrogate c). { intros X. apply (encode_none c U) in X. congruence. }
      destruct (encode s) as [bs|]; cbn [of_option] in *.
      * split; [intros (e & [=])|]. intros H. inversion H; subst; [contradiction|]. apply IH in H1 as (e & [=]).
      * split; [|intros _; eexists; reflexivity]. intros _. right. apply IH. eexists; reflexivity.
    + split; [intros _; left; apply encode_none; assumption|intros _; eexists; reflexivity].
Qed.
Print Assumptions C96_encoding_fails_only_on_surrogates.

(** C96.  Every other text is encoded as UTF-8, and comes back unchanged. *)
Theorem C96_text_round_trip : forall P s, is_str s -> Forall (fun c => ~ surrogate c) s ->
  exists b, as_8_bit P (PStr s) = Ok b /\ utf8 s b /\ as_str P (PBytes b) = Ok s /\ as_unicode P (PBytes b) = Ok s.
Proof.
  intros P s U N. destruct (as_8_bit P (PStr s)) as [b|e] eqn:E.
  - exists b. unfold as_8_bit in E. destruct (encode s) as [b'|] eqn:E'; [|discriminate]. injection E as ->.
    apply (encode_spec s U) in E'. pose proof (proj2 (decode_spec b s) E') as D. unfold as_str, as_unicode. rewrite D. auto.
  - assert (X : Exists surrogate s) by (apply (C96_encoding_fails_only_on_surrogates P s U); eauto).
    rewrite Forall_forall in N. apply Exists_exists in X as (c & Hc & X). destruct (N c Hc X).
Qed.
Print Assumptions C96_text_round_trip.

(** C96.  as_str accepts exactly the bytes that are UTF-8, and encoding what it
    returns gives the bytes back. *)
Theorem C96_bytes_round_trip : forall P b s, as_str P (PBytes b) = Ok s <-> is_str s /\ as_8_bit P (PStr s) = Ok b.
Proof.
  intros P b s. unfold as_str, as_8_bit. split.
  - destruct (decode b) as [t|] eqn:D; [|discriminate]. intros [= ->]. apply decode_spec in D. destruct (utf8_str _ _ D) as (U & _). split; [exact U|].
    apply (encode_spec s U) in D. rewrite D. reflexivity.
  - intros (U & E). destruct (encode s) as [b'|] eqn:E'; [|discriminate]. injection E as ->. apply (encode_spec s U) in E'. apply decode_spec in E'. rewrite E'. reflexivity.
Qed.
Print Assumptions C96_bytes_round_trip.

(** C96.  as_unicode never raises: bytes that are not UTF-8 are taken for Latin-1. *)
Theorem C96_as_unicode_total : forall P x, exists t, as_unicode P x = Ok t /\
  forall b, x = PBytes b -> utf8 t b \/ (t = b /\ forall s, ~ utf8 s b).
Proof.
  intros P x. destruct x as [|v|z|f|t|b|k l|a]; cbn [as_unicode]; try (eexists; split; [reflexivity|discriminate]).
  destruct (decode b) as [t|] eqn:D.
  - exists t. split; [reflexivity|]. intros b' [= <-]. left. apply decode_spec. exact D.
  - exists b. split; [reflexivity|]. intros b' [= <-]. right. split; [reflexivity|]. intros s H. apply decode_spec in H. congruence.
Qed.
Print Assumptions C96_as_unicode_total.

(** C96.  That guess loses the bytes, for all bytes that are not UTF-8: encoding
    the text gives longer, different bytes, which give the same text. *)
Lemma latin_encode b : is_bytes b -> exists b', encode b = Some b' /\ (List.length b <= List.length b')%nat /\
  ((List.length b' <= List.length b)%nat -> Forall (fun c => c < 128) b).
Proof.
  induction 1 as [|c b H _ (b' & E & L & F)]; cbn [encode]; [exists []; repeat split; auto|]. rewrite E. unfold encode_char.
  destruct (N.ltb_spec c 128) as [Q|Q].
  - eexists. split; [reflexivity|]. cbn. split; [lia|]. intros L'. constructor; [exact Q|apply F; lia].
  - replace (c <? 2048) with true by (symmetry; apply N.ltb_lt; lia). eexists. split; [reflexivity|]. cbn. split; lia.
Qed.
Lemma ascii_utf8 b : Forall (fun c => c < 128) b -> utf8 b b.
Proof. induction 1 as [|c b H _ IH]; [constructor|]. change (c :: b) with ([c] ++ b) at 2. constructor; [constructor; exact H|exact IH]. Qed.
Theorem C96_guessed_bytes_change_refuted : forall P b, is_bytes b -> (forall s, ~ utf8 s b) ->
  exists t b', as_unicode P (PBytes b) = Ok t /\ as_8_bit P (PStr t) = Ok b' /\ b' <> b /\ (List.length b < List.length b')%nat /\
    as_unicode P (PBytes b') = Ok t.
Proof.
  intros P b B N. assert (D : decode b = None). { destruct (decode b) as [s|] eqn:E; [|reflexivity]. apply decode_spec in E. destruct (N s E). }
  destruct (latin_encode b B) as (b' & E & L & F). exists b, b'. unfold as_unicode, as_8_bit. rewrite D, E.
  assert (L' : (List.length b < List.length b')%nat).
  { destruct (Nat.le_gt_cases (List.length b') (List.length b)) as [Q|Q]; [|exact Q]. destruct (N b). apply ascii_utf8, F, Q. }
  split; [reflexivity|]. split; [reflexivity|]. split; [intros ->; lia|]. split; [exact L'|].
  assert (U : is_str b). { eapply Forall_impl; [|exact B]. cbn. intros; lia. }
  apply (encode_spec b U) in E. apply decode_spec in E. rewrite E. reflexivity.
Qed.
Print Assumptions C96_guessed_bytes_change_refuted.

(** C96.  The reader cuts the bytes of a file at quotes and backslashes and decodes
    the pieces: the pieces of UTF-8 on both sides of an ASCII byte are UTF-8, and
    their texts are the pieces of the text. *)
Lemma high_bytes c b q : utf8_char c b -> In q b -> q < 128 -> b = [q].
Proof. destruct 1; cbn [In]; intros X Lq; [destruct X as [<-|[]]; reflexivity| | |]; exfalso; intuition lia. Qed.
Lemma utf8_empty s l : utf8 s l -> l = [] -> s = [].
Proof. destruct 1 as [|c b s bs H _]; [reflexivity|]. intros E. apply app_eq_nil in E as (-> & _). inversion H. Qed.
Lemma utf8_cut s l : utf8 s l -> forall a q b, l = a ++ q :: b -> q < 128 -> exists s1 s2, s = s1 ++ q :: s2 /\ utf8 s1 a /\ utf8 s2 b.
Proof.
  induction 1 as [|c b0 s bs H U IH]; intros a q b E L; [destruct a; discriminate|].
  apply app_eq_app in E as (l & [(E1 & E2)|(E1 & E2)]).
  - destruct l as [|x l].
    + cbn in E2. rewrite app_nil_r in E1. subst b0 bs. destruct (IH [] q b eq_refl L) as (s1 & s2 & -> & A & B).
      rewrite (utf8_empty _ _ A eq_refl). exists [c], s2. split; [reflexivity|]. split; [|exact B]. rewrite <- (app_nil_r a). constructor; [exact H|constructor].
    + cbn in E2. injection E2 as -> E2. assert (b0 = [x]) as -> by (apply (high_bytes c _ _ H); [rewrite E1; apply in_or_app; right; left; reflexivity|exact L]).
      destruct a as [|y a]; [|destruct a; discriminate]. destruct l; [|discriminate]. cbn in E2. subst bs. exists [], s. split; [|split; [constructor|exact U]].
      cbn. f_equal. inversion H. reflexivity.
  - subst a bs. destruct (IH l q b eq_refl L) as (s1 & s2 & -> & A & B). exists (c :: s1), s2. split; [reflexivity|]. split; [constructor; assumption|exact B].
Qed.
Theorem C96_pieces : forall P a q b t, q < 128 ->
  as_str P (PBytes (a ++ q :: b)) = Ok t <->
  exists s1 s2, as_str P (PBytes a) = Ok s1 /\ as_str P (PBytes b) = Ok s2 /\ t = s1 ++ q :: s2.
Proof.
  intros P a q b t L.
  assert (S : forall l s, as_str P (PBytes l) = Ok s <-> utf8 s l).
  { intros l s. rewrite <- decode_spec. unfold as_str. destruct (decode l); cbn; split; congruence. }
  rewrite S. split.
  - intros H. destruct (utf8_cut _ _ H a q b eq_refl L) as (s1 & s2 & -> & A & B). exists s1, s2. rewrite !S. auto.
  - intros (s1 & s2 & A & B & ->). apply S in A, B. apply decode_spec. rewrite (decode_encoded _ _ A). change (q :: b) with ([q] ++ b).
    rewrite (decode_char q [q] b) by (constructor; exact L). apply decode_spec in B. rewrite B. reflexivity.
Qed.
Print Assumptions C96_pieces.

(** C96.  Assigned to an SFString field, bytes become the text they encode, and
    are refused if they encode none. *)
Theorem C96_SFString_takes_utf8 : forall P b, p_decode P = decode ->
  (forall s, sfstring_coerce P (PBytes b) = Ok (PStr s) <-> utf8 s b) /\
  ((forall s, ~ utf8 s b) -> sfstring_coerce P (PBytes b) = Exc ValueError).
Proof.
  intros P b E. unfold sfstring_coerce. rewrite E. split.
  - intros s. rewrite <- decode_spec. destruct (decode b); split; congruence.
  - intros N. destruct (decode b) as [s|] eqn:D; [|reflexivity]. apply decode_spec in D. destruct (N s D).
Qed.
Print Assumptions C96_SFString_takes_utf8.

(** *** concrete cases: a, e acute, the euro sign, a face *)
Example C96_text_ex : let s := [97; 233; 8364; 128512] in is_str s /\ Forall (fun c => ~ surrogate c) s /\
  forall P, as_8_bit P (PStr s) = Ok [97; 195; 169; 226; 130; 172; 240; 159; 152; 128].
Proof. split; [repeat constructor; lia|]. split; [unfold surrogate; repeat constructor; lia|]. reflexivity. Qed.
Example C96_surrogate_ex : forall P, as_8_bit P (PStr [97; 55296]) = Exc ValueError.
Proof. reflexivity. Qed.
(** an overlong slash, an encoded surrogate, and a Latin-1 e acute are not UTF-8 *)
Example C96_invalid_ex : forall s, ~ utf8 s [192; 175] /\ ~ utf8 s [237; 160; 128] /\ ~ utf8 s [233].
Proof. intros s. rewrite <- !decode_spec. repeat split; discriminate. Qed.
Example C96_guess_ex : forall P, as_unicode P (PBytes [233]) = Ok [233] /\ as_8_bit P (PStr [233]) = Ok [195; 169] /\ as_unicode P (PBytes [195; 169]) = Ok [233].
Proof. repeat split; reflexivity. Qed.
Example C96_pieces_ex : forall P, as_str P (PBytes [195; 169; 34; 97]) = Ok [233; 34; 97].
Proof. reflexivity. Qed.
(** any primitives, with this decoder *)
Definition with_utf8 (P : prims) : prims :=
  {| p_int := p_int P; p_float := p_float P; p_str := p_str P; p_decode := decode; p_f2i := p_f2i P; p_items := p_items P |}.
Example C96_SFString_ex : forall P, p_decode (with_utf8 P) = decode /\
  sfstring_coerce (with_utf8 P) (PBytes [226; 130; 172]) = Ok (PStr [8364]) /\ sfstring_coerce (with_utf8 P) (PBytes [233]) = Exc ValueError.
Proof. repeat split; reflexivity. Qed.

(** C96.  But assigned to an MFString field, bytes become one string for each
    byte, its decimal number. *)
Theorem C96_MFString_splits_bytes_refuted : forall P b,
  mfstring_coerce P (PBytes b) = Ok (PSeq KList (map (fun c => PStr (p_str P (PInt (Z.of_N c)))) b)).
Proof.
  intros P b. unfold mfstring_coerce. cbn [py_iter bind].
  assert (E : mapM (sfstring_coerce P) (map (fun c => PInt (Z.of_N c)) b) = Ok (map (fun c => PStr (p_str P (PInt (Z.of_N c)))) b)).
  { induction b as [|c b IH]; [reflexivity|]. cbn [map mapM]. rewrite IH. reflexivity. }
  rewrite E. reflexivity.
Qed.
Print Assumptions C96_MFString_splits_bytes_refuted.
