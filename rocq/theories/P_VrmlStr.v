(** C20-C24, C64: field values written as VRML97 text and read back
    (vrml/fieldtypes.py vrmlstr methods, vrml/vrml97/parseprocessor.py). *)
From Coq Require Import Reals Psatz.
From Flocq Require Import Core.Core IEEE754.BinarySingleNaN.
From Verif Require Import Base Text Float Float_Proofs Coerce_Model Coerce_Spec Coerce_Proofs Color_Model
  Grammar_Model Grammar_Proofs Lex_Spec Lex_Proofs Doc_Spec Doc_Proofs PyNum PyNum_Proofs
  VrmlStr_Model VrmlStr_Spec VrmlStr_Proofs VrmlStr_Values FloatStr P_Coerce.
Local Open Scope nat_scope.
Local Open Scope list_scope.

(** The VRML97 grammar takes exactly [t] (and the separators [w] behind it)
    off the front of t ++ w ++ k as the value of a field, giving [tr]. *)
Definition takes_field (t w k : text) (tr : list tree) : Prop :=
  parses (NT G_Field) (t ++ w ++ k) (POk (t ++ w) k [T G_Field (t ++ w) tr]).
(** ... and as one number *)
Definition takes_number (t k : text) : Prop :=
  parses (NT G_SFNumber) (t ++ k) (POk t k [T G_SFNumber t []]).

Lemma end_ok k : field_end k -> no_sep k /\ fails alt_pl k.
Proof.
  intros [|c r Hc|nm w k' Hn Hw Hs Hk Hb].
  - split; [apply no_sep_head; reflexivity|exists 40; reflexivity].
  - assert (C : closer (c :: r)) by (exists c, r; auto). split; [apply closer_no_sep|apply closer_fail_pl]; exact C.
  - split; [apply name_no_sep, safe_is_name, Hn|apply attr_fail_pl; auto].
    destruct k' as [|c r]; [reflexivity|]. unfold no_head. cbn [heads].
    apply N.eqb_neq. intros ->. destruct (Hb r eq_refl).
Qed.
Lemma field_text t its w k : field_of t its -> sep_text w -> stop (w ++ k) = true -> field_end k ->
  exists tr, takes_field t w k tr /\ map erase tr = map et_item its.
Proof.
  intros F Hw Hs He. apply end_ok in He as [Hk Hf]. destruct (F w k Hw Hs) as (fv & E1 & E2 & <-).
  destruct doc_parse as (_ & _ & _ & D & _). destruct (D fv k E2 Hk Hf) as (c & l & [n R] & El).
  rewrite E1, <- app_assoc in R. unfold takes_field.
  destruct n as [|n]; [discriminate|]. cbn [run] in R.
  destruct (run n (rule G_Field) (t ++ w ++ k)) as [[c' r' l'| |]|] eqn:E; try discriminate.
  injection R as -> -> <-. cbn [reported map] in El.
  exists l'. split.
  - assert (P : parses (rule G_Field) (t ++ w ++ k) (POk c k l')) by (exists n; exact E).
    pose proof (parses_prefix _ _ _ _ _ P) as Ec. rewrite app_assoc in Ec. apply app_inv_tail in Ec. subst c.
    apply (p_nt G_Field) in P. exact P.
  - cbn [erase keeps] in El. injection El as El. exact El.
Qed.

(** *** C20 *)
Theorem C20_string_survives : forall s k, exists tr,
  parses (NT G_SFString) (sfstring_vrmlstr s ++ k) (POk (sfstring_vrmlstr s) k [tr]) /\
  handler SFString [tr] = Ok (PStr s).
Proof.
  intros s k. pose proof (escape_body s) as B. rewrite escape_spec. set (b := List.concat (map esc_char s)) in *.
  exists (T G_SFString (34%N :: b ++ [34%N]) (pieces [] b)). split.
  - pose proof (p_string b s k B) as H. cbn [app]. rewrite <- app_assoc. exact H.
  - cbn [handler only]. rewrite (read_pieces _ b s B []). reflexivity.
Qed.
Print Assumptions C20_string_survives.
(** C20.  Different strings are written differently. *)
Theorem C20_string_injective : forall s s', sfstring_vrmlstr s = sfstring_vrmlstr s' -> s = s'.
Proof.
  intros s s' E. destruct (C20_string_survives s []) as (tr & P & H). destruct (C20_string_survives s' []) as (tr' & P' & H').
  rewrite <- E in P'. assert (X : POk (sfstring_vrmlstr s) [] [tr] = POk (sfstring_vrmlstr s) [] [tr']).
  { destruct P as [n P], P' as [m P']. apply (run_mono n (n + m)) in P; [|lia]. apply (run_mono m (n + m)) in P'; [|lia]. congruence. }
  injection X as ->. congruence.
Qed.
Print Assumptions C20_string_injective.

(** *** C21 *)
Theorem C21_string_list_survives : forall lv l w k, ok_lv lv -> sep_text w -> stop (w ++ k) = true -> field_end k ->
  exists tr, takes_field (mfstring_vrmlstr lv l) w k tr /\ handler MFString tr = Ok (PSeq KList (map PStr l)).
Proof.
  intros lv l w k LV Hw Hs He. destruct (field_text _ _ w k (mfstring_field lv LV l) Hw Hs He) as (tr & P & E).
  exists tr. split; [exact P|]. cbn [handler]. f_equal. f_equal.
  assert (B : Forall2 string_body (map (fun s => List.concat (map esc_char s)) l) l).
  { clear. induction l as [|s l IH]; constructor; auto using escape_body. }
  unfold str_items in E.
  assert (E' : map erase tr = map et_item (map SStr (map (fun s => List.concat (map esc_char s)) l))).
  { rewrite E. f_equal. rewrite map_map. reflexivity. }
  pose proof (erase_strs _ _ _ E' B) as H. rewrite <- H, map_map. reflexivity.
Qed.
Print Assumptions C21_string_list_survives.

(** *** C22 *)
Theorem C22_compact_is_one_number : forall t k, float_shape t -> stop k = true ->
  takes_number (compact t) k /\ read_float (compact t) = read_float t.
Proof. intros t k H Hk. destruct (compact_ok t H) as [A B]. split; [apply p_number; auto|exact B]. Qed.
Print Assumptions C22_compact_is_one_number.

(** C22.  What reading yields: the double nearest to the decimal number
    written, ties to even; the infinity of its sign when that is beyond the
    range. *)
Theorem C22_reading_is_nearest : forall (neg : bool) (ip : text) (fp : option text) (x : option (text * text)),
  forallb digit ip = true -> forallb digit (fdig fp) = true -> ip ++ fdig fp <> [] -> expo_ok x ->
  let m := digits_val (ip ++ fdig fp) in
  let e := (expo_val x - Z.of_nat (List.length (fdig fp)))%Z in
  let r := ((if neg then -1 else 1) * (IZR m * bpow radix10 e))%R in
  exists f, read_float (sgt neg ++ ip ++ frac fp ++ expo x) = Some f /\ valid_binary 53 1024 f = true /\
    let n := round radix2 (FLT_exp (-1074) 53) ZnearestE r in
    if Rlt_bool (Rabs n) (bpow radix2 1024) then is_finite_SF f = true /\ SF2R radix2 f = n
    else f = S754_infinity neg.
Proof.
  intros neg ip fp x Hi Hf Hne Hx m e r.
  rewrite read_float_gen; auto; [|destruct (ip ++ fdig fp); [congruence|reflexivity]].
  fold m e. eexists. split; [reflexivity|].
  assert (Hm : (0 <= m)%Z) by (apply digits_val_nonneg; rewrite forallb_app, Hi, Hf; reflexivity).
  destruct (dec2fl_nearest neg m e Hm) as [V H]. split; [exact V|].
  assert (Er : sgn neg (dec_val m e) = r) by (unfold r, sgn, dec_val, p10; destruct neg; ring).
  rewrite Er in H. cbv zeta. change (rnd64 r) with (round radix2 (FLT_exp (-1074) 53) ZnearestE r) in H.
  destruct (Rlt_bool _ _); [|exact H]. destruct H as (A & B & _). split; [exact B|exact A].
Qed.
Print Assumptions C22_reading_is_nearest.

Theorem C22_float_survives : forall fstr f k, faithful fstr -> valid_binary 53 1024 f = true ->
  is_finite_SF f = true -> stop k = true ->
  takes_number (sffloat_vrmlstr fstr Cd f) k /\
  handler SFFloat [T G_SFNumber (sffloat_vrmlstr fstr Cd f) []] = Ok (PFloat f).
Proof.
  intros fstr f k [F _] V Ff Hk. destruct (F f V Ff) as [S R].
  destruct (C22_compact_is_one_number _ k S Hk) as [A B]. split; [exact A|].
  cbn [handler only tree_span]. unfold sffloat_vrmlstr. rewrite B, R. reflexivity.
Qed.
Print Assumptions C22_float_survives.

(** C22 (refuted for infinities and nans): inf, -inf and nan are not numbers
    of the grammar, so a node holding one cannot be read back. *)
Theorem C22_infinity_unreadable_refuted : forall s k,
  parses (NT G_SFNumber) (compact (exact_str Cd (S754_infinity s)) ++ k) PFail /\
  parses (NT G_SFNumber) (compact (exact_str Cd S754_nan) ++ k) PFail.
Proof. intros s k. split; apply p_number_fail; destruct s; reflexivity. Qed.
Print Assumptions C22_infinity_unreadable_refuted.

(** *** C23 *)
Theorem C23_integer_survives : forall z k, stop k = true ->
  takes_number (str_int z) k /\ handler SFInt32 [T G_SFNumber (str_int z) []] = Ok (PInt z).
Proof.
  intros z k Hk. split; [apply p_number; [apply str_int_number|exact Hk]|].
  cbn [handler only tree_span]. rewrite str_int_read. reflexivity.
Qed.
Print Assumptions C23_integer_survives.

(** *** C24 *)
Theorem C24_number_list_tokens : forall lv ts, ok_lv lv -> Forall is_number ts ->
  exists t, mfsimple_vrmlstr lv ts = Some t /\
  forall w k, sep_text w -> stop (w ++ k) = true -> field_end k ->
  takes_field t w k (map (fun n => T G_SFNumber n []) ts).
Proof.
  intros lv ts LV H. destruct (mfsimple_field lv LV ts H) as (t & E & F). exists t. split; [exact E|].
  intros w k Hw Hs He. destruct (field_text _ _ w k F Hw Hs He) as (tr & P & Et).
  rewrite (erase_nums _ _ Et) in P. exact P.
Qed.
Print Assumptions C24_number_list_tokens.
Theorem C24_vector_list_tokens : forall lv d rs, ok_lv lv -> 1 <= d <= 100 ->
  Forall (fun r => List.length r = d /\ Forall is_number r) rs ->
  exists t, mfvec_vrmlstr lv d rs = Some t /\
  forall w k, sep_text w -> stop (w ++ k) = true -> field_end k ->
  takes_field t w k (map (fun n => T G_SFNumber n []) (List.concat rs)).
Proof.
  intros lv d rs LV Hd H. destruct (mfvec_field lv LV d rs Hd H) as (t & E & F). exists t. split; [exact E|].
  intros w k Hw Hs He. destruct (field_text _ _ w k F Hw Hs He) as (tr & P & Et).
  rewrite (erase_nums _ _ Et) in P. exact P.
Qed.
Print Assumptions C24_vector_list_tokens.
(** C24 (refuted beyond dimension 100): the chunking loop takes 0 rows per
    round and never ends, whatever the number of rounds granted. *)
Theorem C24_wide_rows_never_end_refuted : forall lv d rs, 100 < d -> rs <> [] ->
  mfvec_vrmlstr lv d rs = None /\
  forall fuel, chunks fuel (100 / d) (subelspacer lv) (map (join (numsep lv)) rs) = None.
Proof.
  intros lv d rs Hd Hr.
  assert (E : 100 / d = 0) by (apply Nat.div_small; exact Hd).
  assert (C : forall fuel l, l <> [] -> chunks fuel 0 (subelspacer lv) l = None).
  { induction fuel as [|f IH]; intros [|x l] Hl; try congruence; [reflexivity|]. cbn [chunks skipn]. rewrite IH; congruence. }
  assert (N : map (join (numsep lv)) rs <> []) by (destruct rs; [congruence|discriminate]).
  split; [|intros fuel; rewrite E; apply C; exact N].
  unfold mfvec_vrmlstr. destruct rs as [|r rs]; [congruence|]. cbv zeta. rewrite E.
  change (_ <? 0) with false. cbv iota. rewrite C by exact N. reflexivity.
Qed.
Print Assumptions C24_wide_rows_never_end_refuted.

(** *** C64 *)
(** Every finite value that a field of a readable type can hold is written
    as a text that the grammar takes as one field value and that is read back
    as the same value. *)
Theorem C64_stored_value_survives : forall P fstr lv t v w k,
  faithful fstr -> ok_lv lv -> readable t = true -> stored t v -> finite v ->
  sep_text w -> stop (w ++ k) = true -> field_end k ->
  exists tx tr, vrmlstr fstr lv t v = Some tx /\ takes_field tx w k tr /\ read_value P t tr = Ok v.
Proof.
  intros P fstr lv t v w k FS LV R S F Hw Hs He.
  destruct (value_survives P fstr FS lv LV t v S F) as (tx & its & E & [Fo _] & Rd).
  destruct (field_text _ _ w k Fo Hw Hs He) as (tr & Pt & Et). exists tx, tr. auto.
Qed.
Print Assumptions C64_stored_value_survives.

Lemma coerce_stored P t v u : sane P -> wf_arg v -> coerce P t v = Ok u -> finite u -> stored t u.
Proof.
  intros SP W H F.
  assert (U : forall xs, Forall finite_item xs -> Forall (fun x => is_nan_item x \/ in_unit x) xs -> Forall in_unit xs).
  { clear. intros xs. induction 1 as [|x xs H Hx IH]; intros G; inversion G; subst; constructor; auto.
    destruct H2 as [->|?]; [discriminate|assumption]. }
  unfold coerce in H. unfold stored. destruct t; cbn [fbase] in H.
  all: try (eapply C15_SFBool; eassumption).
  all: try (eapply C15_SFInt32; eassumption).
  all: try (eapply C15_SFFloat; eassumption).
  all: try (eapply C15_SFString; eassumption).
  all: try (eapply C15_MFString; eassumption).
  all: try (eapply C15_MFInt32; [|eassumption|eassumption]; auto; fail).
  all: try (eapply C15_MFFloat; [|eassumption|eassumption]; auto; fail).
  all: try (eapply C15_SFVec; eassumption).
  all: try (eapply C15_MFVec; eassumption).
  - split; [eapply C15_SFColor; eassumption|]. destruct (C18_SFColor_range _ _ _ W H) as (xs & -> & _ & G).
    intros a [= <-]. apply U; [exact F|exact G].
  - split; [eapply C15_MFColor; eassumption|]. destruct (C18_MFColor_range _ _ _ W H) as (n & xs & -> & _ & G).
    intros a [= <-]. apply U; [exact F|exact G].
Qed.

(** C64.  The same from the caller's side: whatever was assigned, if the
    assignment is accepted and what it stores has no infinity or nan, writing
    the field and reading it back gives what was stored. *)
Theorem C64_assigned_value_survives : forall P fstr lv t v u w k,
  sane P -> faithful fstr -> ok_lv lv -> readable t = true -> wf_arg v ->
  coerce P t v = Ok u -> finite u -> sep_text w -> stop (w ++ k) = true -> field_end k ->
  exists tx tr, vrmlstr fstr lv t u = Some tx /\ takes_field tx w k tr /\ read_value P t tr = Ok u.
Proof.
  intros. eapply C64_stored_value_survives; eauto. eapply coerce_stored; eauto.
Qed.
Print Assumptions C64_assigned_value_survives.

(** C64 (refuted for the other types): values of these types are written, but
    reading them always fails. *)
Theorem C64_unreadable_types_refuted : forall P t, readable t = false <->
  forall l, read_value P t l = Exc AttributeError.
Proof.
  intros P t. split.
  - destruct t; try discriminate; reflexivity.
  - intros H. specialize (H []). destruct t; try reflexivity; discriminate.
Qed.
Print Assumptions C64_unreadable_types_refuted.

(** *** the hypotheses can be met *)
Theorem C64_faithful_rendering_exists : faithful exact_str.
Proof. exact exact_faithful. Qed.
Print Assumptions C64_faithful_rendering_exists.

Lemma blanks_ok w : forallb blank w = true -> sep_text w.
Proof. apply blanks_sep. Qed.
Example ok_defaults : ok_lv lv_defaults /\ ok_lv lv_minimal1.
Proof. split; (split; [repeat constructor; apply blanks_sep; reflexivity|split; discriminate]). Qed.
Example field_end_ex : field_end [] /\ field_end (lit "}") /\ field_end (lit "rotation 0 1 0 1 }").
Proof.
  split; [constructor|]. split; [apply fe_close; auto|].
  apply (fe_attr (lit "rotation") (lit " ") (lit "0 1 0 1 }")); try reflexivity.
  - apply blanks_sep; reflexivity.
  - apply no_sep_head. reflexivity.
  - intros r. discriminate.
Qed.
Example C20_ex : sfstring_vrmlstr [97; 34; 92; 10]%N = [34; 97; 92; 34; 92; 92; 10; 34]%N.
Proof. reflexivity. Qed.
Example C21_ex : mfstring_vrmlstr lv_defaults [lit "a"; lit "b"] = lit "[ " ++ [34; 97; 34]%N ++ lit ", " ++ [34; 98; 34]%N ++ lit " ]".
Proof. reflexivity. Qed.
Example C22_ex : compact (lit "-0.25") = lit "-.25" /\ compact (lit "3.0") = lit "3" /\ compact (lit "0.0") = lit "0" /\
  compact (lit "1e-05") = lit "1e-05" /\ float_shape (lit "1e-05") /\ float_shape (lit "-0.25").
Proof.
  repeat split; try reflexivity.
  - apply (shape false (lit "1") [] (lit "e-05")); [split; [reflexivity|discriminate]|auto|].
    right. exists (lit "-"), (lit "05"). repeat split; auto; discriminate.
  - apply (shape true (lit "0") (lit ".25") []); [split; [reflexivity|discriminate]| |auto].
    right. exists (lit "25"). repeat split; discriminate.
Qed.
Example C24_ex : mfvec_vrmlstr lv_defaults 3 [[lit "1"; lit "0"; lit "-1"]; [lit "0"; lit "2"; lit "0"]] = Some (lit "[1,0,-1, 0,2,0]").
Proof. reflexivity. Qed.
(** a value with its written form: translation -0.5 2 0 *)
Definition v_ex : pv := PArr (mkarr Cf [3] [NF (S754_finite true 8388608 (-24)); NF (S754_finite false 8388608 (-22)); NF (S754_zero false)]).
Example C64_ex : stored SFVec3f v_ex /\ finite v_ex /\ readable SFVec3f = true /\
  vrmlstr exact_str lv_minimal1 SFVec3f v_ex = Some (lit "-.500000000000000000000000 2.0000000000000000000000 0").
Proof.
  split; [|split; [|split]]; try reflexivity.
  - eexists. split; [reflexivity|]. split; [reflexivity|]. repeat constructor; eexists; split; reflexivity.
  - repeat constructor.
Qed.
