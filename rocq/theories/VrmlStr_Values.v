(** Written field values: layout, and what reading gives back. *)
From Coq Require Import Reals Psatz SpecFloat.
From Flocq Require Import Core.Core IEEE754.BinarySingleNaN.
From Verif Require Import Base Text Float Float_Proofs Coerce_Model Coerce_Spec Coerce_Proofs P_Coerce Grammar_Model Grammar_Proofs
  Lex_Spec Lex_Proofs Doc_Spec Doc_Proofs PyNum PyNum_Proofs VrmlStr_Model VrmlStr_Spec VrmlStr_Proofs.
Local Open Scope nat_scope.
Local Open Scope list_scope.

(** *** entries of the tag list, from their erased form *)
Lemma erase_inv t n s l : erase t = T n s l -> exists s' l', t = T n s' l' /\ (keeps n = true -> s' = s) /\ map erase l' = l.
Proof. destruct t as [n' s' l']. cbn. intros [= -> <- <-]. exists s', l'. repeat split; auto. intros ->. reflexivity. Qed.
Lemma erase_num t n : erase t = et_item (SNum n) -> t = T G_SFNumber n [].
Proof.
  intros H. apply erase_inv in H as (s & l & -> & E & H). rewrite (E eq_refl). apply map_eq_nil in H. subst. reflexivity.
Qed.
Lemma erase_bool t b : erase t = et_item (SBool b) -> t = T G_SFBool (lit (if b then "TRUE" else "FALSE")) [].
Proof.
  intros H. apply erase_inv in H as (s & l & -> & E & H). rewrite (E eq_refl). apply map_eq_nil in H. subst. reflexivity.
Qed.
Lemma pieces_kept b : forall rn, forallb (fun t => match t with T n _ [] => keeps n | _ => false end) (pieces rn b) = true.
Proof.
  assert (Hfl : forall rn, forallb (fun t => match t with T n _ [] => keeps n | _ => false end) (flush rn) = true) by (intros []; reflexivity).
  enough (H : forall n b, List.length b <= n -> forall rn, forallb (fun t => match t with T n _ [] => keeps n | _ => false end) (pieces rn b) = true)
    by (intros rn; eapply H; eauto).
  clear b. induction n as [|n IH]; intros b Hb rn; destruct b as [|c b]; cbn [pieces]; try apply Hfl;
    cbn in Hb; try lia.
  destruct (plain_char c); [apply IH; lia|]. rewrite forallb_app, Hfl. cbn [andb].
  destruct b as [|c2 b]; [reflexivity|]. cbn in Hb.
  destruct (plain_char c2); cbn [forallb keeps andb]; apply IH; cbn; lia.
Qed.
Lemma erase_kept l l' : map erase l' = l -> forallb (fun t => match t with T n _ [] => keeps n | _ => false end) l = true -> l' = l.
Proof.
  revert l. induction l' as [|t l' IH]; intros l E H; cbn in E; subst l; [reflexivity|]. cbn [forallb] in H.
  apply andb_true_iff in H as [H1 H2]. rewrite (IH _ eq_refl H2) at 1. f_equal.
  destruct t as [n s ch]. cbn in *. destruct ch; [cbn in H1|discriminate]. rewrite H1. reflexivity.
Qed.
Lemma erase_str t b : erase t = et_item (SStr b) -> exists sp, t = T G_SFString sp (pieces [] b).
Proof.
  intros H. apply erase_inv in H as (s & l & -> & _ & H). exists s. f_equal. apply erase_kept; [exact H|apply pieces_kept].
Qed.
Lemma erase_nums l ns : map erase l = map et_item (map SNum ns) -> l = map (fun n => T G_SFNumber n []) ns.
Proof.
  revert ns. induction l as [|t l IH]; intros [|n ns]; cbn [map]; intros H; try discriminate; [reflexivity|].
  injection H as H1 H2. rewrite (erase_num _ _ H1), (IH _ H2). reflexivity.
Qed.
Lemma erase_strs l bs ss : map erase l = map et_item (map SStr bs) -> Forall2 string_body bs ss ->
  map read_string l = ss.
Proof.
  intros H F. revert l H. induction F as [|b s bs ss Hb F IH]; intros [|t l]; cbn [map]; intros H; try discriminate; [reflexivity|].
  injection H as H1 H2. apply erase_str in H1 as [sp ->]. rewrite (IH _ H2), (read_pieces sp b s Hb []). reflexivity.
Qed.

(** *** the layout of a list of numbers *)
Lemma nums_laid sep ts : sep_text sep -> sep <> [] -> ts <> [] -> laid (map INum ts) (join sep ts).
Proof.
  intros Hs Hn Ht.
  assert (F : Forall2 laid (map (fun t => [INum t]) ts) ts).
  { clear Ht. induction ts as [|t ts IH]; cbn; constructor; auto. apply (laid_one (INum t)). }
  apply (laid_join sep _ _ Hs Hn) in F; [|destruct ts; [congruence|discriminate]].
  replace (List.concat (map (fun t => [INum t]) ts)) with (map INum ts) in F; [exact F|].
  clear. induction ts; cbn; congruence.
Qed.
Lemma nums_v ts : Forall is_number ts -> Forall vitem (map INum ts).
Proof. induction 1; cbn; constructor; auto. Qed.
Lemma sk_nums ts : map sk_item (map INum ts) = map SNum ts.
Proof. rewrite map_map. apply map_ext. reflexivity. Qed.

(** a field text: the number texts [ts] in a layout, trailing separators [w] included *)
Definition field_of (t : text) (l : list sitem) : Prop :=
  forall w k, sep_text w -> stop (w ++ k) = true ->
  exists fv, show_field fv = t ++ w /\ ok_field fv k /\ sk_field fv = l.

Lemma plain_field l t : laid l t -> Forall vitem l -> field_of t (map sk_item l).
Proof.
  intros H V w k Hw Hs. destruct (laid_items l t H V false w k Hw Hs) as (its & E1 & E2 & E3 & E4).
  exists (FPl its). cbn. auto.
Qed.
Lemma bracket_field l t w1 w2 : sep_text w1 -> sep_text w2 -> laid l t -> Forall vitem l ->
  forall w3, sep_text w3 -> field_of (lit "[" ++ w1 ++ t ++ w2 ++ lit "]" ++ w3) (map sk_item l).
Proof.
  intros H1 H2 H V w3 H3 w k Hw Hs.
  destruct (laid_items l t H V true w2 (lit "]") H2) as (its & E1 & E2 & E3 & E4).
  { apply sep_or; auto. }
  exists (FBr w1 its (w3 ++ w)). cbn [show_field ok_field sk_field]. split.
  - rewrite E1. rewrite <- !app_assoc. reflexivity.
  - repeat split; auto. apply sep_app; auto.
Qed.
Lemma empty_field w1 : sep_text w1 -> field_of (lit "[" ++ w1 ++ lit "]") [].
Proof.
  intros H w k Hw _. exists (FBr w1 SNil w). cbn [show_field ok_field sk_field]. split.
  - rewrite <- !app_assoc. reflexivity.
  - repeat split; auto.
Qed.

Section S.
Variable lv : linvalues.
Hypothesis LV : ok_lv lv.

Lemma lv_numsep : sep_text (numsep lv) /\ numsep lv <> [].
Proof. destruct LV as (F & A & _). inversion F; auto. Qed.
Lemma lv_sub : sep_text (subelspacer lv) /\ subelspacer lv <> [].
Proof. destruct LV as (F & _ & A). inversion F as [|? ? _ F1]; inversion F1; auto. Qed.
Lemma lv_cur : sep_text (curindent lv) /\ sep_text (indent lv).
Proof.
  destruct LV as (F & _ & A). inversion F as [|? ? _ F1]; inversion F1 as [|? ? _ F2]; inversion F2 as [|? ? ? F3]; inversion F3; auto.
Qed.
Lemma sep_nl : sep_text [10%N].
Proof. apply sep_blank; [reflexivity|constructor]. Qed.
Lemma sep_sp : sep_text [32%N].
Proof. apply sep_blank; [reflexivity|constructor]. Qed.

Lemma mfsimple_field ts : Forall is_number ts -> exists t, mfsimple_vrmlstr lv ts = Some t /\ field_of t (map SNum ts).
Proof.
  intros Hn. unfold mfsimple_vrmlstr.
  destruct (chunks_ok 100 (numsep lv) ts (Nat.lt_0_succ 99) (List.length ts) (le_n _)) as (sets & E & H).
  rewrite E. eexists. split; [reflexivity|].
  destruct ts as [|t0 ts].
  - cbn in E. injection E as <-. cbn [join map]. apply (empty_field ([32%N] ++ [32%N])). apply sep_app; apply sep_sp.
  - set (ts' := t0 :: ts) in *. assert (Hne : ts' <> []) by discriminate. clearbody ts'. clear t0 ts.
    destruct lv_numsep as [N1 N2].
    destruct (H laid (map (fun t => [INum t]) ts')) as (ls & F & C & NE).
    { intros ls ts F Hl. apply laid_join; auto. }
    { clear. induction ts' as [|t ts IH]; cbn; constructor; auto. apply (laid_one (INum t)). }
    apply (laid_join [10%N]) in F; [|apply sep_nl|discriminate|apply NE; destruct ts'; [congruence|discriminate]].
    rewrite C in F. replace (List.concat (map (fun t => [INum t]) ts')) with (map INum ts') in F
      by (clear; induction ts'; cbn; congruence).
    pose proof (bracket_field _ _ [32%N] [32%N] sep_sp sep_sp F (nums_v _ Hn) [] sep_nil) as B.
    rewrite sk_nums, app_nil_r in B. exact B.
Qed.

Lemma mfvec_field d (rs : list (list text)) : 1 <= d <= 100 -> Forall (fun r => List.length r = d /\ Forall is_number r) rs ->
  exists t, mfvec_vrmlstr lv d rs = Some t /\ field_of t (map SNum (List.concat rs)).
Proof.
  intros Hd Hr. unfold mfvec_vrmlstr. destruct rs as [|r0 rs].
  - eexists. split; [reflexivity|]. apply (empty_field [32%N]). apply sep_sp.
  - set (rs' := r0 :: rs) in *. assert (Hne : rs' <> []) by discriminate. clearbody rs'. clear r0 rs.
    destruct lv_numsep as [N1 N2], lv_sub as [S1 S2]. cbv zeta.
    assert (F0 : Forall2 laid (map (map INum) rs') (map (join (numsep lv)) rs')).
    { clear Hne. induction Hr as [|r rs [L _] _ IH]; cbn; constructor; auto.
      apply nums_laid; auto. destruct r; [cbn in L; lia|discriminate]. }
    assert (Cc : List.concat (map (map INum) rs') = map INum (List.concat rs')) by (symmetry; apply concat_map).
    assert (Hn : Forall is_number (List.concat rs')).
    { clear - Hr. induction Hr as [|r rs [_ H] _ IH]; cbn; [constructor|]. apply Forall_app. auto. }
    assert (NE0 : map (map INum) rs' <> []) by (destruct rs'; [congruence|discriminate]).
    assert (K : forall t, laid (map INum (List.concat rs')) t -> field_of (lit "[" ++ t ++ lit "]") (map SNum (List.concat rs'))).
    { intros t L. pose proof (bracket_field _ _ [] [] sep_nil sep_nil L (nums_v _ Hn) [] sep_nil) as B.
      rewrite sk_nums, app_nil_r in B. exact B. }
    destruct (List.length _ <? _).
    + eexists. split; [reflexivity|]. apply K. rewrite <- Cc. apply laid_join; auto.
    + destruct (chunks_ok (100 / d) (subelspacer lv) (map (join (numsep lv)) rs')) with (fuel := List.length (map (join (numsep lv)) rs'))
        as (sets & E & H); [apply Nat.div_le_lower_bound; lia|lia|].
      rewrite E. eexists. split; [reflexivity|]. apply K. rewrite <- Cc.
      destruct (H laid (map (map INum) rs')) as (ls & F & C & NE).
      { intros ls ts F Hl. apply laid_join; auto. }
      { exact F0. }
      rewrite <- C. apply laid_join; auto; [apply sep_nl|discriminate].
Qed.

Lemma strs_laid sep (l : list text) : sep_text sep -> sep <> [] -> l <> [] ->
  laid (map (fun s => IStr (List.concat (map esc_char s))) l) (join sep (map sfstring_vrmlstr l)).
Proof.
  intros Hs Hn Hl.
  assert (F : Forall2 laid (map (fun s => [IStr (List.concat (map esc_char s))]) l) (map sfstring_vrmlstr l)).
  { clear Hl. induction l as [|s l IH]; cbn [map]; constructor; auto. rewrite escape_spec. apply laid_one. }
  apply (laid_join sep _ _ Hs Hn) in F; [|destruct l; [congruence|discriminate]].
  replace (map (fun s => IStr (List.concat (map esc_char s))) l) with
    (List.concat (map (fun s => [IStr (List.concat (map esc_char s))]) l)); [exact F|].
  clear. induction l; cbn; congruence.
Qed.
Lemma go_join sep acc (l : list text) : acc <> [] ->
  List.concat ((fix go (result : list text) (l : list text) : list text :=
             match l with
             | [] => result
             | element :: r =>
                 go ((match result with [] => [] | _ => result ++ [sep] end) ++ [element]) r
             end) acc l) = List.concat acc ++ List.concat (map (fun x => sep ++ x) l).
Proof.
  revert acc. induction l as [|x l IH]; intros acc Ha; [cbn; symmetry; apply app_nil_r|].
  destruct acc as [|a acc]; [congruence|]. rewrite IH by (destruct acc; discriminate).
  rewrite !concat_app. cbn [List.concat map]. rewrite <- !app_assoc, ?app_nil_r. cbn [app]. rewrite <- ?app_assoc. reflexivity.
Qed.
Lemma join_flat sep x (l : list text) : join sep (x :: l) = x ++ List.concat (map (fun y => sep ++ y) l).
Proof.
  revert x. induction l as [|y l IH]; intros x; [cbn; symmetry; apply app_nil_r|].
  rewrite join_cons by discriminate. rewrite IH. cbn [map List.concat]. rewrite <- !app_assoc. reflexivity.
Qed.
Definition str_items (l : list text) : list sitem := map (fun s => SStr (List.concat (map esc_char s))) l.
Lemma mfstring_field (l : list text) : field_of (mfstring_vrmlstr lv l) (str_items l).
Proof.
  unfold mfstring_vrmlstr. destruct l as [|s0 l]; [apply (empty_field [32%N]); apply sep_sp|].
  set (l' := s0 :: l). cbv zeta. destruct lv_sub as [S1 S2], lv_cur as [C1 C2].
  assert (V : Forall vitem (map (fun s => IStr (List.concat (map esc_char s))) l')).
  { clearbody l'. clear. induction l' as [|s l IH]; cbn; constructor; auto. exists s. apply escape_body. }
  assert (K : map sk_item (map (fun s => IStr (List.concat (map esc_char s))) l') = str_items l').
  { rewrite map_map. reflexivity. }
  set (sep := subelspacer lv ++ [10%N] ++ curindent lv ++ indent lv).
  assert (Q1 : sep_text sep) by (repeat apply sep_app; auto using sep_nl).
  assert (Q2 : sep <> []) by (unfold sep; destruct (subelspacer lv); [congruence|discriminate]).
  pose proof (strs_laid (subelspacer lv) l' S1 S2 ltac:(discriminate)) as L1.
  pose proof (strs_laid sep l' Q1 Q2 ltac:(discriminate)) as L2.
  destruct (60 <? _).
  - destruct (1 <? List.length (map sfstring_vrmlstr l')) eqn:E.
    + rewrite concat_app, go_join by discriminate. cbn [List.concat].
      pose proof (bracket_field _ _ sep ([10%N] ++ curindent lv) Q1 (sep_app _ _ sep_nl C1) L2 V [10%N] sep_nl) as B.
      rewrite K in B. rewrite app_nil_r.
      assert (X : List.concat (map (fun x => sep ++ x) (map sfstring_vrmlstr l')) = sep ++ join sep (map sfstring_vrmlstr l')).
      { unfold l'. cbn [map List.concat]. rewrite join_flat. rewrite <- app_assoc. reflexivity. }
      rewrite X. rewrite <- !app_assoc in *. cbn [app] in *. exact B.
    + assert (l = []) as -> by (destruct l; [reflexivity|discriminate E]).
      pose proof (plain_field _ _ L2 V) as B. rewrite K in B. unfold l' in *. cbn [map List.concat app join] in *.
      rewrite app_nil_r. exact B.
  - destruct (1 <? List.length (map sfstring_vrmlstr l')) eqn:E.
    + pose proof (bracket_field _ _ [32%N] [32%N] sep_sp sep_sp L1 V [] sep_nil) as B. rewrite K, app_nil_r in B. exact B.
    + pose proof (plain_field _ _ L1 V) as B. rewrite K in B. exact B.
Qed.
End S.

Section R.
Variable P : prims.
Variable fstr : tcode -> fl -> text.
Hypothesis FS : faithful fstr.

Definition isf (c : tcode) : Prop := c = Cf \/ c = Cd.
Lemma float_item c x : isf c -> item_of c x -> finite_item x ->
  float_shape (str_num fstr c x) /\ exists g, read_float (str_num fstr c x) = Some g /\ cast P c (NF g) = x.
Proof.
  intros C I F. destruct FS as [F64 F32]. destruct x as [z|f].
  - destruct C as [->| ->]; contradiction.
  - destruct C as [->| ->]; cbn [item_of finite_item str_num cast] in *.
    + destruct (F32 f I F) as (S & g & R & E). split; [exact S|]. exists g. split; [exact R|]. rewrite E. reflexivity.
    + destruct (F64 f I F) as (S & R). split; [exact S|]. exists f. split; [exact R|]. rewrite r64_exact; auto.
Qed.
Definition good (c : tcode) (t : text) (x : num) : Prop :=
  is_number t /\ exists g, read_float t = Some g /\ cast P c (NF g) = x.
Lemma float_item_good c x : isf c -> item_of c x -> finite_item x -> good c (str_num fstr c x) x.
Proof. intros C I F. destruct (float_item c x C I F) as (S & g & R & E). split; [apply shape_number; exact S|eauto]. Qed.
Lemma float_item_compact c x : isf c -> item_of c x -> finite_item x -> good c (compact (str_num fstr c x)) x.
Proof.
  intros C I F. destruct (float_item c x C I F) as (S & g & R & E). destruct (compact_ok _ S) as [N Q].
  split; [exact N|]. exists g. rewrite Q. auto.
Qed.
Lemma good_map h c xs : (forall x, item_of c x -> finite_item x -> good c (h x) x) ->
  Forall (item_of c) xs -> Forall finite_item xs -> Forall2 (good c) (map h xs) xs.
Proof.
  intros H I F. induction I as [|x xs I1 I IH]; inversion F; subst; cbn; constructor; auto.
Qed.
Lemma good_numbers c ts xs : Forall2 (good c) ts xs -> Forall is_number ts.
Proof. induction 1 as [|t x ts xs [H _] _ IH]; constructor; auto. Qed.
Lemma good_read c ts xs : Forall2 (good c) ts xs -> exists gs,
  read_floats (map (fun n => T G_SFNumber n []) ts) = Ok (map PFloat gs) /\ map (fun g => cast P c (NF g)) gs = xs.
Proof.
  induction 1 as [|t x ts xs (N & g & R & E) _ (gs & IH1 & IH2)]; [exists []; auto|].
  exists (g :: gs). cbn [map]. split; [|congruence]. unfold read_floats in *. cbn [mapM map]. cbn [tree_span]. rewrite R.
  cbn [option_map of_option bind]. rewrite IH1. reflexivity.
Qed.
Lemma collapse_floats gs : collapse (map PFloat gs) = map PFloat gs.
Proof.
  apply collapse_spec. induction gs as [|g gs IH]; [constructor|]. cbn. apply fl_item; [discriminate|exact IH].
Qed.
Lemma py_floats gs : mapM (py_float P) (map PFloat gs) = Ok gs.
Proof. induction gs as [|g gs IH]; [reflexivity|]. cbn [map mapM py_float bind]. rewrite IH. reflexivity. Qed.

Lemma floats_back c gs xs : map (fun g => cast P c (NF g)) gs = xs ->
  mffloat_coerce P c (PSeq KList (map PFloat gs)) = Ok (PArr (mkarr c [List.length xs] xs)).
Proof.
  intros <-. cbn [mffloat_coerce]. rewrite collapse_floats, py_floats. cbn [bind]. unfold farray. rewrite map_length. reflexivity.
Qed.
Lemma vec_back c d gs xs : map (fun g => cast P c (NF g)) gs = xs -> List.length xs = d ->
  sfvec_coerce P c [d] (PSeq KList (map PFloat gs)) = Ok (PArr (mkarr c [d] xs)).
Proof.
  intros <- L. rewrite map_length in L. cbn [sfvec_coerce]. rewrite collapse_floats, py_floats. cbn [bind].
  unfold sfvec_list, farray, reshape. cbv zeta. cbn [a_data a_shape a_code size fold_right].
  rewrite map_length, L, Nat.mul_1_r, Nat.eqb_refl. cbn [bind]. destruct (list_eq_dec _ _ _); [reflexivity|congruence].
Qed.
Lemma np_floats c gs : exists s, np_array P c (PSeq KList (map PFloat gs)) = Ok (mkarr c s (map (fun g => cast P c (NF g)) gs)).
Proof.
  unfold np_array. rewrite discover_list.
  assert (E : go_discover P c (map PFloat gs) = Ok (map (fun f => ([], [cast P c (NF f)])) gs)).
  { induction gs as [|g gs IH]; [reflexivity|]. cbn [map].
    rewrite go_cons, (number_discover _ _ _ _ (nm_float g)), IH. reflexivity. }
  rewrite E. cbn [bind]. destruct gs as [|g gs]; [eexists; reflexivity|]. cbn [map stack].
  replace (forallb _ _) with true.
  - cbn [bind fst snd map]. eexists. f_equal. f_equal. rewrite map_map. cbn [snd]. cbn [List.concat app]. f_equal.
    clear. induction gs; cbn; congruence.
  - symmetry. apply forallb_forall. intros p [<-|Hp]; [reflexivity|].
    apply in_map_iff in Hp as (h & <- & _). reflexivity.
Qed.
Lemma rows_back c d n gs xs : d <> 0 -> map (fun g => cast P c (NF g)) gs = xs -> List.length xs = n * d ->
  mfvec_coerce P c [d] (PSeq KList (map PFloat gs)) = Ok (PArr (mkarr c [n; d] xs)).
Proof.
  intros D E L. cbn [mfvec_coerce]. destruct (np_floats c gs) as [s S]. rewrite S, E.
  rewrite (reshape_rows_self c n); [reflexivity| |]; cbn; lia.
Qed.
Lemma unit_clipped x : item_of Cf x -> in_unit x -> clip_num x = x.
Proof.
  intros I (f & -> & F & R). cbn in *. rewrite clip01_id; auto.
Qed.
Lemma units_clipped xs : Forall (item_of Cf) xs -> Forall in_unit xs -> map clip_num xs = xs.
Proof. intros I. induction I as [|x xs I1 I IH]; intros U; inversion U; subst; cbn; [reflexivity|]. rewrite unit_clipped, IH; auto. Qed.

Lemma ints_back c zs : Forall (item_of c) (map NZ zs) -> (c = Ci \/ c = CI) ->
  mfint32_coerce P c (PSeq KList (map PInt zs)) = Ok (PArr (mkarr c [List.length zs] (map NZ zs))).
Proof.
  intros I C. cbn [mfint32_coerce].
  assert (E : mapM (py_int P) (map PInt zs) = Ok zs).
  { clear. induction zs as [|z zs IH]; [reflexivity|]. cbn [map mapM py_int bind]. rewrite IH. reflexivity. }
  rewrite E. cbn [bind]. unfold iarray.
  replace (forallb _ zs) with true; [reflexivity|]. symmetry. apply forallb_forall. intros z Hz.
  rewrite Forall_forall in I. specialize (I (NZ z) (in_map NZ zs z Hz)). apply Z.eqb_eq.
  destruct C as [->| ->]; cbn [item_of] in I; unfold wrap_code, wrap; cbn [andb].
  - change (32 - 1)%Z with 31%Z. destruct (Z.leb_spec 0 z).
    + rewrite Z.mod_small by lia. destruct (Z.leb_spec (2 ^ 31) z); lia.
    + assert (M : (z mod 2 ^ 32 = z + 2 ^ 32)%Z).
      { rewrite <- (Z.mod_add z 1 (2 ^ 32)) by lia. rewrite Z.mul_1_l. apply Z.mod_small. lia. }
      rewrite M. destruct (Z.leb_spec (2 ^ 31) (z + 2 ^ 32)); lia.
  - apply Z.mod_small. lia.
Qed.
Lemma ints_read zs : read_ints (map (fun n => T G_SFNumber n []) (map str_int zs)) = Ok (map PInt zs).
Proof.
  induction zs as [|z zs IH]; [reflexivity|]. unfold read_ints in *. cbn [map mapM tree_span].
  rewrite str_int_read. cbn [option_map of_option bind]. rewrite IH. reflexivity.
Qed.
Lemma rows_ok {A} n d (l : list A) : List.length l = n * d ->
  List.concat (rows n d l) = l /\ Forall (fun r => List.length r = d /\ incl r l) (rows n d l).
Proof.
  revert l. induction n as [|n IH]; intros l L; cbn [rows].
  - destruct l; [|discriminate]. split; [reflexivity|constructor].
  - cbn in L. destruct (IH (skipn d l)) as [E F]; [rewrite skipn_length; lia|]. split.
    + cbn [List.concat]. rewrite E. apply firstn_skipn.
    + constructor.
      * split; [rewrite firstn_length; lia|]. intros x Hx. rewrite <- (firstn_skipn d l). apply in_app_iff; auto.
      * eapply Forall_impl; [|exact F]. intros r [R1 R2]. split; [exact R1|]. intros x Hx.
        rewrite <- (firstn_skipn d l). apply in_app_iff; auto.
Qed.

Variable lv : linvalues.
Hypothesis LV : ok_lv lv.

(** an entry that is not a node *)
Definition plain (i : sitem) : bool := match i with SNum _ | SBool _ | SStr _ => true | _ => false end.
Lemma plain_nums ts : forallb plain (map SNum ts) = true.
Proof. induction ts; auto. Qed.
Lemma plain_strs l : forallb plain (str_items l) = true.
Proof. induction l; auto. Qed.
Definition survives (t : fty) (v : pv) : Prop :=
  exists tx its, vrmlstr fstr lv t v = Some tx /\ (field_of tx its /\ forallb plain its = true) /\
    (readable t = true -> forall l, map erase l = map et_item its -> read_value P t l = Ok v).

Lemma num_field n : is_number n -> field_of n [SNum n].
Proof. intros H. apply (plain_field [INum n] n (laid_one (INum n))). constructor; [exact H|constructor]. Qed.

Lemma vec_survives c d ts xs : d <> 0 -> List.length xs = d -> Forall2 (good c) ts xs ->
  field_of (join (numsep lv) ts) (map SNum ts) /\
  forall l, map erase l = map et_item (map SNum ts) -> exists gs, read_floats l = Ok (map PFloat gs) /\
    map (fun g => cast P c (NF g)) gs = xs.
Proof.
  intros D L G. destruct (lv_numsep lv LV) as [N1 N2]. split.
  - rewrite <- sk_nums. apply plain_field; [|apply nums_v; eapply good_numbers; exact G].
    apply nums_laid; auto. inversion G; subst; [cbn in *; lia|discriminate].
  - intros l H. apply erase_nums in H as ->. apply (good_read c); exact G.
Qed.
Lemma rows_survive c n d ts xs : 1 <= d <= 100 -> List.length xs = n * d -> Forall2 (good c) ts xs ->
  exists tx, mfvec_vrmlstr lv d (rows n d ts) = Some tx /\ field_of tx (map SNum ts).
Proof.
  intros D L G. assert (Lt : List.length ts = n * d) by (rewrite <- L; clear - G; induction G; cbn; congruence).
  destruct (rows_ok n d ts Lt) as [E F]. pose proof (good_numbers _ _ _ G) as Hn.
  destruct (mfvec_field lv LV d (rows n d ts) D) as (tx & TX & Q).
  { eapply Forall_impl; [|exact F]. intros r [R1 R2]. split; [exact R1|]. rewrite Forall_forall in *. auto. }
  rewrite E in Q. eauto.
Qed.

Lemma stored_base t v : stored t v =
  match fbase t with
  | BBool => is_bool v
  | BInt => is_int v
  | BFloat => is_float v
  | BString => is_string v
  | BStrings => is_strings v
  | BInts c | BFloats c => is_flat_array c v
  | BVec c d => is_array c [d] v
  | BRows c d => is_rows c [d] v
  | BColor => is_array Cf [3] v /\ forall a, v = PArr a -> Forall in_unit (a_data a)
  | BColors => is_rows Cf [3] v /\ forall a, v = PArr a -> Forall in_unit (a_data a)
  end.
Proof. destruct t; reflexivity. Qed.
Lemma value_survives t v : stored t v -> finite v -> survives t v.
Proof.
  intros S F. rewrite stored_base in S. unfold survives, vrmlstr, read_value, coerce.
  destruct (fbase t) as [| | | | |c|c|c d|c d| |] eqn:B.
  - (* SFBool *)
    assert (exists b : bool, v = PInt (if b then 1 else 0)) as [b ->]
      by (destruct S as [-> | ->]; [exists false|exists true]; reflexivity).
    exists (lit (if b then "TRUE" else "FALSE")), [SBool b]. split; [destruct b; reflexivity|]. split.
    + split; [|reflexivity]. pose proof (plain_field [IBool b] _ (laid_one (IBool b))) as Q. cbn [map sk_item] in Q. destruct b; apply Q; repeat constructor.
    + intros _ l H. destruct l as [|x [|]]; try discriminate. injection H as H. apply erase_bool in H as ->.
      destruct t; try discriminate B. cbn [handler only tree_span bind]. destruct b; reflexivity.
  - (* SFInt32 *)
    destruct S as [z ->]. exists (str_int z), [SNum (str_int z)]. split; [reflexivity|].
    split; [split; [apply num_field; apply str_int_number|reflexivity]|].
    intros R l H. destruct l as [|x [|]]; try discriminate. injection H as H. apply erase_num in H as ->.
    destruct t; try discriminate B; try discriminate R. cbn [handler only tree_span bind]. rewrite str_int_read. reflexivity.
  - (* SFFloat *)
    destruct S as (f & -> & V). cbn in F. destruct (proj1 FS f V F) as [Sh R]. destruct (compact_ok _ Sh) as [N Q].
    exists (compact (fstr Cd f)), [SNum (compact (fstr Cd f))]. split; [reflexivity|]. split; [split; [apply num_field; exact N|reflexivity]|].
    intros _ l H. destruct l as [|x [|]]; try discriminate. injection H as H. apply erase_num in H as ->.
    rewrite R in Q. destruct t; try discriminate B; cbn [handler only tree_span bind]; rewrite Q; reflexivity.
  - (* SFString *)
    destruct S as [s ->]. exists (sfstring_vrmlstr s), [SStr (List.concat (map esc_char s))]. split; [reflexivity|]. split.
    + split; [|reflexivity]. rewrite escape_spec. apply (plain_field [IStr (List.concat (map esc_char s))] _ (laid_one (IStr _))).
      constructor; [exists s; apply escape_body|constructor].
    + intros _ l H. destruct l as [|x [|]]; try discriminate. injection H as H. apply erase_str in H as [sp ->].
      destruct t; try discriminate B. cbn [handler only]. rewrite (read_pieces sp _ s (escape_body s) []). reflexivity.
  - (* MFString *)
    destruct S as [ss ->]. exists (mfstring_vrmlstr lv ss), (str_items ss). split; [|split].
    + replace (forallb _ (map PStr ss)) with true by (clear; induction ss; auto).
      rewrite map_map, map_id. reflexivity.
    + split; [apply mfstring_field; exact LV|apply plain_strs].
    + intros _ l H. assert (E : map read_string l = ss).
      { apply (erase_strs l (map (fun s => List.concat (map esc_char s)) ss)).
        - rewrite H. unfold str_items. rewrite !map_map. reflexivity.
        - clear. induction ss as [|s ss IH]; cbn; constructor; auto. apply escape_body. }
      destruct t; try discriminate B. cbn [handler bind]. rewrite <- map_map, E.
      unfold mfstring_coerce. cbn [py_iter bind].
      assert (M : mapM (sfstring_coerce P) (map PStr ss) = Ok (map PStr ss)).
      { clear. induction ss as [|s ss IH]; [reflexivity|]. cbn [map mapM]. cbn [sfstring_coerce bind]. rewrite IH. reflexivity. }
      rewrite M. reflexivity.
  - (* MFInt32 *)
    assert (C : c = Ci \/ c = CI) by (destruct t; inversion B; auto).
    destruct S as (xs & -> & I). assert (exists zs, xs = map NZ zs) as [zs ->].
    { clear - I C. induction I as [|x xs I1 I (zs & ->)]; [exists []; reflexivity|].
      destruct x as [z|f]; [exists (z :: zs); reflexivity|]. destruct C as [->| ->]; contradiction. }
    cbn [a_code a_data]. rewrite map_map. change (fun x => str_num fstr c (NZ x)) with str_int.
    destruct (mfsimple_field lv LV (map str_int zs)) as (tx & TX & Q).
    { clear. induction zs; cbn; constructor; auto using str_int_number. }
    exists tx, (map SNum (map str_int zs)). split; [exact TX|]. split; [exact (conj Q (plain_nums _))|].
    intros _ l H. apply erase_nums in H as ->.
    assert (E : handler t (map (fun n => T G_SFNumber n []) (map str_int zs)) = Ok (PSeq KList (map PInt zs))).
    { destruct t; try discriminate B; cbn [handler]; rewrite ints_read; reflexivity. }
    rewrite E. cbn [bind]. rewrite map_length. apply ints_back; auto.
  - (* MFFloat *)
    assert (C : isf c) by (destruct t; inversion B; unfold isf; auto).
    destruct S as (xs & -> & I). cbn [finite a_code a_data] in *.
    pose proof (good_map (str_num fstr c) c xs (fun x => float_item_good c x C) I F) as G.
    destruct (mfsimple_field lv LV _ (good_numbers _ _ _ G)) as (tx & TX & Q).
    exists tx, (map SNum (map (str_num fstr c) xs)). split; [exact TX|]. split; [exact (conj Q (plain_nums _))|].
    intros _ l H. apply erase_nums in H as ->. destruct (good_read _ _ _ G) as (gs & R & E).
    assert (E2 : handler t (map (fun n => T G_SFNumber n []) (map (str_num fstr c) xs)) = Ok (PSeq KList (map PFloat gs))).
    { destruct t; try discriminate B; cbn [handler]; rewrite R; reflexivity. }
    rewrite E2. cbn [bind]. apply floats_back. exact E.
  - (* SFVec *)
    assert (C : isf c /\ d <> 0) by (destruct t; inversion B; unfold isf; auto). destruct C as [C D].
    destruct S as (xs & -> & L & I). cbn [finite a_code a_data fold_right] in *. rewrite Nat.mul_1_r in L.
    pose proof (good_map (fun x => compact (str_num fstr c x)) c xs (fun x => float_item_compact c x C) I F) as G.
    destruct (vec_survives c d _ xs D L G) as [Q R].
    eexists. exists (map SNum (map (fun x => compact (str_num fstr c x)) xs)). split; [reflexivity|]. split; [exact (conj Q (plain_nums _))|].
    intros Rd l H. destruct (R l H) as (gs & R1 & E).
    assert (E2 : handler t l = Ok (PSeq KList (map PFloat gs))).
    { destruct t; try discriminate B; try discriminate Rd; cbn [handler]; rewrite R1; reflexivity. }
    rewrite E2. cbn [bind]. apply vec_back; auto.
  - (* MFVec *)
    assert (C : isf c /\ 1 <= d <= 100) by (destruct t; inversion B; unfold isf; split; auto; lia). destruct C as [C D].
    destruct S as (n & xs & -> & L & I). cbn [finite a_code a_data a_shape hd fold_right] in *. rewrite Nat.mul_1_r in L.
    pose proof (good_map (str_num fstr c) c xs (fun x => float_item_good c x C) I F) as G.
    destruct (rows_survive c n d _ xs D L G) as (tx & TX & Q).
    exists tx, (map SNum (map (str_num fstr c) xs)). split; [exact TX|]. split; [exact (conj Q (plain_nums _))|].
    intros Rd l H. apply erase_nums in H as ->. destruct (good_read _ _ _ G) as (gs & R & E).
    assert (E2 : handler t (map (fun n => T G_SFNumber n []) (map (str_num fstr c) xs)) = Ok (PSeq KList (map PFloat gs))).
    { destruct t; try discriminate B; try discriminate Rd; cbn [handler]; rewrite R; reflexivity. }
    rewrite E2. cbn [bind]. apply rows_back; auto. lia.
  - (* SFColor *)
    destruct t; try discriminate B. clear B. destruct S as [(xs & -> & L & I) U]. specialize (U _ eq_refl).
    cbn [finite a_code a_data fold_right] in *. assert (C : isf Cf) by (left; reflexivity).
    pose proof (good_map (fun x => compact (str_num fstr Cf x)) Cf xs (fun x => float_item_compact Cf x C) I F) as G.
    destruct (vec_survives Cf 3 _ xs ltac:(lia) L G) as [Q R].
    eexists. exists (map SNum (map (fun x => compact (str_num fstr Cf x)) xs)). split; [reflexivity|]. split; [exact (conj Q (plain_nums _))|].
    intros _ l H. destruct (R l H) as (gs & R1 & E). cbn [handler]. rewrite R1. cbn [bind].
    unfold sfcolor_coerce. cbn [bind]. rewrite (vec_back Cf 3 gs xs E L). cbn [bind clip a_code a_shape a_data].
    rewrite units_clipped; auto.
  - (* MFColor *)
    destruct t; try discriminate B. clear B. destruct S as [(n & xs & -> & L & I) U]. specialize (U _ eq_refl).
    cbn [finite a_code a_data a_shape hd fold_right] in *. assert (C : isf Cf) by (left; reflexivity).
    rewrite Nat.mul_1_r in L.
    pose proof (good_map (str_num fstr Cf) Cf xs (fun x => float_item_good Cf x C) I F) as G.
    destruct (rows_survive Cf n 3 _ xs ltac:(lia) L G) as (tx & TX & Q).
    exists tx, (map SNum (map (str_num fstr Cf) xs)). split; [exact TX|]. split; [exact (conj Q (plain_nums _))|].
    intros _ l H. apply erase_nums in H as ->. destruct (good_read _ _ _ G) as (gs & R & E).
    cbn [handler]. rewrite R. cbn [bind]. unfold mfcolor_coerce.
    rewrite (rows_back Cf 3 n gs xs ltac:(lia) E L). cbn [bind clip a_code a_shape a_data].
    rewrite units_clipped; auto.
Qed.
End R.
