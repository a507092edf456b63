(** A Script with sources: the text written for it, and that no reader accepts it. *)
From Coq Require Import Reals Permutation SpecFloat.
From Flocq Require Import Core.Core IEEE754.BinarySingleNaN.
From Verif Require Import Base Text PyDict PyDict_Proofs Float Coerce_Model Coerce_Spec Grammar_Model Lex_Spec Lex_Proofs
  Doc_Spec Doc_Proofs SceneGraph_Model VrmlStr_Model VrmlStr_Spec VrmlStr_Proofs VrmlStr_Values Scene_Model Linearise_Model
  Build_Model Proto_Model Scene_Spec Proto_Spec Linearise_Proofs Drop_Proofs Layout_Proofs Written Rebuilt Reading_Spec Reading_Proofs ProtoText Garbled
  ScriptText ScriptSave_Spec ScriptSave.
Local Open Scope nat_scope.
Local Open Scope list_scope.

Lemma e_cut2 a s : errs a s -> errs (Cut a) s.
Proof. intros H. apply Grammar_Proofs.p_cut; [exact H|discriminate]. Qed.
Definition bad_sels (b : text) : Prop := no_sep b /\ fails alt_pl b /\ strip (lit "IS") b = None /\ errs sbody_e b.
Lemma bad_source nm t rest : safe_name nm = true -> decl_like nm = false -> bad_field t -> follow rest -> bad_sels (nm ++ [9%N] ++ t ++ rest).
Proof.
  intros Hn Hd (Gs & pre & c & r & -> & Hp & Nc & B & Is) Hr.
  destruct (next_facts (nm ++ 9%N :: (pre ++ c :: r) ++ rest)) as (N1 & _ & _ & N2).
  { exists nm, (pre ++ c :: r), rest. auto. }
  split; [exact N1|]. split; [exact N2|].
  assert (E0 : nm ++ [9%N] ++ (pre ++ c :: r) ++ rest = nm ++ (9%N :: pre) ++ c :: r ++ rest) by (cbn [app]; rewrite <- app_assoc; reflexivity).
  rewrite E0. pose proof (safe_no_kw nm ((9%N :: pre) ++ c :: r ++ rest) Hn eq_refl) as Kw.
  split; [apply Kw; cbn; auto 20|].
  destruct (f_decl_like nm ((9%N :: pre) ++ c :: r ++ rest) Hd eq_refl) as [D1 D2]. destruct (f_kw3 _ Kw) as (A1 & A2 & A3).
  apply e_star. cbn [al]. do 5 (apply e_alt2; [assumption|]).
  apply e_nt. cbn [rule sq]. eapply e_seq2; [apply (r_name nm); [reflexivity|apply safe_is_name; exact Hn|reflexivity]|].
  destruct Gs as (p2 & c2 & r2 & E & Hp2 & Hc2 & _).
  assert (Nk : no_sep (c :: r ++ rest)).
  { destruct (sep_unique pre (c :: r) p2 (c2 :: r2)) as [_ E3]; auto; [apply good_no_sep; exact Hc2|]. injection E3 as <- <-.
    apply good_no_sep. exact Hc2. }
  eapply e_seq2; [apply (r_ts (9%N :: pre)); [reflexivity|apply sep_blank; [reflexivity|exact Hp]|exact Nk]|].
  apply e_seq. apply e_alt2; [apply f_seq; apply f_lit; apply Is|]. apply B. exact Hr.
Qed.
(** how a declaration starts *)
Lemma decl_start nm w r : safe_name nm = true -> sep_text w -> w <> [] -> no_sep r -> no_head 123 r ->
  no_sep (nm ++ w ++ r) /\ fails alt_pl (nm ++ w ++ r) /\ strip (lit "IS") (nm ++ w ++ r) = None.
Proof.
  intros Hn Hw Ne Hr Hb. assert (Hs : stop (w ++ r) = true) by (apply sep_stop; auto).
  split; [apply name_no_sep; apply safe_is_name; exact Hn|]. split; [apply attr_fail_pl; auto|].
  apply (safe_no_kw nm); [exact Hn|apply stop_ends; exact Hs|cbn; auto 20].
Qed.
Lemma bad_line t s w b : sel_ok t s -> sep_text w -> bad_sels b -> bad_sels (t ++ (10%N :: w) ++ b).
Proof.
  intros Hs Hw (N & F & I & E). pose proof sep1 as S1. pose proof (sep_nl_ _ Hw) as Hw1.
  destruct s as [ex ty nm [its|]|o ty nm [|]|nm [its|]]; cbn [sel_ok decl_ok] in Hs; try contradiction.
  - destruct Hs as (Ht & Hn & t0 & -> & pre & t' & -> & Hp & Hf).
    destruct (Hf w b Hw) as (fv & E2 & Hok & _). rewrite <- !app_assoc.
    rewrite (app_assoc t'), <- E2.
    destruct (decl_start (exposure ex) [32%N] (ty ++ [32%N] ++ nm ++ [32%N] ++ pre ++ show_field fv ++ b)) as (A1 & A2 & A3);
      [destruct ex; reflexivity|exact S1|discriminate|apply type_no_sep; exact Ht|apply type_no_brace; exact Ht|].
    split; [exact A1|]. split; [exact A2|]. split; [exact A3|].
    eapply e_star2; [|exact E]. cbn [al]. apply r_alt1. apply r_nt; [reflexivity|reflexivity|]. cbn [rule sq cuts map].
    eapply r_seq; [apply r_exposure| |reflexivity].
    eapply r_seq; [apply (r_ts [32%N]); [reflexivity|exact S1|apply type_no_sep; exact Ht]| |reflexivity].
    eapply r_seq; [apply r_cut; apply r_type; [exact Ht|reflexivity]| |reflexivity].
    eapply r_seq; [apply r_cut; apply (r_ts [32%N]); [reflexivity|exact S1|apply name_no_sep; exact Hn]| |reflexivity].
    eapply r_seq; [apply r_cut; apply (r_name nm); [reflexivity|exact Hn|reflexivity]| |reflexivity].
    eapply r_seq; [apply r_cut; apply (r_ts (32%N :: pre)); [reflexivity|apply sep_blank; [reflexivity|exact Hp]|apply field_no_sep; exact Hok]| |reflexivity].
    eapply r_seq0; [apply r_cut|apply r_cut; apply r_ts0; exact N].
    apply r_alt2; [apply f_seq; apply f_lit; apply is_fail_field; exact Hok|].
    apply (proj1 (proj2 (proj2 (proj2 doc_parse)))); auto.
  - destruct Hs as (Ht & Hn & ->). rewrite <- !app_assoc.
    destruct (decl_start (direction o) [32%N] (ty ++ [32%N] ++ nm ++ (10%N :: w) ++ b)) as (A1 & A2 & A3);
      [destruct o; reflexivity|exact S1|discriminate|apply type_no_sep; exact Ht|apply type_no_brace; exact Ht|].
    split; [exact A1|]. split; [exact A2|]. split; [exact A3|].
    eapply e_star2; [|exact E]. cbn [al]. apply r_alt2; [apply f_nt; apply f_seq; apply f_exposure|].
    apply r_alt1. apply r_nt; [reflexivity|reflexivity|]. cbn [rule sq cuts map].
    eapply r_seq; [apply r_direction| |reflexivity].
    eapply r_seq; [apply (r_ts [32%N]); [reflexivity|exact S1|apply type_no_sep; exact Ht]| |reflexivity].
    eapply r_seq; [apply r_cut; apply r_type; [exact Ht|reflexivity]| |reflexivity].
    eapply r_seq; [apply r_cut; apply (r_ts [32%N]); [reflexivity|exact S1|apply name_no_sep; exact Hn]| |reflexivity].
    eapply r_seq; [apply r_cut; apply (r_name nm); [reflexivity|exact Hn|reflexivity]| |reflexivity].
    eapply r_seq; [apply r_cut; apply (r_ts (10%N :: w)); [reflexivity|exact Hw1|exact N]| |reflexivity].
    apply r_cut. apply r_opt0. apply f_seq. apply f_lit. exact I.
  - destruct Hs as (Hn & Hd & t0 & -> & Ft).
    destruct (next_facts (nm ++ 9%N :: t0 ++ (10%N :: w) ++ b)) as (N1 & _ & _ & N2).
    { exists nm, t0, ((10%N :: w) ++ b). split; [reflexivity|]. split; [exact Hn|]. eapply fld_good; eauto. }
    destruct Ft as (pre & t' & -> & Hp & H). destruct (H w b Hw) as (fv & Es & Ok & _).
    assert (E0 : (nm ++ 9%N :: pre ++ t') ++ (10%N :: w) ++ b = nm ++ (9%N :: pre) ++ show_field fv ++ b).
    { rewrite Es. rewrite <- !app_assoc. cbn [app]. rewrite <- !app_assoc. reflexivity. }
    assert (E1 : nm ++ 9%N :: (pre ++ t') ++ (10%N :: w) ++ b = nm ++ (9%N :: pre) ++ show_field fv ++ b).
    { rewrite <- E0, <- !app_assoc. cbn [app]. rewrite <- !app_assoc. reflexivity. }
    rewrite E1 in N1, N2. rewrite E0. split; [exact N1|]. split; [exact N2|].
    pose proof (safe_no_kw nm ((9%N :: pre) ++ show_field fv ++ b) Hn eq_refl) as Kw. split; [apply Kw; cbn; auto 20|].
    destruct (f_decl_like nm ((9%N :: pre) ++ show_field fv ++ b) Hd eq_refl) as [D1 D2]. destruct (f_kw3 _ Kw) as (A1 & A2 & A3).
    eapply e_star2; [|exact E]. cbn [al]. do 5 (apply r_alt2; [assumption|]).
    apply r_nt; [reflexivity|reflexivity|]. cbn [rule sq].
    eapply r_seq; [apply (r_name nm); [reflexivity|apply safe_is_name; exact Hn|reflexivity]| |reflexivity].
    eapply r_seq; [apply (r_ts (9%N :: pre)); [reflexivity|apply sep_blank; [reflexivity|exact Hp]|apply field_no_sep; exact Ok]| |reflexivity].
    eapply r_seq0; [|apply r_ts0; exact N].
    apply r_alt2; [apply f_seq; apply f_lit; apply is_fail_field; exact Ok|].
    apply (proj1 (proj2 (proj2 (proj2 doc_parse)))); auto.
Qed.
Lemma bad_lines xs sks w b : Forall2 (fun x s => sep_text (fst x) /\ sel_ok (snd x) s) xs sks -> sep_text w -> (forall k, bad_sels (b ++ k)) ->
  exists w' b', List.concat (map line xs) ++ (10%N :: w) ++ b = (10%N :: w') ++ b' /\ sep_text w' /\ forall k, bad_sels (b' ++ k).
Proof.
  intros F Hw B. induction F as [|[ld t] s xs sks (Hl & Hs) F IH]; [exists w, b; auto|].
  cbn [fst snd] in *. destruct IH as (w' & b' & E & Hw' & B'). exists ld, (t ++ (10%N :: w') ++ b'). cbn [map List.concat]. split; [|split; [exact Hl|]].
  - rewrite <- !app_assoc, E. unfold line. cbn [fst snd app]. rewrite <- !app_assoc. reflexivity.
  - intros k. rewrite <- !app_assoc. eapply bad_line; eauto.
Qed.
(** *** something that stops the reading of the file *)
Definition bad_start (t : text) : Prop := no_sep t /\ no_head 34 t /\ no_head 93 t /\ errs root_e t.
Definition script_pre (nm : text) : text := match nm with [] => [32%N] | _ => [] end.
Definition script_open (nm : text) : text := match nm with [] => lit "Script {" | _ => lit "DEF " ++ nm ++ lit "  Script {" end.
Lemma script_opens nm : def_part nm ++ lit " Script {" = script_pre nm ++ script_open nm.
Proof. destruct nm; [reflexivity|]. unfold def_part, script_pre, script_open. rewrite <- !app_assoc. reflexivity. Qed.
Lemma script_pre_sep nm : sep_text (script_pre nm).
Proof. destruct nm; [exact sep1|constructor]. Qed.
Lemma bad_script nm w b : (nm = [] \/ is_name nm = true) -> sep_text w -> bad_sels b -> bad_start (script_open nm ++ (10%N :: w) ++ b).
Proof.
  intros Hn Hw (N & _ & _ & E). pose proof sep1 as S1. pose proof (sep_nl_ _ Hw) as Hw1.
  assert (Q : errs (sq (tk "Script") (TS :: cuts [tk "{"; TS; sbody_e; TS; tk "}"; TS])) (lit "Script" ++ [32%N] ++ lit "{" ++ (10%N :: w) ++ b)).
  { cbn [sq cuts map].
    eapply e_seq2; [apply r_lit; reflexivity|].
    eapply e_seq2; [apply (r_ts [32%N]); [reflexivity|exact S1|apply no_sep_head; reflexivity]|].
    eapply e_seq2; [apply r_cut; apply r_lit; reflexivity|].
    eapply e_seq2; [apply r_cut; apply (r_ts (10%N :: w)); [reflexivity|exact Hw1|exact N]|].
    apply e_seq. apply e_cut2. exact E. }
  destruct nm as [|c nm].
  - change (script_open [] ++ (10%N :: w) ++ b) with (lit "Script" ++ [32%N] ++ lit "{" ++ (10%N :: w) ++ b).
    split; [apply no_sep_head; reflexivity|]. split; [reflexivity|]. split; [reflexivity|].
    unfold root_e. cbn [al]. do 3 (apply e_alt2; [apply f_nt; apply f_seq; apply f_lit; reflexivity|]).
    apply e_alt2; [apply f_use; reflexivity|]. apply e_alt1. apply e_nt. rewrite Script_rule.
    eapply e_seq2; [apply r_nodef; reflexivity|exact Q].
  - destruct Hn as [Hn|Hn]; [discriminate|].
    assert (script_open (c :: nm) ++ (10%N :: w) ++ b = lit "DEF" ++ [32%N] ++ (c :: nm) ++ [32%N; 32%N] ++ lit "Script" ++ [32%N] ++ lit "{" ++ (10%N :: w) ++ b) as ->.
    { unfold script_open. rewrite <- !app_assoc. reflexivity. }
    split; [apply no_sep_head; reflexivity|]. split; [reflexivity|]. split; [reflexivity|].
    unfold root_e. cbn [al]. do 3 (apply e_alt2; [apply f_nt; apply f_seq; apply f_lit; reflexivity|]).
    apply e_alt2; [apply f_use; reflexivity|]. apply e_alt1. apply e_nt. rewrite Script_rule.
    eapply e_seq2; [apply r_def; [exact S1|exact Hn|apply sep_blank; [reflexivity|exact S1]|discriminate|apply no_sep_head; reflexivity]|exact Q].
Qed.
(** *** the file *)
Lemma bad_file_sep ts is fw pre t : sep_text fw ->
  Forall2 (fun t i => exists pre t', t = pre ++ t' /\ sep_text pre /\ item_text t' i) ts is ->
  Forall (fun i => match i with SNode _ _ _ | SScript _ _ | SUse _ => True | _ => False end) is -> sep_text pre -> bad_start t ->
  forall h, ~ In 10%N h -> errs (rule G_vrmlFile) (h ++ [10%N] ++ List.concat (map (fun t => t ++ 10%N :: fw) ts) ++ pre ++ t).
Proof.
  intros Hf F Nn Hpre (B1 & B2 & B3 & B4) h Hh. cbn [rule sq].
  eapply e_seq2 with (X := [T G_header [] []]).
  { apply r_nt; [reflexivity|reflexivity|]. exists h, []. split; [|reflexivity]. cbn [rule].
    apply p_star_cls; [apply not_nl; exact Hh|reflexivity]. }
  apply e_seq. apply e_nt. cbn [rule].
  assert (Q : exists v K, List.concat (map (fun t => t ++ 10%N :: fw) ts) ++ pre ++ t = v ++ K /\ sep_text v /\
    (no_sep K /\ no_head 34 K /\ no_head 93 K) /\ forall w, sep_text w -> errs (Star (NT G_rootItem)) (w ++ K)).
  2: { destruct Q as (v & K & -> & Hv & _ & Q). apply (Q (10%N :: v)). apply sep_nl_. exact Hv. }
  induction F as [|u i ts is (pu & u' & -> & Hpu & Hu) F IH].
  - exists pre, t. cbn [map List.concat app]. split; [reflexivity|]. split; [exact Hpre|]. split; [auto|]. intros w Hw. apply e_star. apply e_nt. cbn [rule sq].
    eapply e_seq2; [apply (r_ts w); [reflexivity|exact Hw|exact B1]|]. apply e_seq. exact B4.
  - inversion Nn as [|? ? Ni Nn']; subst. destruct (IH Nn') as (v & K & EK & Hv & (N1 & N34 & N93) & E1).
    destruct (Hu (fw ++ v)) as (it & cw & E2 & Hcw & Hok & Hsk); [apply sep_app; auto|].
    assert (R : exists r, show_root r = show_item it /\ (forall k, ok_root r (cw ++ k))).
    { destruct it as [n|b| |b|u0 nm|n]; cbn [sk_item] in Hsk; subst i; try contradiction.
      - exists (RUse u0 nm). split; [reflexivity|exact Hok].
      - exists (Doc_Spec.RNode n). split; [reflexivity|exact Hok]. }
    destruct R as (r & R1 & R2). exists pu, (show_root r ++ cw ++ K). cbn [map List.concat]. split.
    { rewrite R1, (app_assoc (show_item it)), <- E2, <- !app_assoc. cbn [app]. rewrite EK, <- !app_assoc. reflexivity. }
    assert (N2 : no_sep (show_root r ++ cw ++ K)) by (apply root_no_sep; apply R2).
    split; [exact Hpu|]. split; [split; [exact N2|]; split; (apply root_no_head; [apply R2|reflexivity])|]. intros w Hw. eapply e_star2; [|exact (E1 [] sep_nil)].
    apply r_nt; [reflexivity|reflexivity|]. cbn [rule sq].
    eapply r_seq; [apply (r_ts w); [reflexivity|exact Hw|exact N2]| |reflexivity].
    apply (proj1 root_parse_mut); [apply R2|exact Hcw|exact N1|exact N34|exact N93].
Qed.

(** *** writing *)
Section Write.
Variable P : prims.
Variable fstr : tcode -> fl -> text.
Variable st : settings.
Variable S : scene.
Hypothesis FS : faithful fstr.
Hypothesis ST : ok_settings st.
Variable rec : nref -> lst -> lres.
Hypothesis REC : forall s, rec RNull s = LOk (emit (lit "NULL") s).

Lemma sources_write n nd urls lv : ok_script P S n nd urls -> urls <> [] -> exists t, bad_field t /\ forall s, l_level s = lv ->
  script_attr P fstr st S no_maps rec n url_attr s = LOk (more (emit (lead st s ++ lit "url" ++ [9%N] ++ t) s)).
Proof.
  intros [Nn Gi Df On Mm Fl Ur] Ne.
  assert (Fg : fget P S n url_attr = Ok (VPv (PSeq KList (map PStr urls)))).
  { unfold fget. rewrite Nn. unfold script_fget in Ur. destruct (dget text_eqb (n_vals nd) (f_name url_attr)); exact Ur. }
  set (s2 := at_level (Datatypes.S lv)).
  destruct (lead_eq st ST s2) as (ld & Ld & Sl).
  exists (garbled (lead st s2) (mfstring_vrmlstr (lv_at st s2) urls)). split.
  - apply bad_garbled; [apply st_lv; exact ST|exact Ne|]. rewrite Ld. apply sep_nl_. exact Sl.
  - intros s L. unfold script_attr, attr. rewrite Fg. cbn [url_attr f_kind f_name no_maps]. unfold no_maps.
    destruct urls as [|u us]; [congruence|].
    assert (D : dropped url_attr (VPv (PSeq KList (map PStr (u :: us)))) = Ok false) by reflexivity.
    fold url_attr. rewrite D. unfold sffield. cbn [url_attr f_kind map]. cbv zeta.
    set (s0 := emit (lead st s ++ lit "url" ++ [9%N]) s).
    set (s1 := emit (lit "[ ") (more s0)).
    assert (Ev : forall lv, vrmlstr fstr lv MFString (PSeq KList (PStr u :: map PStr us)) = Some (mfstring_vrmlstr lv (u :: us))).
    { intros lv0. cbn [vrmlstr fbase].
      assert (forallb (fun x => match x with PStr _ => true | _ => false end) (PStr u :: map PStr us) = true) as ->.
      { clear. cbn. induction us; [reflexivity|exact IHus]. }
      cbn [map]. rewrite map_map, map_id. reflexivity. }
    rewrite Ev. rewrite (lead_level st s2 s1) by (cbn; rewrite L; reflexivity).
    rewrite (lv_at_at st (emit _ s1)). change (l_level (emit (lead st s2) s1)) with (Datatypes.S (l_level s)). rewrite L. fold s2.
    f_equal. unfold s1, s0, garbled, emit, more. cbn [l_buf l_done l_level]. rewrite <- !app_assoc. reflexivity.
Qed.
Lemma script_write_bad n nd urls : ok_script P S n nd urls -> urls <> [] -> forall s, dget Nat.eqb (l_done s) n = None ->
  exists pre t s', Linearise_Model.script_body P fstr st S no_maps rec n (n_mem nd) s = LOk s' /\ l_buf s' = l_buf s ++ pre ++ t /\
    sep_text pre /\ (forall k, bad_start (t ++ k)) /\ (forall m, m <> n -> dget Nat.eqb (l_done s') m = dget Nat.eqb (l_done s) m).
Proof.
  intros OK Ne s Nd. pose proof OK as [Nn Gi Df On Mm Fl Ur]. unfold Linearise_Model.script_body, can_use. rewrite Nd.
  set (s1 := mark n (tell s, None) s). set (lv := l_level s).
  destruct (decl_lead st ST (Datatypes.S (Datatypes.S lv))) as (ld & Hld & Eld).
  destruct (events_write st _ ld Eld Hld _ (events_ok P _ Mm)) as (ls1 & F1 & E1).
  destruct (fields_write P fstr st FS ST rec REC _ ld Eld Hld _ (fields_ok P _ Mm)) as (ls2 & sks2 & F2 & R2 & E2).
  destruct (sources_write n nd urls (Datatypes.S lv) OK Ne) as (tu & Bu & Eu).
  destruct (lead_eq st ST (at_level (Datatypes.S lv))) as (la & Ela & Hla).
  destruct (lead_eq st ST (at_level (Datatypes.S (Datatypes.S lv)))) as (lb & Elb & Hlb).
  destruct (Fl _ (or_introl eq_refl)) as (b1 & G1). destruct (Fl _ (or_intror (or_introl eq_refl))) as (b2 & G2).
  destruct (flag_write P fstr st S rec n nd _ b1 _ lb Nn G1 (or_introl eq_refl) Elb Hlb) as (ls3 & F3 & E3).
  destruct (flag_write P fstr st S rec n nd _ b2 _ lb Nn G2 (or_intror (or_introl eq_refl)) Elb Hlb) as (ls4 & F4 & E4).
  destruct (decl_lead st ST (Datatypes.S (Datatypes.S lv))) as (le & Hle & Ele).
  set (tl := match def_text S n with [] => script_gi | d => d end).
  assert (Fo : forall k, follow ((List.concat (map line (ls3 ++ ls4)) ++ (10%N :: le) ++ lit "}#" ++ tl) ++ k)).
  { intros k. assert (F34 : exists sks, Forall2 (fun x s => sep_text (fst x) /\ sel_ok (snd x) s) (ls3 ++ ls4) sks /\
      Forall (fun s => match s with SSAttr _ (SVal _) => True | _ => False end) sks).
    { eexists. split; [apply Forall2_app; [exact F3|exact F4]|]. apply Forall_app. split; [destruct b1|destruct b2]; repeat constructor. }
    destruct F34 as (sks & F34 & At). destruct F34 as [|[w t] a xs sks (Hw & Hs) _].
    - exists le. eexists. cbn [map List.concat app]. rewrite <- app_assoc. split; [reflexivity|]. split; [exact Hle|]. left. reflexivity.
    - inversion At as [|? ? Ha _]; subst. destruct a as [| |nm [l|]]; try contradiction. cbn [fst snd sel_ok] in *. destruct Hs as (Hn & _ & t' & -> & Ft).
      exists w. eexists. cbn [map List.concat]. unfold line at 1. cbn [fst snd]. rewrite <- !app_assoc. cbn [app]. split; [reflexivity|]. split; [exact Hw|]. right.
      exists nm, t'. eexists. split; [reflexivity|]. split; [exact Hn|]. eapply fld_good; eauto. }
  destruct (bad_lines (ls1 ++ ls2) _ la (lit "url" ++ [9%N] ++ tu ++ List.concat (map line (ls3 ++ ls4)) ++ (10%N :: le) ++ lit "}#" ++ tl)
    (Forall2_app F1 F2) Hla) as (w & b & Eb & Hw & Bb).
  { intros k. rewrite <- !app_assoc. apply bad_source; [reflexivity|reflexivity|exact Bu|]. specialize (Fo k). rewrite <- !app_assoc in Fo. exact Fo. }
  exists (script_pre (node_def S n)), (script_open (node_def S n) ++ (10%N :: w) ++ b). eexists. split; [|split; [|split; [apply script_pre_sep|split]]].
  - rewrite E1 by reflexivity. rewrite lbind_ok, E2 by reflexivity. rewrite lbind_ok, (script_attributes P) by exact Mm. cbn [map flags each].
    rewrite Eu by reflexivity. rewrite lbind_ok, E3 by reflexivity. rewrite lbind_ok, E4 by reflexivity. rewrite lbind_ok, lbind_ok. reflexivity.
  - fold tl. rewrite <- Eb. rewrite (app_assoc (script_pre _)), <- script_opens.
    match goal with |- context [cur st ?x] => change (cur st x) with (cur st (at_level (Datatypes.S (Datatypes.S lv)))) end.
    match goal with |- context [lead st ?x] => rewrite (lead_level st (at_level (Datatypes.S lv)) x) by reflexivity end.
    rewrite (app_assoc (l_fes st)), Ele, Ela. unfold tl. assert (def_text S n = def_part (node_def S n)) as -> by (unfold def_text, def_part; destruct (node_def S n); reflexivity).
    cbn [emit more less mark l_buf]. rewrite !map_app, !concat_app, <- !app_assoc. reflexivity.
  - intros k. rewrite <- !app_assoc. apply bad_script; [exact Df|exact Hw|apply Bb].
  - intros m Hm. unfold s1. cbn [emit more less mark l_done]. rewrite !(dget_dset_other Nat.eqb Nat.eqb_eq) by congruence. reflexivity.
Qed.
End Write.
