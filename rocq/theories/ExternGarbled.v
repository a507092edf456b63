(** An EXTERNPROTO as it is written: its first field with its default stops the
    reading of the file. *)
From Coq Require Import Reals Permutation SpecFloat.
From Flocq Require Import Core.Core IEEE754.BinarySingleNaN.
From Verif Require Import Base Text PyDict PyDict_Proofs Float Coerce_Model Coerce_Spec Grammar_Model Lex_Spec Lex_Proofs
  Doc_Spec Doc_Proofs SceneGraph_Model VrmlStr_Model VrmlStr_Spec VrmlStr_Proofs VrmlStr_Values Scene_Model Linearise_Model
  Build_Model Proto_Model Scene_Spec Proto_Spec Linearise_Proofs Drop_Proofs Layout_Proofs Written Rebuilt Reading_Spec Reading_Proofs
  ProtoText ProtoTable ProtoBody ProtoFile Garbled ScriptText ScriptGarbled.
Local Open Scope nat_scope.
Local Open Scope list_scope.

(** *** how a default starts *)
Definition halts (k : text) : Prop := no_sep k /\ no_head 101 k /\ no_head 102 k /\ no_head 93 k.
Lemma halts_no_decl k : halts k -> fails xdecl_e k.
Proof.
  intros (_ & He & Hf & _). destruct k as [|c k]; [apply f_alt; apply f_nt; apply f_seq; apply f_nt; apply f_alt; apply f_lit; reflexivity|].
  unfold no_head in He, Hf. cbn [heads] in He, Hf.
  assert (Q : forall p x, lit p = x :: skipn 1 (lit p) -> (x = 101 \/ x = 102)%N -> fails (tk p) (c :: k)).
  { intros p x E H. apply f_lit. rewrite E. cbn [strip]. rewrite N.eqb_sym. destruct H as [-> | ->]; rewrite ?He, ?Hf; reflexivity. }
  apply f_alt; apply f_nt; apply f_seq; apply f_nt; apply f_alt;
    (apply (Q _ 101%N); [reflexivity|auto; fail]) || (apply (Q _ 102%N); [reflexivity|auto; fail]).
Qed.
Definition value_item (i : sitem) : bool := match i with SNum _ | SBool _ | SStr _ | SNull => true | _ => false end.
Lemma value_start f k : ok_field f k -> forallb value_item (sk_field f) = true -> halts (show_field f ++ k).
Proof.
  intros H V. split; [apply field_no_sep; exact H|]. destruct f as [w l w'|l]; [repeat split; reflexivity|]. destruct H as [Hl H].
  destruct l as [|i w l]; [congruence|]. cbn in H. destruct H as (_ & H & _). cbn in V. apply andb_true_iff in V as [V _].
  cbn [show_field show_items]. rewrite <- !app_assoc.
  destruct i as [n|[]| |b|u nm|n]; cbn [sk_item value_item] in V; try discriminate V; try (repeat split; reflexivity).
  2: { destruct n; discriminate V. }
  destruct H as [H _]. cbn [show_item]. destruct (number_head n H) as (c & r & -> & Hc). unfold no_head. cbn [app heads].
  repeat split; apply N.eqb_neq; intros ->; discriminate Hc.
Qed.
Lemma fld_start t l : fld_text t l -> forallb value_item l = true -> forall rest, exists pre t', t = pre ++ t' /\ sep_text pre /\ t' <> [] /\ halts (t' ++ 10%N :: rest).
Proof.
  intros (pre & t' & -> & Hp & H) V rest. destruct (H [] rest sep_nil) as (fv & E & Ok & Sk). exists pre, t'. split; [reflexivity|]. split; [exact Hp|].
  assert (Q : halts (t' ++ 10%N :: rest)).
  { replace (t' ++ 10%N :: rest) with (show_field fv ++ rest) by (rewrite E, <- app_assoc; reflexivity). apply value_start; [exact Ok|rewrite Sk; exact V]. }
  split; [|exact Q]. intros ->. destruct Q as (N & _). specialize (N [10%N] rest eq_refl (sep_nl_ [] sep_nil)). discriminate.
Qed.
Section Default.
Variable P : prims.
Variable fstr : tcode -> fl -> text.
Variable st : settings.
Hypothesis FS : faithful fstr.
Hypothesis ST : ok_settings st.
Lemma default_starts k : ok_kind P k -> exists t, default_text P fstr st k = Some t /\
  forall rest, exists pre t', t = pre ++ t' /\ sep_text pre /\ t' <> [] /\ halts (t' ++ 10%N :: rest).
Proof.
  destruct k as [t d| |o]; cbn [ok_kind default_text].
  - intros (Rd & v & C & St & Fi). rewrite C.
    destruct (value_survives P fstr FS (decl_lv st) (decl_lv_ok st ST) t v St Fi) as (tx & its & E & (Fo & Pl) & Rv).
    exists tx. split; [exact E|]. apply (fld_start tx its); [apply field_text_of; exact Fo|].
    revert Pl. clear. intros Pl. apply forallb_forall. rewrite forallb_forall in Pl. intros i Hi. specialize (Pl i Hi). destruct i; try discriminate; reflexivity.
  - intros _. exists (lit "NULL"). split; [reflexivity|]. apply (fld_start _ [SNull]); [apply single_text; apply null_text|reflexivity].
  - intros _. exists (lit " [" ++ l_courtesy st ++ lit "]"). split; [reflexivity|]. apply (fld_start _ []); [apply empty_text; apply ST|reflexivity].
Qed.
End Default.

(** *** the declarations up to there *)
Lemma halts_xdecls l k : halts k -> ok_xdecls l k -> reads (Star xdecl_e) (show_xdecls l ++ k) k (map et_xdecl (map sk_xdecl l)).
Proof.
  intros Hk. induction l as [|d l IH]; intros Hl; [apply r_star0; apply halts_no_decl; exact Hk|].
  assert (Hns : no_sep (show_xdecls l ++ k)).
  { destruct l as [|[[] ? ? ? ? ?|[] ? ? ? ? ?] l]; [apply Hk| | | |]; apply no_sep_head; reflexivity. }
  enough (H : ok_xdecls l k /\ reads xdecl_e (show_xdecl d ++ show_xdecls l ++ k) (show_xdecls l ++ k) [et_xdecl (sk_xdecl d)]).
  { unfold show_xdecls. cbn [map List.concat]. fold (show_xdecls l). rewrite <- app_assoc.
    eapply r_starS; [apply H|apply IH; apply H|reflexivity]. }
  destruct d as [ex w ty w1 nm w2|out w ty w1 nm w2]; cbn [show_xdecl];
    rewrite <- !app_assoc; destruct Hl as ((Hw & Hne & Ht & Hw1 & Hne1 & Hnm & Hw2) & He & Hl);
    (split; [exact Hl|]).
  + apply r_alt1. apply r_nt; [reflexivity|reflexivity|]. cbn [rule sq cuts map].
    eapply r_seq; [apply r_exposure| |reflexivity].
    eapply r_seq; [apply (r_ts w); [reflexivity|exact Hw|apply type_no_sep; exact Ht]| |reflexivity].
    eapply r_seq; [apply r_cut; apply r_type; [exact Ht|apply sep_ends; auto]| |reflexivity].
    eapply r_seq; [apply r_cut; apply (r_ts w1); [reflexivity|exact Hw1|apply name_no_sep; exact Hnm]| |reflexivity].
    eapply r_seq; [apply r_cut; apply (r_name nm); [reflexivity|exact Hnm|exact He]| |reflexivity].
    apply r_cut. apply (r_ts w2); auto.
  + apply r_alt2; [apply f_nt; apply f_seq; apply f_exposure|].
    apply r_nt; [reflexivity|reflexivity|]. cbn [rule sq cuts map].
    eapply r_seq; [apply r_direction| |reflexivity].
    eapply r_seq; [apply (r_ts w); [reflexivity|exact Hw|apply type_no_sep; exact Ht]| |reflexivity].
    eapply r_seq; [apply r_cut; apply r_type; [exact Ht|apply sep_ends; auto]| |reflexivity].
    eapply r_seq; [apply r_cut; apply (r_ts w1); [reflexivity|exact Hw1|apply name_no_sep; exact Hnm]| |reflexivity].
    eapply r_seq; [apply r_cut; apply (r_name nm); [reflexivity|exact Hnm|exact He]| |reflexivity].
    apply r_cut. apply (r_ts w2); auto.
Qed.
(** an EXTERNPROTO whose declarations stop before the bracket *)
Lemma bad_extern nm w l k : is_name nm = true -> sep_text w -> ok_xdecls l k -> halts k ->
  bad_start (lit "EXTERNPROTO " ++ nm ++ lit " [" ++ w ++ show_xdecls l ++ k).
Proof.
  intros Hn Hw Hl Hk. pose proof sep1 as S1.
  assert (lit "EXTERNPROTO " ++ nm ++ lit " [" ++ w ++ show_xdecls l ++ k = lit "EXTERNPROTO" ++ [32%N] ++ nm ++ [32%N] ++ lit "[" ++ w ++ show_xdecls l ++ k) as -> by reflexivity.
  split; [apply no_sep_head; reflexivity|]. split; [reflexivity|]. split; [reflexivity|].
  unfold root_e. cbn [al]. apply e_alt2; [apply f_nt; apply f_seq; apply f_lit; reflexivity|]. apply e_alt1. apply e_nt. cbn [rule sq cuts map].
  eapply e_seq2; [apply r_lit; reflexivity|].
  eapply e_seq2; [apply (r_ts [32%N]); [reflexivity|exact S1|apply name_no_sep; exact Hn]|].
  eapply e_seq2; [apply r_cut; eapply r_wrap; [reflexivity|reflexivity|reflexivity|reflexivity|exact Hn|reflexivity]|].
  eapply e_seq2; [apply r_cut; apply (r_ts [32%N]); [reflexivity|exact S1|apply no_sep_head; reflexivity]|].
  eapply e_seq2; [apply r_cut; apply r_lit; reflexivity|].
  eapply e_seq2; [apply r_cut; apply (r_ts w); [reflexivity|exact Hw|]|].
  { destruct l as [|[[] ? ? ? ? ?|[] ? ? ? ? ?] l]; [apply Hk| | | |]; apply no_sep_head; reflexivity. }
  eapply e_seq2; [apply r_cut; apply (halts_xdecls l k Hk Hl)|].
  apply e_seq. apply e_cut. apply head_lit. apply Hk.
Qed.
(** *** after PROTOs *)
Lemma bad_after l t : Forall whole_proto l -> bad_start t -> forall h, ~ In 10%N h ->
  errs (rule G_vrmlFile) (h ++ 10%N :: show_protos l ++ t).
Proof.
  intros Wh (B1 & B2 & B3 & B4) h Hh. cbn [rule sq].
  eapply e_seq2 with (X := [T G_header [] []]).
  { apply r_nt; [reflexivity|reflexivity|]. exists h, []. split; [|reflexivity]. cbn [rule].
    apply p_star_cls; [apply not_nl; exact Hh|reflexivity]. }
  apply e_seq. apply e_nt. cbn [rule].
  assert (Q : (no_sep (show_protos l ++ t) /\ no_head 34 (show_protos l ++ t) /\ no_head 93 (show_protos l ++ t)) /\
              forall w, sep_text w -> errs (Star (NT G_rootItem)) (w ++ show_protos l ++ t)).
  2: { apply (proj2 Q [10%N]). apply sep_nl_. constructor. }
  induction Wh as [|[r cw] l (R & Hcw) Wh IH].
  - split; [auto|]. intros w Hw. apply e_star. apply e_nt. cbn [rule sq].
    eapply e_seq2; [apply (r_ts w); [reflexivity|exact Hw|exact B1]|]. apply e_seq. exact B4.
  - destruct IH as ((N1 & N34 & N93) & E). cbn [fst snd] in *. unfold show_protos in *. cbn [map List.concat fst snd]. rewrite <- !app_assoc.
    split; [split; [apply root_no_sep; apply R|]; split; (apply root_no_head; [apply R|reflexivity])|].
    intros w Hw. eapply e_star2; [|exact (E [] sep_nil)].
    apply r_nt; [reflexivity|reflexivity|]. cbn [rule sq].
    eapply r_seq; [apply (r_ts w); [reflexivity|exact Hw|apply root_no_sep; apply R]| |reflexivity].
    apply (proj1 root_parse_mut); [apply R|exact Hcw|exact N1|exact N34|exact N93].
Qed.
