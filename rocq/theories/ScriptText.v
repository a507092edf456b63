(** The text the lineariser writes for a Script, and what it reads as. *)
From Coq Require Import Reals Permutation SpecFloat.
From Flocq Require Import Core.Core IEEE754.BinarySingleNaN.
From Verif Require Import Base Text PyDict PyDict_Proofs Float Coerce_Model Coerce_Spec Grammar_Model Lex_Spec Lex_Proofs
  Doc_Spec Doc_Proofs SceneGraph_Model VrmlStr_Model VrmlStr_Spec VrmlStr_Proofs VrmlStr_Values Scene_Model Linearise_Model
  Build_Model Proto_Model Scene_Spec Proto_Spec Linearise_Proofs Drop_Proofs Layout_Proofs Written Rebuilt Reading_Spec Reading_Proofs ProtoText.
Local Open Scope nat_scope.
Local Open Scope list_scope.

(** *** the contents of a Script, each element on a new line *)
Definition sel_ok (t : text) (s : ssel) : Prop :=
  match s with
  | SSField ex ty nm (SVal l) => decl_ok t (SDField ex ty nm l)
  | SSEvent o ty nm None => decl_ok t (SDEvent o ty nm)
  | SSAttr nm (SVal l) => safe_name nm = true /\ decl_like nm = false /\ exists t', t = nm ++ 9%N :: t' /\ fld_text t' l
  | _ => False
  end.
Definition line (x : text * text) : text := (10%N :: fst x) ++ snd x.
Lemma sels_text k ew xs sks : sep_text ew -> Forall2 (fun x s => sep_text (fst x) /\ sel_ok (snd x) s) xs sks ->
  exists w l, List.concat (map line xs) ++ 10%N :: ew = (10%N :: w) ++ show_selems l /\ sep_text w /\ ok_selems l k /\ sk_selems l = sks.
Proof.
  intros He F. induction F as [|[ld t] s xs sks (Hl & Hs) F IH].
  - exists ew, ENil. cbn. rewrite app_nil_r. auto.
  - cbn [fst snd] in *. destruct IH as (w & l & E & Hw & Ok & Sk). pose proof sep1 as S1.
    destruct s as [ex ty nm [its|]|o ty nm [|]|nm [its|]]; cbn [sel_ok decl_ok] in Hs; try contradiction.
    + destruct Hs as (Ht & Hn & t0 & -> & pre & t' & -> & Hp & Hf).
      destruct (Hf w (show_selems l ++ k) Hw) as (fv & E2 & Hok & Hsk).
      exists ld, (EField ex [32%N] ty [32%N] nm (32%N :: pre) fv l). cbn [sk_selems ok_selems map List.concat show_selems]. split.
      * rewrite E2. unfold line at 1. cbn [fst snd]. rewrite <- !app_assoc, E.
        change (32%N :: pre) with ([32%N] ++ pre). change (10%N :: w) with ([10%N] ++ w). rewrite <- !app_assoc. reflexivity.
      * split; [exact Hl|]. split; [|congruence]. split; [|split; [reflexivity|split; [exact Hok|exact Ok]]].
        repeat split; auto; try discriminate. apply sep_blank; [reflexivity|exact Hp].
    + destruct Hs as (Ht & Hn & ->). exists ld, (EEvent o [32%N] ty [32%N] nm (10%N :: w) l). cbn [sk_selems ok_selems map List.concat show_selems]. split.
      * unfold line at 1. cbn [fst snd]. rewrite <- !app_assoc, E. reflexivity.
      * split; [exact Hl|]. split; [|congruence]. split; [|split; [reflexivity|exact Ok]].
        repeat split; auto; try discriminate. apply sep_nl_. exact Hw.
    + destruct Hs as (Hn & Hd & t0 & -> & pre & t' & -> & Hp & Hf).
      destruct (Hf w (show_selems l ++ k) Hw) as (fv & E2 & Hok & Hsk).
      exists ld, (EAttr nm (9%N :: pre) fv l). cbn [sk_selems ok_selems map List.concat show_selems]. split.
      * rewrite E2. unfold line at 1. cbn [fst snd]. rewrite <- !app_assoc, E.
        change (9%N :: pre) with ([9%N] ++ pre). change (9%N :: pre ++ t') with ([9%N] ++ pre ++ t'). change (10%N :: w) with ([10%N] ++ w). rewrite <- !app_assoc. reflexivity.
      * split; [exact Hl|]. split; [|congruence]. split; [exact Hn|]. split; [exact Hd|]. split; [apply sep_blank; [reflexivity|exact Hp]|].
        split; [reflexivity|]. split; [exact Hok|exact Ok].
Qed.
(** a Script: a blank, then the node *)
Lemma script_text nm xs sks ew tail : (nm = [] \/ is_name nm = true) -> sep_text ew -> ~ In 10%N tail ->
  Forall2 (fun x s => sep_text (fst x) /\ sel_ok (snd x) s) xs sks ->
  exists pre t, def_part nm ++ lit " Script {" ++ List.concat (map line xs) ++ (10%N :: ew) ++ lit "}#" ++ tail = pre ++ t /\
    sep_text pre /\ item_text t (SScript (def_opt nm) sks).
Proof.
  intros Hn He Ht F. pose proof sep1 as S1.
  destruct (sels_text (lit "}") ew xs sks He F) as (w & l & E & Hw & Ok & Sk).
  assert (Q : forall k, List.concat (map line xs) ++ (10%N :: ew) ++ k = (10%N :: w) ++ show_selems l ++ k).
  { intros k. rewrite app_assoc, E, <- app_assoc. reflexivity. }
  set (d := match nm with [] => None | _ => Some ([32%N], nm, [32%N; 32%N]) end).
  exists (match nm with [] => [32%N] | _ => [] end), (show_def d ++ lit "Script {" ++ (10%N :: w) ++ show_selems l ++ lit "}#" ++ tail).
  split; [|split; [destruct nm; auto; constructor|]].
  - rewrite Q. unfold d, def_part, show_def. destruct nm; [reflexivity|]. change (lit " Script {") with ([32%N] ++ lit "Script {").
    change (lit "DEF ") with (lit "DEF" ++ [32%N]). change (lit " ") with [32%N]. change [32%N; 32%N] with ([32%N] ++ [32%N]).
    cbn match. rewrite <- !app_assoc. reflexivity.
  - intros w0 Hw0. exists (INode (Sc d [32%N] (10%N :: w) l)), (lit "#" ++ tail ++ 10%N :: w0). split; [|split; [|split]].
    + cbn [show_item show_node]. change (lit "Script {") with (lit "Script" ++ [32%N] ++ lit "{"). change (lit "}#") with (lit "}" ++ lit "#").
      rewrite <- !app_assoc. reflexivity.
    + exact (sep_comment tail w0 Ht Hw0).
    + intros k. cbn [ok_item ok_node]. split; [|split; [exact S1|split; [apply sep_nl_; exact Hw|exact Ok]]].
      unfold d. destruct nm; [exact Logic.I|]. destruct Hn as [Hn|Hn]; [discriminate|]. repeat split; auto; try discriminate.
      apply sep_blank; [reflexivity|exact S1].
    + cbn [sk_item sk_node]. rewrite Sk. unfold d. destruct nm; reflexivity.
Qed.
(** the children of a scene; separators may come before each of them *)
Lemma kids_text_sep fw k ts is tail w rl : sep_text fw ->
  Forall2 (fun t i => exists pre t', t = pre ++ t' /\ sep_text pre /\ item_text t' i) ts is ->
  Forall (fun i => match i with SNode _ _ _ | SScript _ _ | SUse _ => True | _ => False end) is ->
  tail = w ++ show_roots rl -> sep_text w -> ok_roots rl k ->
  exists w' rl', List.concat (map (fun t => t ++ 10%N :: fw) ts) ++ tail = w' ++ show_roots rl' /\ sep_text w' /\
    ok_roots rl' k /\ sk_roots rl' = map SRItem is ++ sk_roots rl.
Proof.
  intros Hf F N Et Hw Ok. induction F as [|t i ts is (pre & t' & -> & Hp & Ht) F IH].
  - exists w, rl. cbn. repeat split; auto.
  - inversion N as [|? ? Ni N']; subst. destruct (IH N') as (w' & rl' & E & Hw' & Ok' & Sk').
    destruct (Ht (fw ++ w')) as (it & cw & E2 & Hcw & Hok & Hsk); [apply sep_app; auto|].
    assert (R : exists r, show_root r = show_item it /\ (forall k, ok_root r (cw ++ k)) /\ sk_root r = SRItem i).
    { destruct it as [n|b| |b|u nm|n]; cbn [sk_item] in Hsk; subst i; try contradiction.
      - exists (RUse u nm). split; [reflexivity|]. split; [exact Hok|reflexivity].
      - exists (Doc_Spec.RNode n). split; [reflexivity|]. split; [exact Hok|reflexivity]. }
    destruct R as (r & R1 & R2 & R3). exists pre, (RCons r cw rl'). cbn [map List.concat app show_roots ok_roots sk_roots]. split.
    + rewrite <- !app_assoc. cbn [app]. rewrite E, R1, (app_assoc (show_item it)), <- E2, <- app_assoc. cbn [app].
      rewrite <- app_assoc. reflexivity.
    + split; [exact Hp|]. split; [auto|]. congruence.
Qed.
