(** The texts the lineariser puts together are laid-out documents. *)
From Verif Require Import Base Text Lex_Spec Lex_Proofs Doc_Spec Doc_Proofs.
Local Open Scope nat_scope.
Local Open Scope list_scope.

(** the text [t], followed by a newline and separators, is an item followed by
    separators *)
Definition item_text (t : text) (i : sitem) : Prop :=
  forall w, sep_text w -> exists it cw, t ++ 10%N :: w = show_item it ++ cw /\ sep_text cw /\
    (forall k, ok_item it (cw ++ k)) /\ sk_item it = i.
(** separators and a field value *)
Definition fld_text (t : text) (l : list sitem) : Prop :=
  exists pre t', t = pre ++ t' /\ sep_text pre /\
  forall w k, sep_text w -> exists fv, show_field fv = t' ++ 10%N :: w /\ ok_field fv k /\ sk_field fv = l.

Lemma sep_nl_ w : sep_text w -> sep_text (10%N :: w).
Proof. apply sep_blank. reflexivity. Qed.
Lemma is_name_nl nm : is_name nm = true -> ~ In 10%N nm.
Proof.
  intros H I. apply is_name_all in H. rewrite forallb_forall in H. specialize (H _ I). discriminate H.
Qed.

Lemma null_text : item_text (lit "NULL") SNull.
Proof. intros w Hw. exists INull, (10%N :: w). split; [reflexivity|]. split; [apply sep_nl_; exact Hw|]. split; [exact (fun _ => I)|reflexivity]. Qed.
Lemma use_text nm : is_name nm = true -> item_text (lit "USE " ++ nm) (SUse nm).
Proof.
  intros H w Hw. exists (IUse [32%N] nm), (10%N :: w). split; [reflexivity|]. split; [apply sep_nl_; exact Hw|].
  split; [|reflexivity]. intros k. split; [apply sep_blank; [reflexivity|constructor]|]. split; [exact H|reflexivity].
Qed.

(** *** a list of items, each on a new line *)
Lemma items_text ld ew ts is : sep_text ld -> sep_text ew -> Forall2 item_text ts is -> ~ In SNull is ->
  exists w its, List.concat (map (fun t => (10%N :: ld) ++ t) ts) ++ 10%N :: ew = (10%N :: w) ++ show_items its /\
    sep_text w /\ (forall k, ok_items true its k) /\ sk_items its = is.
Proof.
  intros Hl He F. induction F as [|t i ts is Ht F IH]; intros NN.
  - exists ew, SNil. cbn. rewrite app_nil_r. repeat split; auto.
  - destruct IH as (w & its & E & Hw & Ok & Sk); [intros I; apply NN; right; exact I|].
    destruct (Ht w Hw) as (it & cw & E2 & Hcw & Hok & Hsk).
    exists ld, (SCons it cw its). cbn [map List.concat show_items sk_items ok_items]. split.
    + rewrite <- !app_assoc, E. cbn [app]. rewrite !app_comm_cons. f_equal.
      rewrite (app_assoc t), E2, <- app_assoc. reflexivity.
    + split; [exact Hl|]. split; [|congruence]. intros k. split; [|split; [apply Hok|split; [exact Hcw|apply Ok]]].
      intros _ ->. apply NN. left. subst i. reflexivity.
Qed.
Lemma list_text ld ew ts is : sep_text ld -> sep_text ew -> Forall2 item_text ts is -> ~ In SNull is ->
  fld_text (lit "[ " ++ List.concat (map (fun t => (10%N :: ld) ++ t) ts) ++ (10%N :: ew) ++ lit "]") is.
Proof.
  intros Hl He F NN. exists [], (lit "[ " ++ List.concat (map (fun t => (10%N :: ld) ++ t) ts) ++ (10%N :: ew) ++ lit "]").
  split; [reflexivity|]. split; [constructor|]. intros w k Hw.
  destruct (items_text ld ew ts is Hl He F NN) as (w1 & its & E & H1 & Ok & Sk).
  exists (FBr (32%N :: 10%N :: w1) its (10%N :: w)). split.
  - cbn [show_field]. rewrite <- !app_assoc. change (lit "[ ") with (lit "[" ++ [32%N]). rewrite <- !app_assoc. do 1 f_equal.
    rewrite (app_assoc (List.concat _)), E, <- !app_assoc. reflexivity.
  - split; [|exact Sk]. cbn [ok_field]. split; [apply sep_blank; [reflexivity|apply sep_nl_; exact H1]|].
    split; [apply sep_nl_; exact Hw|apply Ok].
Qed.
Lemma empty_text w1 : sep_text w1 -> fld_text (lit " [" ++ w1 ++ lit "]") [].
Proof.
  intros H. exists [32%N], (lit "[" ++ w1 ++ lit "]"). split; [reflexivity|]. split; [apply sep_blank; [reflexivity|constructor]|].
  intros w k Hw. exists (FBr w1 SNil (10%N :: w)). split; [cbn; rewrite <- app_assoc; reflexivity|].
  split; [|reflexivity]. cbn. split; [exact H|]. split; [apply sep_nl_; exact Hw|exact I].
Qed.
Lemma single_text t i : item_text t i -> fld_text t [i].
Proof.
  intros H. exists [], t. split; [reflexivity|]. split; [constructor|]. intros w k Hw.
  destruct (H w Hw) as (it & cw & E & Hcw & Hok & Hsk). exists (FPl (SCons it cw SNil)). split.
  - cbn [show_field show_items]. rewrite app_nil_r. symmetry. exact E.
  - split; [|cbn; congruence]. cbn [ok_field ok_items show_items app]. split; [discriminate|].
    split; [discriminate|]. split; [apply Hok|]. split; [exact Hcw|exact I].
Qed.

(** *** attributes, each on a new line *)
Definition val_text (t : text) (v : sval) : Prop :=
  match v with
  | SVal l => exists t', t = 9%N :: t' /\ fld_text t' l
  | SIs pn => is_name pn = true /\ t = lit " IS " ++ pn ++ [9%N]
  end.
Definition attr_ok (a : text * text) (p : text * sval) : Prop :=
  fst a = fst p /\ safe_name (fst a) = true /\ val_text (snd a) (snd p).
Lemma attrs_text k ld ew ats sks : sep_text ld -> sep_text ew -> Forall2 attr_ok ats sks ->
  exists w al, List.concat (map (fun a => (10%N :: ld) ++ fst a ++ snd a) ats) ++ 10%N :: ew =
    (10%N :: w) ++ show_attrs al /\ sep_text w /\ ok_attrs al k /\ sk_attrs al = sks.
Proof.
  intros Hl He F. induction F as [|[nm t] [nm' v] ats sks (E0 & Hn & Hv) F IH].
  - exists ew, ANil. cbn. rewrite app_nil_r. auto.
  - cbn [fst snd] in *. subst nm'. destruct IH as (w & al & E & Hw & Ok & Sk). destruct v as [l|pn]; cbn [val_text] in Hv.
    + destruct Hv as (t0 & -> & pre & t' & -> & Hp & Hf).
      destruct (Hf w (show_attrs al ++ k) Hw) as (fv & E2 & Hok & Hsk).
      exists ld, (ACons nm (9%N :: pre) fv al). cbn [map List.concat show_attrs sk_attrs ok_attrs fst snd]. split.
      * rewrite <- !app_assoc, E. cbn [app]. f_equal. f_equal. f_equal. f_equal. rewrite <- !app_assoc. f_equal.
        rewrite E2, <- !app_assoc. reflexivity.
      * split; [exact Hl|]. split; [|congruence]. split; [exact Hn|]. split; [apply sep_blank; [reflexivity|exact Hp]|].
        split; [reflexivity|]. split; [exact Hok|exact Ok].
    + destruct Hv as (Hpn & ->). exists ld, (AIs nm [32%N] [32%N] pn (9%N :: 10%N :: w) al).
      assert (S1 : sep_text [32%N]) by (apply sep_blank; [reflexivity|constructor]).
      cbn [map List.concat show_attrs sk_attrs ok_attrs fst snd]. split.
      * rewrite <- !app_assoc, E. reflexivity.
      * split; [exact Hl|]. split; [|congruence]. repeat split; auto; try discriminate. apply sep_blank; [reflexivity|].
        apply sep_nl_. exact Hw.
Qed.

(** *** nodes *)
Definition end_text (tail : text) : Prop := tail = [] \/ exists nm, ~ In 10%N nm /\ tail = lit " #EndNode " ++ nm.
Lemma end_sep tail w : end_text tail -> sep_text w -> sep_text (tail ++ 10%N :: w).
Proof.
  intros [->|(nm & Hn & ->)] Hw; [apply sep_nl_; exact Hw|].
  change (lit " #EndNode ") with (32%N :: 35%N :: lit "EndNode "). cbn [app]. apply sep_blank; [reflexivity|].
  rewrite <- app_assoc. rewrite (app_assoc (lit "EndNode ")).
  change (sep_text (35%N :: (lit "EndNode " ++ nm) ++ 10%N :: w)). apply sep_comment; [|exact Hw].
  intros I. apply in_app_iff in I as [I|I]; [|auto]. cbn in I. intuition discriminate.
Qed.
Definition def_part (nm : text) : text := match nm with [] => [] | d => lit "DEF " ++ d ++ lit " " end.
Definition def_opt (nm : text) : option text := match nm with [] => None | d => Some d end.
Lemma node_text nm gi w2 al tail : (nm = [] \/ is_name nm = true) -> safe_name gi = true ->
  sep_text w2 -> ok_attrs al (lit "}") -> end_text tail ->
  item_text (def_part nm ++ gi ++ lit " {" ++ w2 ++ show_attrs al ++ lit "}" ++ tail)
            (SNode (def_opt nm) gi (sk_attrs al)).
Proof.
  intros Hn Hg H2 Ha Ht w Hw.
  assert (Hg1 : is_name gi = true) by (apply safe_is_name; exact Hg).
  assert (Hg2 : starts_with (lit "Script") gi = false).
  { unfold safe_name in Hg. apply andb_true_iff in Hg as [Hg _]. apply andb_true_iff in Hg as [_ Hg].
    rewrite forallb_forall in Hg. specialize (Hg (lit "Script") ltac:(cbn; auto 20)).
    destruct (starts_with (lit "Script") gi); [discriminate|reflexivity]. }
  set (d := match nm with [] => None | _ => Some ([32%N], nm, [32%N]) end).
  exists (INode (Nd d gi [32%N] w2 al)), (tail ++ 10%N :: w). split; [|split; [apply end_sep; auto|split]].
  - cbn [show_item show_node]. rewrite <- !app_assoc. change (lit " {") with ([32%N] ++ lit "{"). rewrite <- !app_assoc.
    f_equal. unfold def_part, d. destruct nm; reflexivity.
  - intros k. cbn [ok_item ok_node]. split; [|split; [apply sep_blank; [reflexivity|constructor]|auto]].
    assert (S1 : sep_text [32%N]) by (apply sep_blank; [reflexivity|constructor]).
    unfold d. destruct nm; [exact Hg|]. destruct Hn as [Hn|Hn]; [discriminate|].
    repeat split; auto. discriminate.
  - cbn [sk_item sk_node]. unfold d, def_opt. destruct nm; reflexivity.
Qed.

(** *** the scene *)
Definition route_line (a af b bf : text) : text :=
  lit "ROUTE " ++ a ++ lit "." ++ af ++ lit " TO " ++ b ++ lit "." ++ bf.
Definition route_sk (r : text * text * (text * text)) : sroot :=
  SRRoute (fst (fst r)) (snd (fst r)) (fst (snd r)) (snd (snd r)).
(** routes, each on a new line, then separators *)
Lemma routes_text fw ew k (rs : list (text * text * (text * text))) : sep_text fw -> sep_text ew -> ends_name (ew ++ k) = true ->
  Forall (fun r => is_name (fst (fst r)) = true /\ is_name (snd (fst r)) = true /\
                   is_name (fst (snd r)) = true /\ is_name (snd (snd r)) = true) rs ->
  exists w rl, List.concat (map (fun r => (10%N :: fw) ++ route_line (fst (fst r)) (snd (fst r)) (fst (snd r)) (snd (snd r))) rs) ++ ew
      = w ++ show_roots rl /\ sep_text w /\ ok_roots rl k /\ ends_name (w ++ show_roots rl ++ k) = true /\
    sk_roots rl = map route_sk rs.
Proof.
  intros Hf He Hk F. induction F as [|[[a af] [b bf]] rs (H1 & H2 & H3 & H4) F (w & rl & E & Hw & Ok & En & Sk)].
  - exists ew, RNil. cbn [map List.concat app show_roots ok_roots sk_roots]. rewrite app_nil_r. repeat split; auto.
  - cbn [fst snd] in *. exists (10%N :: fw), (RCons (RRoute [32%N] a af [32%N] [32%N] b bf) w rl).
    cbn [map List.concat fst snd show_roots show_root ok_roots sk_roots sk_root].
    assert (S1 : sep_text [32%N]) by (apply sep_blank; [reflexivity|constructor]).
    split; [|split; [apply sep_nl_; exact Hf|split; [|split; [reflexivity|rewrite Sk; reflexivity]]]].
    + rewrite <- app_assoc, E. unfold route_line. rewrite <- !app_assoc. f_equal.
    + split; [|auto]. cbn [ok_root]. repeat split; auto; discriminate.
Qed.
Lemma kids_text fw k ts is tail w rl : sep_text fw -> Forall2 item_text ts is ->
  Forall (fun i => match i with SNode _ _ _ | SUse _ => True | _ => False end) is ->
  tail = w ++ show_roots rl -> sep_text w -> ok_roots rl k ->
  exists w' rl', List.concat (map (fun t => t ++ 10%N :: fw) ts) ++ tail = w' ++ show_roots rl' /\ sep_text w' /\
    ok_roots rl' k /\ (ts <> [] -> w' = []) /\ sk_roots rl' = map SRItem is ++ sk_roots rl.
Proof.
  intros Hf F N Et Hw Ok. induction F as [|t i ts is Ht F IH].
  - exists w, rl. cbn. repeat split; auto. congruence.
  - inversion N as [|? ? Ni N']; subst. destruct (IH N') as (w' & rl' & E & Hw' & Ok' & _ & Sk').
    destruct (Ht (fw ++ w')) as (it & cw & E2 & Hcw & Hok & Hsk); [apply sep_app; auto|].
    assert (R : exists r, show_root r = show_item it /\ (forall k, ok_root r (cw ++ k)) /\ sk_root r = SRItem i).
    { destruct it as [n|b| |b|u nm|n]; cbn [sk_item] in Hsk; subst i; try contradiction.
      - exists (RUse u nm). split; [reflexivity|]. split; [exact Hok|reflexivity].
      - exists (RNode n). split; [reflexivity|]. split; [exact Hok|reflexivity]. }
    destruct R as (r & R1 & R2 & R3). exists [], (RCons r cw rl'). cbn [map List.concat app show_roots ok_roots sk_roots]. split.
    + rewrite <- !app_assoc. cbn [app]. rewrite E, R1, (app_assoc (show_item it)), <- E2, <- app_assoc. cbn [app].
      rewrite <- app_assoc. reflexivity.
    + split; [constructor|]. split; [auto|]. split; [reflexivity|]. congruence.
Qed.
