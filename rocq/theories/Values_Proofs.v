(** Every value written in a file that is read fits its field.  For P_Values. *)
From Coq Require Import Reals SpecFloat.
From Flocq Require Import Core.Core IEEE754.BinarySingleNaN.
From Verif Require Import Base Text PyDict PyDict_Proofs Float Coerce_Model Grammar_Model Lex_Spec Lex_Proofs Doc_Spec Doc_Proofs SceneGraph_Model
  VrmlStr_Model VrmlStr_Values Scene_Model Scene_Spec Build_Model Reading_Spec Reading_Proofs Reading_Facts Values_Spec
  Coerce_Spec Coerce_Proofs P_Coerce PyNum.
Local Open Scope nat_scope.
Local Open Scope list_scope.

Section Fit.
Variable P : prims.
Variable base : list (text * list fdecl).
Variable sfn : text -> bool.
(** the type has the attribute, and the value can be read as one of its field's type *)
Definition fit (tys : list (text * list fdecl)) (w : text * text * list sitem) : Prop :=
  exists fs f, proto tys (fst (fst w)) = Some fs /\ In f fs /\ f_name f = snd (fst w) /\
               forall t d, f_kind f = KVal t d -> forallb plain (snd w) = true /\ exists v, read_value P t (map et_item (snd w)) = Ok v.
Definition all_fit (e : list (text * pdef)) (l : list (text * text * list sitem)) : Prop := forall w, In w l -> fit (types base e) w.
Lemma all_nil e : all_fit e []. Proof. intros w []. Qed.
Lemma all_app e l l' : all_fit e l -> all_fit e l' -> all_fit e (l ++ l').
Proof. intros A B w H. apply in_app_iff in H as [H|H]; auto. Qed.
Lemma plain_none l : forallb plain l = true -> flat_map writings l = [].
Proof. induction l as [|i l IH]; [auto|]. cbn [forallb flat_map]. intros H. apply andb_true_iff in H as [H1 H2]. rewrite (IH H2). destruct i; try discriminate; auto. Qed.
Definition attr_w (gi : text) (p : text * sval) := match snd p with SVal its => (gi, fst p, its) :: flat_map writings its | SIs _ => [] end.
Definition decl_w (x : ssel) := match x with SSField _ _ _ (SVal its) => flat_map writings its | _ => [] end.
Definition sattr_w (x : ssel) := match x with SSAttr _ (SVal its) => flat_map writings its | _ => [] end.
Notation attr_lone := (attr_lone sfn).
Notation sel_lone := (sel_lone sfn).
Notation mems_sf := (mems_sf sfn).
Lemma items_fit inp e : sf_names sfn (types base e) ->
  (forall st i st' r, item_reads P base inp e st i st' r -> mems_sf st -> lone sfn i = true -> all_fit e (writings i) /\ mems_sf st') /\
  (forall st l st' rs, items_read P base inp e st l st' rs -> mems_sf st -> forallb (lone sfn) l = true -> all_fit e (flat_map writings l) /\ mems_sf st') /\
  (forall n gi fs st l st', attrs_read P base inp e n gi fs st l st' -> mems_sf st -> proto (types base e) gi = Some fs ->
     (forall f, In f fs -> f_kind f = KNode -> sfn (f_name f) = true) -> forallb attr_lone l = true ->
     all_fit e (flat_map (attr_w gi) l) /\ mems_sf st') /\
  (forall st f its st' v, value_reads P base inp e st f its st' v -> mems_sf st -> (f_kind f = KNode -> sfn (f_name f) = true) ->
     forallb (lone sfn) its = true -> (sfn (f_name f) = true -> List.length its <= 1) ->
     all_fit e (flat_map writings its) /\ mems_sf st') /\
  (forall st ex ty its st' m, member_reads P base inp e st ex ty its st' m -> mems_sf st ->
     forallb (lone sfn) its = true -> (text_eqb ty (lit "SFNode") = true -> List.length its <= 1) ->
     all_fit e (flat_map writings its) /\ mems_sf st' /\ forall nm, (text_eqb ty (lit "SFNode") = true -> sfn nm = true) -> smem_sf sfn nm m) /\
  (forall n st ms l st' ms', sdecls_read P base inp e n st ms l st' ms' -> mems_sf st -> forallb sel_lone l = true ->
     all_fit e (flat_map decl_w l) /\ mems_sf st') /\
  (forall n st l st', sattrs_read P base inp e n st l st' -> mems_sf st -> forallb sel_lone l = true ->
     all_fit e (flat_map sattr_w l) /\ mems_sf st').
Proof.
  intros SF. apply (item_reads_all P base inp e); cbn [writings flat_map forallb lone].
  - intros st M _. split; [apply all_nil|exact M].
  - intros st nm n E M _. split; [apply all_nil|exact M].
  - intros st d gi fs l st' Pr _ _ IH M L.
    assert (SFf : forall f, In f fs -> f_kind f = KNode -> sfn (f_name f) = true).
    { intros f Hf K. apply (SF gi fs f); [|exact Hf|exact K]. apply (dget_In text_eqb text_eqb_spec) in Pr. exact Pr. }
    exact (IH M Pr SFf L).
  - intros st d l st1 ms st' _ IH1 _ _ IH2 M L. destruct (IH1 M L) as (I1 & M1).
    destruct (maps_names (r_next st) ms st1) as (_ & Qm).
    destruct (IH2) as (I2 & M2); [unfold Reading_Facts.mems_sf; rewrite Qm; exact M1|exact L|]. split; [|exact M2].
    intros x Hx. apply in_flat_map in Hx as (s & Hs & Hx).
    destruct s as [ex ty nm [its|pn]|out ty nm pn|nm [its|pn]]; try destruct Hx.
    + apply I1. apply in_flat_map. eexists. split; [exact Hs|exact Hx].
    + apply I2. apply in_flat_map. eexists. split; [exact Hs|exact Hx].
  - intros st M _. split; [apply all_nil|exact M].
  - intros st i st1 r l st' rs _ IH1 _ IH2 M L. apply andb_true_iff in L as [L1 L2]. destruct (IH1 M L1) as (I1 & M1), (IH2 M1 L2) as (I2 & M2).
    split; [apply all_app; assumption|exact M2].
  - intros n gi fs st M _ _ _. split; [apply all_nil|exact M].
  - intros n gi fs st f its st1 v l st' Hf Hv IH1 _ IH2 M Pr SFf L. apply andb_true_iff in L as [L1 L2].
    unfold Reading_Facts.attr_lone in L1. cbn [fst snd] in L1. apply andb_true_iff in L1 as [L0 L1].
    destruct (IH1 M (SFf f Hf) L1) as (I1 & M1).
    { intros Q. rewrite Q in L0. cbn in L0. apply Nat.leb_le. exact L0. }
    destruct IH2 as (I2 & M2); [unfold Reading_Facts.mems_sf; rewrite mems_set; exact M1|exact Pr|exact SFf|exact L2|]. unfold attr_w at 1. cbn [fst snd].
    split; [|exact M2]. apply all_app; [|exact I2]. intros w [<-|Hw]; [|exact (I1 w Hw)].
    exists fs, f. cbn [fst snd]. split; [exact Pr|]. split; [exact Hf|]. split; [reflexivity|]. intros t d K. inversion Hv; subst; try congruence. replace t0 with t in * by congruence. split; [assumption|]. eexists. eassumption.
  - intros n gi fs st nm pn l st' _ _ IH M Pr SFf L. unfold attr_w at 1. cbn [snd app]. apply andb_true_iff in L as [_ L]. apply (IH M Pr SFf L).
  - intros st f t d its v _ Pl _ M _ _ _. rewrite (plain_none its Pl). split; [apply all_nil|exact M].
  - intros st f i its st' r K _ IH M SFf L Lg. specialize (SFf K). specialize (Lg SFf). destruct its; [|cbn in Lg; lia].
    apply andb_true_iff in L as [L _]. cbn [flat_map]. rewrite !app_nil_r. exact (IH M L).
  - intros st f o its st' rs K _ IH M _ L _. exact (IH M L).
  - intros st f o its K Pl M _ _ _. rewrite (plain_none its Pl). split; [apply all_nil|exact M].
  - intros st ex ty t its v _ Pl _ M _ _. rewrite (plain_none its Pl). split; [apply all_nil|split; [exact M|]]. intros; exact Logic.I.
  - intros st ex i its st' r _ IH M L Lg. specialize (Lg eq_refl). destruct its; [|cbn in Lg; lia].
    apply andb_true_iff in L as [L _]. destruct (IH M L) as (I & M'). cbn [flat_map]. rewrite !app_nil_r. split; [exact I|split; [exact M'|]].
    intros nm Q. exact (Q eq_refl).
  - intros st ex its st' rs _ IH M L _. destruct (IH M L) as (I & M'). split; [exact I|split; [exact M'|]]. intros; exact Logic.I.
  - intros st ex its Pl M _ _. rewrite (plain_none its Pl). split; [apply all_nil|split; [exact M|]]. intros; exact Logic.I.
  - intros n st ms M _. split; [apply all_nil|exact M].
  - intros n st ms ex ty nm its st1 m l st' ms' _ _ IH1 _ IH2 M L. apply andb_true_iff in L as [L1 L2]. unfold Reading_Facts.sel_lone in L1.
    apply andb_true_iff in L1 as [Ls L1]. apply andb_true_iff in L1 as [Lg L1].
    destruct (IH1 M L1) as (I1 & M1 & Sm). { intros Q. rewrite Q in Lg. cbn in Lg. apply Nat.leb_le. exact Lg. }
    destruct IH2 as (I2 & M2); [|exact L2|].
    { constructor; [|exact M1]. cbn [fst snd]. apply Sm. intros Q. rewrite Q in Ls. exact Ls. }
    unfold decl_w at 1. split; [apply all_app; assumption|exact M2].
  - intros n st ms ex ty nm k pn l st' ms' _ K _ IH M L. apply andb_true_iff in L as [L1 L2]. unfold Reading_Facts.sel_lone in L1. rewrite andb_true_r in L1.
    destruct IH as (I2 & M2); [|exact L2|].
    { constructor; [|exact M]. cbn. destruct k; try exact Logic.I. rewrite (kind_of_node _ K) in L1. exact L1. }
    unfold decl_w at 1. split; [exact I2|exact M2].
  - intros n st ms out ty nm pn l st' ms' _ K _ IH M L. apply andb_true_iff in L as [_ L2].
    destruct IH as (I2 & M2); [|exact L2|].
    { constructor; [exact Logic.I|exact M]. }
    unfold decl_w at 1. split; [exact I2|exact M2].
  - intros n st ms nm v l st' ms' _ IH M L. apply andb_true_iff in L as [_ L2]. unfold decl_w at 1. exact (IH M L2).
  - intros n st M _. split; [apply all_nil|exact M].
  - intros n st x l st' X _ IH M L. apply andb_true_iff in L as [_ L2]. unfold sattr_w at 1. destruct x; try destruct X; exact (IH M L2).
  - intros n st f its st1 v l st' F _ IH1 _ IH2 M L. apply andb_true_iff in L as [L1 L2]. unfold Reading_Facts.sel_lone in L1. apply andb_true_iff in L1 as [L0 L1].
    destruct (IH1 M (script_field_sf sfn st n f M F) L1) as (I1 & M1).
    { intros Q. rewrite Q in L0. cbn in L0. apply Nat.leb_le. exact L0. }
    destruct (IH2 M1 L2) as (I2 & M2). unfold sattr_w at 1. split; [apply all_app; assumption|exact M2].
  - intros n st nm pn l st' _ _ _ IH M L. apply andb_true_iff in L as [_ L2]. unfold sattr_w at 1. exact (IH M L2).
Qed.

(** no PROTO takes the name of a node type known before *)
Definition base_seen (e : list (text * pdef)) : Prop := forall gi fs, proto base gi = Some fs -> proto (types base e) gi = Some fs.
Lemma seen_more tab e x p : base_seen (tab ++ e) -> proto (types base (tab ++ e)) x = None -> base_seen ((tab ++ [(x, p)]) ++ e).
Proof.
  intros B N gi fs H. specialize (B gi fs H). revert B N. unfold proto, types. rewrite !map_app. cbn [map fst snd]. rewrite <- !app_assoc. cbn [app].
  generalize (map (fun p0 : text * pdef => (fst p0, pfields (snd p0))) e ++ base). intros r. induction tab as [|[a q] tab IH]; cbn [map app fst snd dget].
  - intros B N. destruct (text_eqb x gi) eqn:E; [apply text_eqb_spec in E; subst; congruence|exact B].
  - destruct (text_eqb a gi) eqn:E; [auto|]. destruct (text_eqb a x) eqn:E'; [discriminate|exact IH].
Qed.
Definition seen_fit (w : text * text * list sitem) : Prop := (exists fs, proto base (fst (fst w)) = Some fs) -> fit base w.
Lemma fit_seen e w : base_seen e -> fit (types base e) w -> seen_fit w.
Proof. intros B (fs & f & Pr & Q) (fs' & Pr'). exists fs', f. rewrite (B _ _ Pr') in Pr. injection Pr as <-. split; [exact Pr'|exact Q]. Qed.
Lemma roots_fit :
  (forall inp e s r s', root_reads P base inp e s r s' -> sf_names sfn (types base (fst s ++ e)) -> base_seen (fst s ++ e) -> mems_sf (snd s) -> lone_root sfn r = true ->
     sf_names sfn (types base (fst s' ++ e)) /\ base_seen (fst s' ++ e) /\ mems_sf (snd s') /\
     (forall i w, r = SRItem i -> In w (writings i) -> seen_fit w) /\ (forall gi ds b w, r = SRProto gi ds b -> assigned b w -> seen_fit w)) /\
  (forall inp e s l s', roots_read P base inp e s l s' -> sf_names sfn (types base (fst s ++ e)) -> base_seen (fst s ++ e) -> mems_sf (snd s) -> forallb (lone_root sfn) l = true ->
     sf_names sfn (types base (fst s' ++ e)) /\ base_seen (fst s' ++ e) /\ mems_sf (snd s') /\ forall w, assigned l w -> seen_fit w).
Proof.
  apply root_reads_all; cbn [fst snd].
  - intros inp e tab st i st' r R SF B M L. destruct (items_fit inp (tab ++ e) SF) as (F & _). destruct (F _ _ _ _ R M L) as (G & M').
    repeat split; auto; try discriminate. intros i' w [= <-] Hw. exact (fit_seen _ _ B (G w Hw)).
  - intros inp e tab st a af b bf n m Na Nb SF B M _. repeat split; auto; discriminate.
  - intros inp e tab st gi ds l mem inner stb body Pr D R IH Ds SF B M L.
    assert (R' : root_reads P base inp e (tab, st) (SRProto gi ds l) (tab ++ [(gi, PDef mem inner body)], st)) by (econstructor; eassumption).
    destruct (proj1 (roots_facts P base sfn) _ _ _ _ _ R' SF M L) as (_ & _ & SF' & _).
    cbn [lone_root] in L. apply andb_true_iff in L as [L1 L2]. cbn [app fst snd] in IH. destruct (IH SF B) as (_ & _ & _ & W); [constructor|exact L2|].
    split; [exact SF'|]. split; [apply seen_more; assumption|]. split; [exact M|]. split; [discriminate|]. intros gi' ds' b' w [= <- <- <-] Hw. exact (W w Hw).
  - intros inp e tab st gi ds url mem u Pr D U SF B M L.
    assert (R' : root_reads P base inp e (tab, st) (SRExtern gi ds url) (tab ++ [(gi, PExt mem u)], st)) by (econstructor; eassumption).
    destruct (proj1 (roots_facts P base sfn) _ _ _ _ _ R' SF M L) as (_ & _ & SF' & _).
    split; [exact SF'|]. split; [apply seen_more; assumption|]. split; [exact M|]. split; discriminate.
  - intros inp e s SF B M _. repeat split; auto. intros w (x & i & Sx & Hi & _). inversion Sx; subst; [destruct Hi|]. match goal with H : In _ [] |- _ => destruct H end.
  - intros inp e s r s1 l s' _ IH1 _ IH2 SF B M L. cbn [forallb] in L. apply andb_true_iff in L as [L1 L2].
    destruct (IH1 SF B M L1) as (SF1 & B1 & M1 & W1 & W1'). destruct (IH2 SF1 B1 M1 L2) as (SF2 & B2 & M2 & W2).
    repeat split; auto. intros w (x & i & Sx & Hi & Hw). inversion Sx as [|gi ds b ? ? Hp Sb]; subst.
    + destruct Hi as [->|Hi]; [exact (W1 i w eq_refl Hw)|apply W2; exists l, i; repeat split; auto; constructor].
    + destruct Hp as [->|Hp]; [apply (W1' gi ds b w eq_refl); exists x, i; auto|]. apply W2. exists x, i. split; [|auto]. econstructor; eassumption.
Qed.
End Fit.

(** *** what can be read as a value of each type *)
Lemma mapM_len {A B} (f : A -> res B) l : forall r, mapM f l = Ok r -> List.length r = List.length l.
Proof. induction l as [|x l IH]; intros r; cbn [mapM]; [intros [= <-]; reflexivity|]. intros H. apply bind_ok in H as (y & _ & H). apply bind_ok in H as (ys & E & [= <-]). cbn. rewrite (IH _ E). reflexivity. Qed.
Lemma mapM_each {A B} (f : A -> res B) l : forall r, mapM f l = Ok r -> Forall (fun x => exists y, f x = Ok y) l.
Proof. induction l as [|x l IH]; intros r; cbn [mapM]; [constructor|]. intros H. apply bind_ok in H as (y & E & H). apply bind_ok in H as (ys & E' & _). constructor; eauto. Qed.
Lemma plain_float i x : plain i = true -> read_float (tree_span (et_item i)) = Some x -> exists n, i = SNum n.
Proof. destruct i as [n|b| |b|nm|d gi l|d l]; try discriminate; [eauto|destruct b; discriminate]. Qed.
Lemma no_dot f (l : text) : forallb f l = true -> f 46%N = false -> ~ In 46%N l.
Proof. intros H D Hi. rewrite forallb_forall in H. rewrite (H _ Hi) in D. discriminate. Qed.
Lemma sign_in n s r : take_sign n = (s, r) -> In 46%N n -> In 46%N r.
Proof.
  destruct n as [|c n]; [intros _ []|]. cbn [take_sign]. destruct (N.eqb_spec c 45) as [->|]; [intros [= <- <-] [H|H]; [discriminate|exact H]|].
  destruct (N.eqb_spec c 43) as [->|]; [intros [= <- <-] [H|H]; [discriminate|exact H]|]. intros [= <- <-] H. exact H.
Qed.
Lemma int_no_dot n z : read_int n = Some z -> ~ In 46%N n.
Proof.
  unfold read_int. destruct (take_sign n) as [s r] eqn:E. intros H Hn. apply (sign_in _ _ _ E) in Hn. destruct r as [|c r]; [discriminate|].
  destruct (N.eqb_spec c 48) as [->|].
  - destruct Hn as [|Hn]; [discriminate|]. destruct r as [|x h]; [destruct Hn|]. destruct ((x =? 120)%N || (x =? 88)%N) eqn:X.
    + destruct Hn as [->|Hn]; [discriminate|]. destruct (nonempty h && forallb hexdigit h) eqn:Y; [|discriminate].
      apply andb_true_iff in Y as [_ Y]. exact (no_dot _ _ Y eq_refl Hn).
    + destruct (forallb (fun c => (c =? 48)%N) (x :: h)) eqn:Y; [|discriminate]. exact (no_dot _ _ Y eq_refl Hn).
  - destruct (forallb digit (c :: r)) eqn:Y; [|discriminate]. exact (no_dot _ _ Y eq_refl Hn).
Qed.
Lemma plain_int i x : plain i = true -> read_int (tree_span (et_item i)) = Some x -> exists n, i = SNum n /\ ~ In 46%N n.
Proof.
  destruct i as [n|b| |b|nm|d gi l|d l]; try discriminate; [|destruct b; discriminate].
  intros _ H. exists n. split; [reflexivity|]. exact (int_no_dot _ _ H).
Qed.
Lemma floats_numbers its l : forallb plain its = true -> read_floats (map et_item its) = Ok l ->
  numbers its /\ exists fs, l = map PFloat fs /\ List.length fs = List.length its.
Proof.
  unfold read_floats. revert l. induction its as [|i its IH]; intros l Pl; cbn [map mapM]; [intros [= <-]; split; [constructor|exists []; auto]|].
  cbn [forallb] in Pl. apply andb_true_iff in Pl as [P1 P2]. intros H. apply bind_ok in H as (y & Ey & H). apply bind_ok in H as (ys & E & [= <-]).
  destruct (IH ys P2 E) as (N & fs & -> & L). destruct (read_float (tree_span (et_item i))) as [x|] eqn:R; [|discriminate Ey]. injection Ey as <-.
  split; [constructor; [exact (plain_float i x P1 R)|exact N]|]. exists (x :: fs). cbn. rewrite L. auto.
Qed.
Lemma ints_wholes its l : forallb plain its = true -> read_ints (map et_item its) = Ok l -> wholes its.
Proof.
  unfold read_ints. revert l. induction its as [|i its IH]; intros l Pl; cbn [map mapM]; [constructor|].
  cbn [forallb] in Pl. apply andb_true_iff in Pl as [P1 P2]. intros H. apply bind_ok in H as (y & Ey & H). apply bind_ok in H as (ys & E & _).
  destruct (read_int (tree_span (et_item i))) as [x|] eqn:R; [|discriminate Ey].
  constructor; [exact (plain_int i x P1 R)|exact (IH ys P2 E)].
Qed.
Lemma floats_flat fs : flattens (map PFloat fs) (map PFloat fs).
Proof. induction fs; cbn; constructor; auto; discriminate. Qed.
Lemma vec_count P c d fs w : sfvec_coerce P c [d] (PSeq KList (map PFloat fs)) = Ok w -> List.length fs = d.
Proof.
  intros H. apply C17_vector_accepts in H as (xs & gs & F & _ & L & _). pose proof (proj1 (collapse_spec _ _) F) as Q. pose proof (proj1 (collapse_spec _ _) (floats_flat fs)) as Q'.
  rewrite Q in Q'. rewrite Q', map_length in L. exact L.
Qed.
Lemma discover_floats P c fs : exists s d, discover P c (PSeq KList (map PFloat fs)) = Ok (s, d) /\ List.length d = List.length fs.
Proof.
  rewrite discover_list. assert (E : go_discover P c (map PFloat fs) = Ok (map (fun f => ([], [cast P c (NF f)])) fs)).
  { induction fs as [|f fs IH]; [reflexivity|]. cbn [map]. rewrite go_cons, IH. reflexivity. }
  rewrite E. cbn [bind]. destruct fs as [|f fs]; [exists [0], []; auto|]. cbn [map stack]. replace (forallb _ _) with true.
  - eexists _, _. split; [reflexivity|]. cbn [map snd List.concat app List.length]. f_equal. rewrite map_map. cbn [snd]. clear. induction fs; cbn; congruence.
  - symmetry. apply forallb_forall. intros p [<-|Hp]; [reflexivity|]. apply in_map_iff in Hp as (g & <- & _). reflexivity.
Qed.
Lemma rows_count P c d fs w : d <> 0 -> mfvec_coerce P c [d] (PSeq KList (map PFloat fs)) = Ok w -> exists k, List.length fs = k * d.
Proof.
  intros D H. cbn [mfvec_coerce] in H. unfold np_array in H. destruct (discover_floats P c fs) as (s & l & E & L). rewrite E in H. cbn [bind fst snd] in H.
  unfold reshape_rows in H. cbn [a_data] in H. rewrite L in H. replace (size [d]) with d in H by (cbn; lia).
  destruct ((d =? 0) || negb (List.length fs mod d =? 0)) eqn:Q; [discriminate|]. apply orb_false_iff in Q as [_ Q]. apply negb_false_iff, Nat.eqb_eq in Q.
  exists (List.length fs / d). pose proof (Nat.div_mod (List.length fs) d D). lia.
Qed.
Lemma colors_loop P fs : forall res cur r, mfcolor_loop P res cur (map PFloat fs) = Ok r -> List.length cur < 3 -> exists k, List.length fs + List.length cur = k * 3.
Proof.
  induction fs as [|f fs IH]; intros res cur r; cbn [map mfcolor_loop].
  - destruct cur; [intros _ _; exists 0; reflexivity|discriminate].
  - destruct (Nat.eqb_spec (List.length (cur ++ [PFloat f])) 3) as [L|L]; rewrite app_length in L; cbn in L.
    + intros H _. apply bind_ok in H as (c & _ & H). destruct (IH _ _ _ H) as (k & K); [cbn; lia|]. exists (S k). cbn in *. lia.
    + intros H C. destruct (IH _ _ _ H) as (k & K); [rewrite app_length; cbn; lia|]. exists k. rewrite app_length in K. cbn in *. lia.
Qed.
Lemma colors_count P fs w : mfcolor_coerce P (PSeq KList (map PFloat fs)) = Ok w -> exists k, List.length fs = k * 3.
Proof.
  unfold mfcolor_coerce. destruct (mfvec_coerce P Cf [3] (PSeq KList (map PFloat fs))) as [v|x] eqn:E.
  - intros _. refine (rows_count P Cf 3 fs v _ E); discriminate.
  - cbn [bind]. intros H. assert (G : exists r, mfcolor_loop P [] [] (map PFloat fs) = Ok r).
    { destruct x; try discriminate H; cbn [py_iter bind] in H; apply bind_ok in H as (r & E' & _); eauto. }
    destruct G as (r & G). destruct (colors_loop _ _ _ _ _ G) as (k & K); [cbn; lia|]. exists k. cbn in K. lia.
Qed.
Lemma only_one {A} (l : list sitem) (f : tree -> res A) v : only (map et_item l) f = Ok v -> exists i, l = [i] /\ f (et_item i) = Ok v.
Proof. destruct l as [|i [|j l]]; cbn; try discriminate. eauto. Qed.
Lemma read_fits P t its v : forallb plain its = true -> read_value P t (map et_item its) = Ok v -> fits t its.
Proof.
  intros Pl H. unfold read_value in H. apply bind_ok in H as (x & Hh & Hc).
  destruct t; cbn [handler] in Hh; try discriminate Hh; cbn [fits]; try exact Logic.I;
    try (apply only_one in Hh as (i & -> & Hh); cbn [forallb] in Pl; rewrite andb_true_r in Pl);
    try (apply bind_ok in Hh as (l & Hh & Q); injection Q as <-);
    try (split; [|reflexivity]); try reflexivity;
    try (constructor; [|constructor]);
    try (destruct (read_float (tree_span (et_item i))) as [y|] eqn:R; [|discriminate Hh]; exact (plain_float i y Pl R));
    try (destruct (read_int (tree_span (et_item i))) as [y|] eqn:R; [|discriminate Hh]; exact (plain_int i y Pl R));
    try exact (ints_wholes its l Pl Hh);
    try (apply (floats_numbers its l Pl) in Hh as (N & fs & -> & L)); try exact N; try (split; [exact N|]); rewrite <- L;
    unfold coerce in Hc; cbn [fbase] in Hc.
  all: try (apply vec_count in Hc; exact Hc).
  all: try (apply rows_count in Hc; [exact Hc|discriminate]).
  - unfold sfcolor_coerce in Hc. cbn [bind] in Hc. apply bind_ok in Hc as (u & Hc & _). apply vec_count in Hc. exact Hc.
  - apply colors_count in Hc. exact Hc.
Qed.
