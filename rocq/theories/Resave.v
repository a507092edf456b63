(** Scenes that differ only in the identity of their nodes are written alike. *)
From Coq Require Import SpecFloat.
From Verif Require Import Base Text PyDict PyDict_Proofs Float Coerce_Model SceneGraph_Model SceneGraph_Proofs VrmlStr_Model Scene_Model
  Linearise_Model Scene_Spec.
Local Open Scope nat_scope.
Local Open Scope list_scope.
Notation RNode := Scene_Model.RNode.

(** what is left out is left out whatever the sign of a zero *)
Lemma zero_compare d s s' : safe_compare d (PFloat (S754_zero s)) = safe_compare d (PFloat (S754_zero s')).
Proof.
  destruct d; reflexivity.
Qed.
Lemma same_dropped R f v v' : same_val R v v' -> dropped f v = dropped f v'.
Proof.
  intros [a b E|r r' E|l l' E]; unfold dropped; destruct (f_kind f) as [t d| |o]; try reflexivity.
  - destruct E as [->|(s & s' & -> & ->)]; [reflexivity|]. destruct d; try reflexivity; apply zero_compare.
  - destruct o; [|reflexivity]. destruct E; reflexivity.
Qed.
Lemma equal_dropped R f v v' : equal_val R v v' -> dropped f v = dropped f v'.
Proof. intros [x|r r' E|l l' E]; [reflexivity| |]; eapply same_dropped; constructor; exact E. Qed.

Section Sim.
Variable P : prims.
Variable fstr : tcode -> fl -> text.
Variable protos : list (text * list fdecl).
Variable st : settings.
Variable S1 S2 : scene.
Variable R : nat -> nat -> Prop.
Hypothesis RF : forall a b b', R a b -> R a b' -> b = b'.
Hypothesis RI : forall a a' b, R a b -> R a' b -> a = a'.
Definition alike (a b : nat) (f : fdecl) : Prop :=
  match fget P S1 a f, fget P S2 b f with
  | Ok v, Ok v' => equal_val R v v' \/ (dropped f v = Ok true /\ dropped f v' = Ok true)
  | Exc _, Exc _ => True
  | _, _ => False
  end.
Hypothesis RN : forall a b, R a b -> exists nd nd', s_node S1 a = Some nd /\ s_node S2 b = Some nd' /\ n_gi nd' = n_gi nd /\
  n_gi nd <> script_gi /\ node_def S2 b = node_def S1 a /\ forall fs, proto protos (n_gi nd) = Some fs -> forall f, In f fs -> alike a b f.

Definition srel (s s' : lst) : Prop :=
  l_buf s = l_buf s' /\ l_level s = l_level s' /\ forall a b, R a b -> dget Nat.eqb (l_done s) a = dget Nat.eqb (l_done s') b.
Definition lrel (r r' : lres) : Prop :=
  match r, r' with
  | LOk s, LOk s' => srel s s'
  | LExc, LExc => True
  | LFuel, _ | _, LFuel => True
  | _, _ => False
  end.
Lemma lbind_rel r r' f f' : lrel r r' -> (forall s s', srel s s' -> lrel (f s) (f' s')) -> lrel (lbind r f) (lbind r' f').
Proof.
  intros H F. destruct r as [s| |], r' as [s'| |]; cbn [lbind] in *; try (exact Logic.I); try contradiction; [apply F; exact H|].
  destruct (f s); exact Logic.I.
Qed.
Lemma emit_rel t s s' : srel s s' -> srel (emit t s) (emit t s').
Proof. intros (A & B & C). split; [cbn; congruence|]. split; [exact B|exact C]. Qed.
Lemma more_rel s s' : srel s s' -> srel (more s) (more s').
Proof. intros (A & B & C). split; [exact A|]. split; [cbn; congruence|exact C]. Qed.
Lemma less_rel s s' : srel s s' -> srel (less s) (less s').
Proof. intros (A & B & C). split; [exact A|]. split; [cbn; congruence|exact C]. Qed.
Lemma mark_rel a b x s s' : R a b -> srel s s' -> srel (mark a x s) (mark b x s').
Proof.
  intros H (A & B & C). split; [exact A|]. split; [exact B|]. intros a' b' H'. cbn [mark l_done].
  assert (Q : a' = a <-> b' = b) by (split; intros ->; [eapply RF|eapply RI]; eassumption).
  destruct (Nat.eq_dec a' a) as [E|E].
  - assert (b' = b) as -> by tauto. subst a'. rewrite (dget_dset_same Nat.eqb Nat.eqb_eq), (dget_dset_same Nat.eqb Nat.eqb_eq). reflexivity.
  - rewrite (dget_dset_other Nat.eqb Nat.eqb_eq) by congruence. rewrite (dget_dset_other Nat.eqb Nat.eqb_eq) by (intros X; apply E; apply Q; congruence).
    apply C. exact H'.
Qed.
Lemma cur_rel s s' : srel s s' -> cur st s = cur st s'.
Proof. intros (_ & B & _). unfold cur. rewrite B. reflexivity. Qed.
Lemma lead_rel s s' : srel s s' -> lead st s = lead st s'.
Proof. intros H. unfold lead. rewrite (cur_rel _ _ H). reflexivity. Qed.
Lemma lv_rel s s' : srel s s' -> lv_at st s = lv_at st s'.
Proof. intros H. unfold lv_at. rewrite (cur_rel _ _ H). reflexivity. Qed.
Lemma tell_rel s s' : srel s s' -> tell s = tell s'.
Proof. intros (A & _). unfold tell. rewrite A. reflexivity. Qed.

Section Rec.
Variable rec rec' : nref -> lst -> lres.
Hypothesis RR : forall r r' s s', same_ref R r r' -> srel s s' -> lrel (rec r s) (rec' r' s').
Lemma each_rel {A B} (Q : A -> B -> Prop) (f : A -> lst -> lres) (f' : B -> lst -> lres) l l' :
  (forall x y s s', Q x y -> srel s s' -> lrel (f x s) (f' y s')) -> Forall2 Q l l' ->
  forall s s', srel s s' -> lrel (each f l s) (each f' l' s').
Proof.
  intros F H. induction H as [|x y l l' Hq H IH]; intros s s' Hs; [exact Hs|]. cbn [each]. apply lbind_rel; [apply F; auto|exact IH].
Qed.
Lemma mfnode_rel l l' s s' : Forall2 (same_ref R) l l' -> srel s s' -> lrel (mfnode st rec l s) (mfnode st rec' l' s').
Proof.
  intros H Hs. destruct H as [|x y l l' Hx Hl]; [cbn; apply emit_rel; exact Hs|]. unfold mfnode. apply lbind_rel.
  - eapply (each_rel (same_ref R)); [|constructor; eassumption|apply emit_rel, more_rel; exact Hs].
    intros a b t t' Hab Ht. rewrite (lead_rel _ _ Ht). apply RR; [exact Hab|]. apply emit_rel. exact Ht.
  - intros t t' Ht. cbn [lrel]. rewrite (cur_rel _ _ Ht). apply less_rel, emit_rel. exact Ht.
Qed.
Lemma sffield_rel f v v' s s' : equal_val R v v' -> srel s s' -> lrel (sffield fstr st rec f v s) (sffield fstr st rec' f v' s').
Proof.
  intros E Hs. unfold sffield. destruct E as [u|r r' E|l l' E]; destruct (f_kind f) as [t d| |o]; try exact Logic.I.
  - assert (Q : forall s s', srel s s' -> lrel (match vrmlstr fstr (lv_at st s) t u with Some tx => LOk (emit tx s) | None => LExc end)
                                               (match vrmlstr fstr (lv_at st s') t u with Some tx => LOk (emit tx s') | None => LExc end)).
    { intros x x' Hx. rewrite (lv_rel _ _ Hx). destruct (vrmlstr _ _ _ _); [apply emit_rel; exact Hx|exact Logic.I]. }
    destruct u as [| | | | | |[] [|y l]|]; try (apply Q; exact Hs).
    + apply mfnode_rel; [constructor|exact Hs].
    + assert (Hx : srel (emit (lit "[ ") (more s)) (emit (lit "[ ") (more s'))) by (apply emit_rel, more_rel; exact Hs).
      cbv zeta. rewrite (lead_rel _ _ Hx). apply Q. apply emit_rel. exact Hx.
  - apply RR; assumption.
  - apply mfnode_rel; assumption.
Qed.
Lemma attr_rel a b f s s' : alike a b f -> srel s s' -> lrel (attr P fstr st S1 no_maps rec a f s) (attr P fstr st S2 no_maps rec' b f s').
Proof.
  unfold alike, attr. intros H Hs. destruct (fget P S1 a f) as [v|], (fget P S2 b f) as [v'|]; try contradiction; [|exact Logic.I].
  destruct H as [E|(-> & ->)]; [|exact Hs]. rewrite (equal_dropped _ _ _ _ E). destruct (dropped f v') as [[]|]; [exact Hs| |exact Logic.I].
  rewrite (lead_rel _ _ Hs). apply sffield_rel; [exact E|]. apply emit_rel. exact Hs.
Qed.
Lemma node_body_rel a b gi fs s s' : R a b -> node_def S2 b = node_def S1 a -> (forall f, In f fs -> alike a b f) -> srel s s' ->
  lrel (node_body P fstr st S1 no_maps rec a gi fs s) (node_body P fstr st S2 no_maps rec' b gi fs s').
Proof.
  intros Hab D F Hs. unfold node_body, can_use. rewrite (proj2 (proj2 Hs) a b Hab). destruct (dget Nat.eqb (l_done s') b) as [x|].
  - rewrite D, (proj1 Hs). destruct (node_def S1 a); [destruct x as [i [j|]]|]; apply emit_rel; exact Hs.
  - cbv zeta. rewrite (tell_rel _ _ Hs). unfold def_text. rewrite D. set (tx := _ ++ gi ++ _).
    assert (H2 : srel (emit tx (mark a (tell s', None) s)) (emit tx (mark b (tell s', None) s'))) by (apply emit_rel, mark_rel; assumption).
    rewrite (tell_rel _ _ H2). set (pos := tell (emit tx (mark b (tell s', None) s'))). apply lbind_rel.
    + eapply (each_rel (fun x y => x = y /\ In x fs)); [|  |apply more_rel; exact H2].
      * intros x y t t' (<- & Hx) Ht. apply attr_rel; auto.
      * assert (I : forall f, In f (sort fs) -> In f fs).
        { clear. unfold sort. induction fs as [|g fs IH]; [auto|]. cbn [fold_right].
          assert (J : forall l h, In h (insert g l) -> h = g \/ In h l).
          { induction l as [|k l IHl]; intros h; cbn; [intuition|]. destruct (field_lt k g); cbn; [|intuition]. intros [<-|H]; [right; left; reflexivity|].
            destruct (IHl h H); auto. }
          intros f H. destruct (J _ _ H) as [->|H']; [left; reflexivity|right; apply IH; exact H']. }
        clear - I. induction (sort fs) as [|f l IH]; constructor; [split; [reflexivity|apply I; left; reflexivity]|]. apply IH. intros g Hg. apply I. right. exact Hg.
    + intros t t' Ht. rewrite (tell_rel _ _ Ht), (cur_rel _ _ Ht).
      assert (Q : forall z z', srel z z' -> lrel (LOk (mark a (tell s', Some (tell (less z))) (less z))) (LOk (mark b (tell s', Some (tell (less z'))) (less z')))).
      { intros z z' Hz. cbn [lrel]. rewrite (tell_rel _ _ (less_rel _ _ Hz)). apply mark_rel; [exact Hab|]. apply less_rel. exact Hz. }
      apply Q. destruct (tell t' =? pos); [apply emit_rel; exact Ht|]. destruct (l_end st) as [c|]; [|apply emit_rel; exact Ht].
      destruct (c * 60 <? tell t' - tell s'); apply emit_rel; exact Ht.
Qed.
Lemma linear_rel r r' s s' : same_ref R r r' -> srel s s' -> lrel (linear P fstr protos st S1 no_maps rec r s) (linear P fstr protos st S2 no_maps rec' r' s').
Proof.
  intros [|a b H] Hs; cbn [linear]; [apply emit_rel; exact Hs|]. destruct (RN a b H) as (nd & nd' & N1 & N2 & G & Ns & D & F).
  rewrite N1, N2, G. assert (text_eqb (n_gi nd) script_gi = false) as ->.
  { destruct (text_eqb (n_gi nd) script_gi) eqn:E; [|reflexivity]. apply text_eqb_spec in E. contradiction. }
  destruct (_ || _); [exact Logic.I|]. destruct (proto protos (n_gi nd)) as [fs|] eqn:E; [|exact Logic.I].
  apply node_body_rel; [exact H|exact D|intros f Hf; exact (F fs eq_refl f Hf)|exact Hs].
Qed.
End Rec.
Lemma lin_rel k : forall k' r r' s s', same_ref R r r' -> srel s s' -> lrel (lin P fstr protos st S1 no_maps k r s) (lin P fstr protos st S2 no_maps k' r' s').
Proof.
  induction k as [|k IH]; intros k' r r' s s' H Hs; [exact Logic.I|]. destruct k' as [|k'].
  - cbn [lin]. destruct (linear P fstr protos st S1 no_maps _ r s); exact Logic.I.
  - cbn [lin]. apply linear_rel; [|exact H|exact Hs]. intros. apply IH; assumption.
Qed.
Hypothesis KIDS : Forall2 (same_ref R) (s_kids S1) (s_kids S2).
Hypothesis ROUTES : Forall2 (same_route R) (s_routes S1) (s_routes S2).
Lemma scene_rel k k' : lrel (scene_body P fstr protos st S1 no_maps [] k) (scene_body P fstr protos st S2 no_maps [] k').
Proof.
  unfold scene_body. apply lbind_rel.
  - eapply (each_rel (same_ref R)); [|exact KIDS|split; [reflexivity|split; reflexivity]].
    intros x y s s' H Hs. apply lbind_rel; [apply lin_rel; assumption|]. intros. apply emit_rel. assumption.
  - intros s s' Hs. replace (map (route_text st S2) (s_routes S2)) with (map (route_text st S1) (s_routes S1)); [apply emit_rel; exact Hs|].
    assert (Q : forall l l', Forall2 (same_route R) l l' -> map (route_text st S1) l = map (route_text st S2) l'); [|exact (Q _ _ ROUTES)].
    intros l l' H. induction H as [|[[a af] [b bf]] [[a' af'] [b' bf']] l l' (A & B & C & D) H IH]; [reflexivity|]. cbn [map]. rewrite IH. cbn [fst snd] in *. subst.
    destruct (RN _ _ A) as (_ & _ & _ & _ & _ & _ & E1 & _). destruct (RN _ _ C) as (_ & _ & _ & _ & _ & _ & E2 & _). cbn [route_text]. rewrite E1, E2. reflexivity.
Qed.
End Sim.

(** *** names for routed nodes *)
Definition drel (R : nat -> nat -> Prop) (d d' : dstate) : Prop :=
  (forall nm, nm <> [] -> (getDEF d nm = None <-> getDEF d' nm = None)) /\ (forall a b, R a b -> ndef d' b = ndef d a).
Lemma reg_fresh d nm o x : ndef d o = [] -> x <> [] -> getDEF (regDefName d nm o) x = if text_eqb nm x then Some o else getDEF d x.
Proof.
  intros D Hx. unfold getDEF, regDefName. cbn [defs]. rewrite D. destruct (text_eqb nm x) eqn:E.
  - apply text_eqb_spec in E. subst x. apply (dget_dset_same text_eqb text_eqb_spec).
  - rewrite (dget_dset_other text_eqb text_eqb_spec) by (intros ->; rewrite (proj2 (text_eqb_spec x x) eq_refl) in E; discriminate).
    destruct (dget text_eqb (defs d) []) as [y|]; [|reflexivity]. destruct (y =? o); [|reflexivity].
    apply (dget_ddel_other text_eqb text_eqb_spec). congruence.
Qed.
Section Names.
Variable R : nat -> nat -> Prop.
Hypothesis RF : forall a b b', R a b -> R a b' -> b = b'.
Hypothesis RI : forall a a' b, R a b -> R a' b -> a = a'.
Variable gi gi' : nat -> text.
Hypothesis RG : forall a b, R a b -> gi' b = gi a.
Lemma auto_not_nil p c : auto_name p c <> [].
Proof. unfold auto_name. destruct p; discriminate. Qed.
Lemma child_rel d d' a b : R a b -> drel R d d' -> exists e e' : dstate, preroute_child gi d a = Some e /\ preroute_child gi' d' b = Some e' /\ drel R e e'.
Proof.
  intros H (T & N). unfold preroute_child. rewrite (N a b H), (RG a b H). destruct (ndef d a) as [|x y] eqn:Da; [|exists d, d'; repeat split; auto; apply T; assumption].
  destruct (find_count_total d (gi a)) as (c & F). destruct (find_count_total d' (gi a)) as (c' & F'). rewrite F, F'.
  destruct (find_count_some _ _ _ _ _ F) as (_ & G1 & M1). destruct (find_count_some _ _ _ _ _ F') as (_ & G2 & M2).
  assert (c' = c) as ->.
  { destruct (Nat.lt_trichotomy c c') as [L|[L|L]]; [|auto|].
    - exfalso. apply (M2 c); [lia|]. apply T; [apply auto_not_nil|exact G1].
    - exfalso. apply (M1 c'); [lia|]. apply T; [apply auto_not_nil|exact G2]. }
  eexists. eexists. split; [reflexivity|]. split; [reflexivity|]. assert (Db : ndef d' b = []) by (rewrite (N a b H); exact Da). split.
  - intros nm Hn. rewrite !reg_fresh by assumption. destruct (text_eqb _ nm); [split; discriminate|apply T; exact Hn].
  - intros a' b' H'. cbn [regDefName ndef]. unfold set_def.
    assert (Q : a' = a <-> b' = b) by (split; intros ->; [eapply RF|eapply RI]; eassumption).
    destruct (Nat.eqb_spec a' a), (Nat.eqb_spec b' b); try tauto. apply N. exact H'.
Qed.
Lemma visits_rel cs cs' : Forall2 R cs cs' -> forall d d', drel R d d' ->
  exists e e', visit_all gi d cs = Some e /\ visit_all gi' d' cs' = Some e' /\ drel R e e'.
Proof.
  induction 1 as [|a b cs cs' H _ IH]; intros d d' D; [exists d, d'; auto|]. destruct (child_rel d d' a b H D) as (e & e' & E & E' & D').
  cbn [visit_all]. rewrite E, E'. apply IH. exact D'.
Qed.
End Names.

(** if all routed nodes have names, no name is given *)
Lemma all_named S0 : (forall n, routed S0 n -> node_def S0 n <> []) -> named S0 = Some S0.
Proof.
  intros H. unfold named. rewrite preroutes_visit. set (cs := endpoints _).
  assert (Hc : forall n, In n cs -> ndef (s_defs S0) n <> []).
  { intros n Hn. apply H. unfold cs, endpoints in Hn. apply in_flat_map in Hn as (p & Hp & Hn). apply in_map_iff in Hp as (r & <- & Hr). exists r.
    split; [exact Hr|]. cbn in Hn. intuition. }
  assert (E : visit_all (gi_of S0) (s_defs S0) cs = Some (s_defs S0)).
  { clearbody cs. induction cs as [|c cs IH]; [reflexivity|]. cbn [visit_all]. unfold preroute_child. pose proof (Hc c (or_introl eq_refl)) as Q.
    destruct (ndef (s_defs S0) c); [contradiction|]. apply IH. intros m Hm. apply Hc. right. exact Hm. }
  rewrite E. destruct S0. reflexivity.
Qed.
