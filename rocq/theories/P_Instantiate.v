(** C43, C61: instances of prototypes. *)
From Verif Require Import Base Route_Model Route_Spec Route_Proofs P_Route Instantiate_Model.
From Coq Require Import Relations.

Section Claims.
Context {V : Type}.
Variable kind_of : cell -> kind.
Variable coerce : cell -> V -> res V.
Variable resolves : cell -> bool.
Notation mapping := (mapping V).
Notation world := (world V).
Notation instantiate := (instantiate kind_of coerce resolves).

(** the last target of a mapping, if the mapped field has a default *)
Definition initialises (m : mapping) (c : cell) : Prop :=
  exists ts v, m_targets m = ts ++ [c] /\ m_default m = Some v.

Lemma rev_last (ts : list cell) : ts <> [] -> exists l c, ts = l ++ [c] /\ rev ts = c :: rev l.
Proof.
  intros H. destruct (exists_last H) as (l & c & ->). exists l, c. split; [reflexivity|]. now rewrite rev_app_distr.
Qed.
Lemma push_other (s s' : Route_Model.state V) c v x : push kind_of coerce resolves s c v = Ok s' -> x <> c ->
  store s' x = store s x.
Proof.
  unfold push. intros H N. destruct (resolves c); [|injection H as <-; reflexivity].
  destruct (kind_of c); [|injection H as <-; reflexivity].
  destruct (coerce c v) as [w|[]]; try discriminate; injection H as <-; try reflexivity.
  cbn. rewrite cell_eqb_neq by exact N. reflexivity.
Qed.

(** C43.  Instantiation changes nothing but the last target of each mapping ... *)
Theorem C43_only_last_targets_change : forall (ms : list mapping) w inst dest w' c,
  (forall m, In m ms -> m_targets m <> []) ->
  instantiate w inst dest ms = Ok w' ->
  (forall m, In m ms -> ~ initialises m c) ->
  store (w_store w') c = store (w_store w) c.
Proof.
  induction ms as [|m ms IH]; intros w inst dest w' c NE H NI; cbn in H; [injection H as <-; reflexivity|].
  destruct (rev_last (m_targets m) (NE m (or_introl eq_refl))) as (l & d & Em & Er). rewrite Er in H.
  assert (NE' : forall m0, In m0 ms -> m_targets m0 <> []) by (intros; apply NE; right; assumption).
  assert (NI' : forall m0, In m0 ms -> ~ initialises m0 c) by (intros; apply NI; right; assumption).
  destruct (m_default m) as [v|] eqn:Ed.
  - destruct (push _ _ _ _ _ _) as [s|] eqn:Ep; [|discriminate].
    rewrite (IH _ _ _ _ c NE' H NI'). cbn. eapply push_other; [exact Ep|].
    intros ->. apply (NI m (or_introl eq_refl)). exists l, v. auto.
  - apply (IH _ _ _ _ c NE' H NI').
Qed.

(** ... and each last target gets the (coerced) default of its field, unless a
    later mapping overwrites it. *)
Theorem C43_last_target_initialised : forall (ms1 : list mapping) m ms2 w inst dest w' ts c v,
  (forall m', In m' (ms1 ++ m :: ms2) -> m_targets m' <> []) ->
  instantiate w inst dest (ms1 ++ m :: ms2) = Ok w' ->
  m_targets m = ts ++ [c] -> m_default m = Some v ->
  kind_of c = KField -> resolves c = true -> (forall x u, coerce x u <> Exc AttributeError) ->
  (forall m', In m' ms2 -> ~ initialises m' c) ->
  exists u, coerce c v = Ok u /\ store (w_store w') c = Some u.
Proof.
  induction ms1 as [|m1 ms1 IH]; intros m ms2 w inst dest w' ts c v NE H Em Ed K R NA NI.
  - cbn in H. rewrite Em, rev_app_distr in H. cbn in H. rewrite Ed in H. unfold push in H. rewrite R, K in H.
    destruct (coerce c v) as [u|e] eqn:Ec.
    + exists u. split; [reflexivity|]. 
      rewrite (C43_only_last_targets_change ms2 _ _ _ _ c (fun m' I => NE m' (or_intror I)) H NI).
      cbn. rewrite cell_eqb_refl. reflexivity.
    + exfalso. destruct e; try discriminate. apply (NA _ _ Ec).
  - cbn in H. destruct (rev_last (m_targets m1) (NE m1 (or_introl eq_refl))) as (l & d & Em1 & Er). rewrite Er in H.
    assert (NE' : forall m', In m' (ms1 ++ m :: ms2) -> m_targets m' <> []) by (intros; apply NE; right; assumption).
    destruct (m_default m1) as [v1|].
    + destruct (push _ _ _ _ _ _) as [s|]; [|discriminate]. eapply IH; eauto.
    + eapply IH; eauto.
Qed.

(** C43.  Hence, when every field is mapped to one target and targets are
    distinct, every target starts with its field's default. *)
Theorem C43_single_targets_initialised : forall (ms : list mapping) w inst dest w' m c v,
  (forall m', In m' ms -> exists c', m_targets m' = [c']) -> NoDup (map (fun m => m_targets m) ms) ->
  instantiate w inst dest ms = Ok w' ->
  In m ms -> m_targets m = [c] -> m_default m = Some v ->
  kind_of c = KField -> resolves c = true -> (forall x u, coerce x u <> Exc AttributeError) ->
  exists u, coerce c v = Ok u /\ store (w_store w') c = Some u.
Proof.
  intros ms w inst dest w' m c v S ND H I Em Ed K R NA.
  apply in_split in I as (ms1 & ms2 & ->).
  eapply (C43_last_target_initialised ms1 m ms2 w inst dest w' [] c v); eauto.
  - intros m' I'. destruct (S m' I') as (c' & ->). discriminate.
  - intros m' I' (ts & v' & Et & _).
    destruct (S m') as (c' & Ec'); [apply in_or_app; right; right; exact I'|].
    assert (m_targets m' = m_targets m).
    { rewrite Ec' in Et. destruct ts as [|x ts]; [cbn in Et; congruence|]. destruct ts; discriminate. }
    rewrite map_app in ND. cbn in ND. apply NoDup_remove_2 in ND. apply ND.
    rewrite <- H0. apply in_or_app. right. apply in_map_iff. exists m'. auto.
Qed.

(** C43 (refuted).  A field with two targets: the first one keeps the template's
    value whatever the default is. *)
Theorem C43_every_target_initialised_refuted : forall w inst f v a b w',
  a <> b -> instantiate w inst None [{| m_field := f; m_default := Some v; m_targets := [a; b] |}] = Ok w' ->
  store (w_store w') a = store (w_store w) a.
Proof.
  intros w inst f v a b w' N H.
  eapply (C43_only_last_targets_change _ w inst None w' a); [|exact H|].
  - intros m [<-|[]]. discriminate.
  - intros m [<-|[]] (ts & v' & Et & _). cbn in Et. destruct ts as [|x [|y ts]]; try discriminate.
    + injection Et. congruence.
    + destruct ts; discriminate.
Qed.

(** every mapping becomes IS links of the instance *)
Theorem C43_every_target_linked : forall (ms : list mapping) w inst dest w' m c,
  instantiate w inst dest ms = Ok w' -> In m ms -> In c (m_targets m) ->
  In (LIS (inst, m_field m) c) (w_links w') .
Proof.
  assert (Keep : forall (ms : list mapping) w inst dest w' x, instantiate w inst dest ms = Ok w' ->
            In x (w_links w) -> In x (w_links w')).
  { induction ms as [|m ms IH]; intros w inst dest w' x H I; cbn in H; [injection H as <-; exact I|].
    destruct (m_default m) as [v|].
    - destruct (match rev (m_targets m) with c :: _ => Some c | [] => dest end) as [d|]; [|discriminate].
      destruct (push _ _ _ _ _ _) as [s|]; [|discriminate].
      eapply IH; [exact H|]. cbn. apply in_or_app. auto.
    - eapply IH; [exact H|]. cbn. apply in_or_app. auto. }
  induction ms as [|m0 ms IH]; intros w inst dest w' m c H I Ic; [destruct I|]. cbn in H.
  assert (L : m0 = m -> In (LIS (inst, m_field m) c) (w_links w ++ map (LIS (inst, m_field m0)) (m_targets m0))).
  { intros ->. apply in_or_app. right. apply in_map. exact Ic. }
  destruct (m_default m0) as [v|].
  - destruct (match rev (m_targets m0) with c :: _ => Some c | [] => dest end) as [d|]; [|discriminate].
    destruct (push _ _ _ _ _ _) as [s|]; [|discriminate].
    destruct I as [->|I]; [eapply Keep; [exact H|]; cbn; auto|eapply IH; eauto].
  - destruct I as [->|I]; [eapply Keep; [exact H|]; cbn; auto|eapply IH; eauto].
Qed.
Lemma links_kept : forall (ms : list mapping) w inst dest w' x, instantiate w inst dest ms = Ok w' ->
            In x (w_links w) -> In x (w_links w').
Proof.
  induction ms as [|m ms IH]; intros w inst dest w' x H I; cbn in H; [injection H as <-; exact I|].
  destruct (m_default m) as [v|].
  - destruct (match rev (m_targets m) with c :: _ => Some c | [] => dest end) as [d|]; [|discriminate].
    destruct (push _ _ _ _ _ _) as [s|]; [|discriminate].
    eapply IH; [exact H|]. cbn. apply in_or_app. auto.
  - eapply IH; [exact H|]. cbn. apply in_or_app. auto.
Qed.

Variable deflt : cell -> res V.
Variable none : V.

(** C61 (refuted, for every prototype).  Two instances a and b of a prototype
    with a mapped field f: setting a.f sets b.f, and the implementation they
    share. *)
Theorem C61_instances_independent_refuted : forall (ms : list mapping) a b w w1 w2 m d v fuel,
  instantiate w a None ms = Ok w1 -> instantiate w1 b None ms = Ok w2 -> a <> b ->
  In m ms -> In d (m_targets m) ->
  proper (w_links w2) -> (forall x, kind_of x = KField) ->
  coerce (a, m_field m) v = Ok v ->
  (forall x, downstream (w_links w2) (a, m_field m) x -> coerce x v = Ok v) ->
  length (connections (w_links w2)) < fuel ->
  exists s' vis', user_set kind_of coerce deflt none (connections (w_links w2)) fuel (w_store w2) (a, m_field m) v = Done s' vis' /\
    store s' (a, m_field m) = Some v /\ store s' d = Some v /\ store s' (b, m_field m) = Some v.
Proof.
  intros ms a b w w1 w2 m d v fuel H1 H2 N Im Id P K C A L.
  destruct (C33_same_value_everywhere kind_of coerce deflt none (w_links w2) (w_store w2) (a, m_field m) v fuel P K C A L)
    as (s' & vis' & E & S).
  exists s', vis'. split; [exact E|].
  assert (La : In (LIS (a, m_field m) d) (w_links w2)) by (eapply links_kept; [exact H2|]; eapply C43_every_target_linked; eauto).
  assert (Lb : In (LIS (b, m_field m) d) (w_links w2)) by (eapply C43_every_target_linked; eauto).
  assert (D1 : downstream (w_links w2) (a, m_field m) d) by (apply t_step; right; left; exact La).
  assert (D2 : downstream (w_links w2) (a, m_field m) (b, m_field m)).
  { eapply t_trans; [exact D1|]. apply t_step. right. right. exact Lb. }
  split; [|split]; apply S; auto.
Qed.
(** C61 (refuted).  Merely creating another instance puts the shared
    implementation back to the default, behind the back of the first. *)
Theorem C61_new_instance_resets_refuted : forall f g v0 u0 (d : cell) a b w v w1,
  d <> (a, f) -> kind_of d = KField -> resolves d = true -> coerce d v0 = Ok u0 ->
  store (w_store w) (a, f) = Some v -> store (w_store w) d = Some v ->
  w_links w = [LIS (a, f) d] -> g = f ->
  instantiate w b None [{| m_field := g; m_default := Some v0; m_targets := [d] |}] = Ok w1 ->
  store (w_store w1) d = Some u0 /\ store (w_store w1) (a, f) = Some v.
Proof.
  intros f g v0 u0 d a b w v w1 N K R C Sa Sd Lk -> H. cbn in H. unfold push in H. rewrite R, K, C in H.
  injection H as <-. cbn. rewrite cell_eqb_refl, (cell_eqb_neq (a, f) d) by congruence. auto.
Qed.
End Claims.
Print Assumptions C43_only_last_targets_change.
Print Assumptions C43_last_target_initialised.
Print Assumptions C43_single_targets_initialised.
Print Assumptions C43_every_target_initialised_refuted.
Print Assumptions C43_every_target_linked.
Print Assumptions C61_instances_independent_refuted.
Print Assumptions C61_new_instance_resets_refuted.

(** PROTO with a field 0 (default 7) IS (9,1) and a field 2 (default 8) IS both
    (9,3) and (9,4); instances are nodes 1 and 2. *)
Definition ex_ms : list (Instantiate_Model.mapping nat) :=
  [{| m_field := 0; m_default := Some 7; m_targets := [(9, 1)] |};
   {| m_field := 2; m_default := Some 8; m_targets := [(9, 3); (9, 4)] |}].
Definition ex_w : Instantiate_Model.world nat := {| w_store := {| store := fun _ => None; trace := [] |}; w_links := [] |}.
Definition ex_inst w n := Instantiate_Model.instantiate (fun _ => KField) (fun _ v => Ok v) (fun _ => true) w n None ex_ms.
Example C43_C61_nonvacuous : exists w1 w2,
  ex_inst ex_w 1 = Ok w1 /\ ex_inst w1 2 = Ok w2 /\
  store (w_store w1) (9, 1) = Some 7 /\ store (w_store w1) (9, 3) = None /\ store (w_store w1) (9, 4) = Some 8 /\
  proper (w_links w2) /\
  match user_set (fun _ => KField) (fun _ v => Ok v) (fun _ => Ok 0) 0 (connections (w_links w2)) 20 (w_store w2) (1, 0) 5 with
  | Done s' _ => store s' (2, 0) = Some 5
  | _ => False
  end.
Proof.
  eexists. eexists. split; [reflexivity|]. split; [reflexivity|].
  repeat (split; [reflexivity|]). split; [|vm_compute; reflexivity].
  intros x y I. cbn in I. repeat (destruct I as [I|I]; [injection I as <- <-; cbn; lia|]). destruct I.
Qed.
