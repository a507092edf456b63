From Verif Require Import Base PyDict PyDict_Proofs Cache_Model Cache_Proofs PathMatrix_Model.

Lemma flags_eqb_spec a b : flags_eqb a b = true <-> a = b.
Proof.
  unfold flags_eqb. rewrite !andb_true_iff, !Bool.eqb_true_iff. destruct a, b; cbn. split.
  - intros [[-> ->] ->]. reflexivity.
  - intros [= -> -> ->]. auto.
Qed.
Lemma ckey_eqb_spec a b : ckey_eqb a b = true <-> a = b.
Proof.
  destruct a, b; cbn; try (split; congruence).
  - rewrite flags_eqb_spec. split; congruence.
  - rewrite andb_true_iff, flags_eqb_spec, Bool.eqb_true_iff. split; [intros [-> ->]; reflexivity|intros [= -> ->]; auto].
  - rewrite Nat.eqb_eq. split; congruence.
Qed.

Lemma triple_inj {A B C} (a a' : A) (b b' : B) (c c' : C) : (a, b, c) = (a', b', c') -> a = a' /\ b = b' /\ c = c'.
Proof. intros H. split; [congruence|split; congruence]. Qed.

Section Generic.
Context {K D : Type}.
Variable keqb : K -> K -> bool.
Hypothesis keqb_spec : forall a b, keqb a b = true <-> a = b.
Variable truthy : nat -> bool.
Lemma hold_step_none (s : Cache_Model.state K D) o h : hold s h = None ->
  (hold (step keqb truthy s o) h = None) \/
  (exists c k a d, o = NewHolder c k a d /\ h = next s /\ live s c = true /\
     hold (step keqb truthy s o) h = Some {| h_client := c; h_key := k; h_data := d; h_sigs := []; h_objs := [] |}).
Proof.
  intros E. assert (FR : forall s', frame keqb s s' -> hold s' h = None) by (intros s' F; apply (f_none _ _ _ F), E).
  destruct o as [a|c k a d|h' d|h' n f|h' n|n f|h'|h'|o]; cbn.
  - left. destruct (free_addr s a); exact E.
  - destruct (live s c) eqn:L; [|left; exact E]. destruct (free_addr s a); [|left; exact E]. cbn.
    destruct (Nat.eq_dec h (next s)) as [->|Ne].
    + right. exists c, k, a, d. rewrite upd_same. auto.
    + left. rewrite upd_other by exact Ne. exact E.
  - left. destruct (hold s h') as [y|] eqn:E'; [|exact E]. destruct (live s h'); [|exact E]. cbn.
    rewrite upd_other by congruence. exact E.
  - left. destruct (hold s h') as [y|] eqn:E'; [|exact E]. destruct (live s h' && live s n); [|exact E]. cbn.
    rewrite upd_other by congruence. exact E.
  - left. destruct (hold s h') as [y|] eqn:E'; [|exact E]. destruct (live s h' && live s n); [|exact E]. cbn.
    rewrite upd_other by congruence. exact E.
  - left. destruct (live s n); [|exact E]. apply FR, notify_frame, keqb_spec.
  - left. destruct (is_holder s h'); [|exact E]. apply FR, clear_frame, keqb_spec.
  - left. destruct (is_holder s h'); [|exact E]. apply FR, call_frame, keqb_spec.
  - left. destruct (live s o && negb (in_cache keqb s o)); [|exact E].
    rewrite collect_eq. apply (f_none keqb (collect1 s o)); [apply fold_frame, call_frame, keqb_spec|].
    rewrite (proj1 (proj2 (proj2 (proj2 (collect1_proj s o))))). exact E.
Qed.
End Generic.

Section PM.
Context {V M : Type}.
Variable localM : option (option V) -> option (option V) -> option (option V) ->
                  option (option V) -> option (option V) -> option M * option M.
Variable compress : list (option M) -> option M.
Variable ident : M.
Variable path_of : nat -> option (list nat).
Variable pick : Cache_Model.state ckey (cdata M) -> nat.
Variable dflt : nat -> V.
Notation cstate := (Cache_Model.state ckey (cdata M)).
Notation truthy := (truthy path_of).
Notation cstep := (cstep path_of).
Notation local_compute := (local_compute localM).
Notation fresh_matrix := (fresh_matrix localM compress ident path_of).
Notation localMatrices := (localMatrices localM path_of pick).
Notation transformMatrix := (transformMatrix localM compress ident path_of pick).
Notation get_mats := (get_mats localM path_of pick).
Notation hstep := (hstep localM compress ident path_of pick dflt).
Notation hrun := (hrun localM compress ident path_of pick dflt).
Notation inv := (inv ckey_eqb).

Hypothesis pick_free : forall c : cstate, inv c -> free_addr c (pick c) = true.
Definition filled (f : nat) (a : option (option V)) : option (option V) :=
  match a with Some None => Some (Some (dflt f)) | _ => a end.
(** an unset field and one holding its default give the same matrices *)
Hypothesis localM_default : forall t c r s so,
  localM (filled f_translation t) (filled f_center c) (filled f_rotation r)
         (filled f_scale s) (filled f_scaleOrientation so) = localM t c r s so.

Variable nc : bool.            (* no change of a center field ever happens *)
Definition okfl (fl : flags) : bool := nc || fl_r fl || negb (fl_s fl).

Definition nodes_of (p : nat) : list nat := match path_of p with Some l => l | None => [] end.
Definition good (v : nat -> nat -> option V) (x : holder ckey (cdata M)) : Prop :=
  match h_key x with
  | KLocal fl =>
      (forall f, In f (local_fields fl) -> In (h_client x, f) (h_sigs x)) /\
      (h_data x = None \/ h_data x = Some (DLocal (local_compute fl (v (h_client x)))))
  | KPath i fl => okfl fl = true ->
      (forall n f, In n (nodes_of (h_client x)) -> In f (path_fields fl) -> In (n, f) (h_sigs x)) /\
      (h_data x = None \/ h_data x = Some (DPath (fresh_matrix v (h_client x) fl i)))
  | KOther _ => True
  end.
Definition FI (ex : option nat) (c : cstate) (v : nat -> nat -> option V) : Prop :=
  inv c /\ forall h x, live c h = true -> hold c h = Some x -> live c (h_client x) = true ->
    Some h <> ex -> good v x.

Lemma good_mono v x x' : good v x -> h_client x' = h_client x -> h_key x' = h_key x ->
  incl (h_sigs x) (h_sigs x') -> (h_data x' = h_data x \/ h_data x' = None) -> good v x'.
Proof.
  unfold good. intros G C Kx S Dt. rewrite Kx. destruct (h_key x) as [fl|i fl|n]; [| |exact I].
  - destruct G as [G1 G2]. rewrite C. split; [intros f If; apply S, G1, If|].
    destruct Dt as [->|]; [exact G2|auto].
  - intros Ok. destruct (G Ok) as [G1 G2]. rewrite C. split; [intros n f In1 In2; apply S, G1; assumption|].
    destruct Dt as [->|]; [exact G2|auto].
Qed.

Lemma FI_step ex c v o : FI ex c v ->
  (forall h d, o <> SetData h d) ->
  (forall c' k a d, o = NewHolder c' k a d -> (exists n, k = KOther n) \/ ex = Some (next c)) ->
  FI ex (cstep c o) v.
Proof.
  intros [I G] NS NH. split; [apply step_inv; [exact ckey_eqb_spec|exact I]|].
  intros h x' L E Lc Nx. destruct (hold c h) as [x|] eqn:E0.
  - destruct (hold_step ckey_eqb ckey_eqb_spec truthy c o h x I E0) as (x2 & E2 & C2 & K2 & S2 & D2).
    change (step ckey_eqb truthy c o) with (cstep c o) in E2. rewrite E in E2. injection E2 as <-.
    pose proof (i_hold _ _ I h x E0) as [Hn Cn].
    assert (Lh : live c h = true) by (eapply live_step; [exact ckey_eqb_spec|exact I|exact L|exact Hn]).
    assert (Lx : live c (h_client x) = true).
    { rewrite C2 in Lc. eapply live_step; [exact ckey_eqb_spec|exact I|exact Lc|exact Cn]. }
    specialize (D2 Lh). eapply good_mono; [apply (G h x); eassumption|assumption|assumption|assumption|].
    destruct o; cbn in D2; try exact D2. exfalso. eapply NS. reflexivity.
  - destruct (hold_step_none ckey_eqb ckey_eqb_spec truthy c o h E0) as [N|(c' & k & a & d & -> & -> & _ & E2)].
    + unfold PathMatrix_Model.cstep in E. congruence.
    + change (step ckey_eqb truthy c (NewHolder c' k a d)) with (cstep c (NewHolder c' k a d)) in E2.
      rewrite E in E2. injection E2 as ->.
      destruct (NH c' k a d eq_refl) as [[n ->]|X]; [exact Logic.I|congruence].
Qed.
Lemma FI_weaken ex c v : FI None c v -> FI ex c v.
Proof. intros [I G]. split; [exact I|]. intros h x L E Lc _. apply (G h x); auto. discriminate. Qed.

(** what the library's own cache steps preserve *)
Record ext (c c' : cstate) : Prop := {
  e_next : next c <= next c';
  e_live : forall o, live c o = true -> live c' o = true;
  e_hold : forall h x, live c h = true -> hold c h = Some x -> exists x', hold c' h = Some x' /\ h_client x' = h_client x /\
     h_key x' = h_key x /\ incl (h_sigs x) (h_sigs x');
  e_get : forall o k h, live c o = true -> getHolder ckey_eqb c o k = Some h -> getHolder ckey_eqb c' o k = Some h
}.
Lemma ext_refl c : ext c c.
Proof. split; auto. intros h x _ E. exists x. repeat split; auto. intros z I. exact I. Qed.
Lemma ext_trans c c1 c2 : ext c c1 -> ext c1 c2 -> ext c c2.
Proof.
  intros [A1 A2 A3 A4] [B1 B2 B3 B4]. split.
  - lia.
  - auto.
  - intros h x L E. destruct (A3 h x L E) as (x1 & E1 & C1 & K1 & S1).
    destruct (B3 h x1 (A2 h L) E1) as (x2 & E2 & C2 & K2 & S2).
    exists x2. repeat split; try congruence. intros z I. apply S2, S1, I.
  - auto.
Qed.

Definition mild (c : cstate) (o : op ckey (cdata M)) : Prop :=
  match o with
  | SetData _ _ | Depend _ _ _ | DependObj _ _ => True
  | NewHolder n k a d => getHolder ckey_eqb c n k = None
  | _ => False
  end.
Lemma mild_ext c o : inv c -> mild c o -> ext c (cstep c o).
Proof.
  intros I Mo. pose proof (fun h x => hold_step ckey_eqb ckey_eqb_spec truthy c o h x I) as HS.
  assert (EH : forall h x, live c h = true -> hold c h = Some x -> exists x', hold (cstep c o) h = Some x' /\ h_client x' = h_client x /\
     h_key x' = h_key x /\ incl (h_sigs x) (h_sigs x')).
  { intros h x _ E. destruct (HS h x E) as (x' & E' & C & Kx & S & _). exists x'. auto. }
  split; [apply next_step; exact ckey_eqb_spec| |exact EH|];
    destruct o as [a|n k a d|h' d|h' n f|h' n|n f|h'|h'|o']; try (destruct Mo; fail); cbn in *.
  - intros o L. destruct (live c n && free_addr c a); [|exact L]. cbn. pose proof (i_live _ _ I o L).
    rewrite upd_other by lia. exact L.
  - intros o L. destruct (hold c h'); [|exact L]. destruct (live c h'); exact L.
  - intros o L. destruct (hold c h'); [|exact L]. destruct (live c h' && live c n); exact L.
  - intros o L. destruct (hold c h'); [|exact L]. destruct (live c h' && live c n); exact L.
  - intros o k' h L G. destruct (live c n) eqn:Ln; [|exact G]. destruct (free_addr c a) eqn:Fa; [|exact G]. cbn.
    pose proof (i_live _ _ I o L) as On. pose proof (i_live _ _ I n Ln) as Nn.
    unfold getHolder in *. cbn. rewrite (upd_other _ _ _ o) by lia. rewrite (upd_other (addr c) _ _ n) by lia.
    destruct (Nat.eq_dec (addr c o) (addr c n)) as [Ea|Ea].
    + assert (o = n) by (apply (i_addr _ _ I); assumption). subst o. rewrite upd_same.
      destruct (cache c (addr c n)) as [cur|] eqn:Ec; [|discriminate].
      rewrite dget_dset_other; [exact G|exact ckey_eqb_spec|]. intros ->. congruence.
    + rewrite upd_other by exact Ea. exact G.
  - intros o k h L G. destruct (hold c h'); [|exact G]. destruct (live c h'); exact G.
  - intros o k h L G. destruct (hold c h'); [|exact G]. destruct (live c h' && live c n); exact G.
  - intros o k h L G. destruct (hold c h'); [|exact G]. destruct (live c h' && live c n); exact G.
Qed.

Lemma depend_all_spec fs : forall ex c v h n x, FI ex c v -> live c h = true -> live c n = true -> hold c h = Some x ->
  let c' := depend_all path_of c h n fs in
  FI ex c' v /\ ext c c' /\ exists x', hold c' h = Some x' /\ h_client x' = h_client x /\ h_key x' = h_key x /\
     h_data x' = h_data x /\ incl (h_sigs x) (h_sigs x') /\ forall f, In f fs -> In (n, f) (h_sigs x').
Proof.
  induction fs as [|f fs IH]; intros ex c v h n x F L Ln E; cbn zeta.
  - split; [exact F|]. split; [apply ext_refl|]. exists x. repeat split; auto; [intros z I; exact I|intros f []].
  - cbn [depend_all fold_left]. set (c1 := cstep c (Depend h n f)).
    assert (F1 : FI ex c1 v) by (apply FI_step; [exact F|discriminate|discriminate]).
    pose proof (mild_ext c (Depend h n f) (proj1 F) Logic.I) as X1.
    assert (E1 : hold c1 h = Some {| h_client := h_client x; h_key := h_key x; h_data := h_data x;
                          h_sigs := h_sigs x ++ [(n, f)]; h_objs := h_objs x |}).
    { unfold c1, PathMatrix_Model.cstep. cbn. rewrite E, L, Ln. cbn. apply upd_same. }
    destruct (IH ex c1 v h n _ F1 (e_live _ _ X1 _ L) (e_live _ _ X1 _ Ln) E1) as (F2 & X2 & x' & E' & C' & K' & D' & S' & Fs').
    split; [exact F2|]. split; [eapply ext_trans; eassumption|]. exists x'. cbn in *.
    repeat split; auto.
    + intros z I. apply S', in_or_app. auto.
    + intros g [<-|I]; [apply S', in_or_app; right; left; reflexivity|apply Fs', I].
Qed.

Lemma setdata_spec ex c v h x d : FI ex c v -> live c h = true -> hold c h = Some x ->
  good v (with_data x (Some d)) -> (ex = None \/ ex = Some h) ->
  let c' := cstep c (SetData h (Some d)) in FI None c' v /\ ext c c'.
Proof.
  intros [I G] L E Gd Ex. cbn zeta. split; [|apply mild_ext; [exact I|exact Logic.I]].
  split; [apply step_inv; [exact ckey_eqb_spec|exact I]|].
  unfold PathMatrix_Model.cstep. cbn. rewrite E, L. cbn. intros h2 x2 L2 E2 Lc2 _.
  destruct (Nat.eq_dec h2 h) as [->|Ne].
  - rewrite upd_same in E2. injection E2 as <-. exact Gd.
  - rewrite upd_other in E2 by exact Ne. apply (G h2 x2); auto. destruct Ex as [->| ->]; congruence.
Qed.
(** same, keeping a different exempt holder *)
Lemma setdata_spec_ex ex c v h x d : FI ex c v -> live c h = true -> hold c h = Some x ->
  good v (with_data x (Some d)) ->
  let c' := cstep c (SetData h (Some d)) in FI ex c' v /\ ext c c'.
Proof.
  intros [I G] L E Gd. cbn zeta. split; [|apply mild_ext; [exact I|exact Logic.I]].
  split; [apply step_inv; [exact ckey_eqb_spec|exact I]|].
  unfold PathMatrix_Model.cstep. cbn. rewrite E, L. cbn. intros h2 x2 L2 E2 Lc2 Nx.
  destruct (Nat.eq_dec h2 h) as [->|Ne].
  - rewrite upd_same in E2. injection E2 as <-. exact Gd.
  - rewrite upd_other in E2 by exact Ne. apply (G h2 x2); auto.
Qed.

Lemma newholder_spec c v n k : FI None c v -> live c n = true -> getHolder ckey_eqb c n k = None ->
  let c' := cstep c (NewHolder n k (pick c) None) in
  FI (Some (next c)) c' v /\ ext c c' /\ live c' (next c) = true /\
  hold c' (next c) = Some {| h_client := n; h_key := k; h_data := None; h_sigs := []; h_objs := [] |} /\
  getHolder ckey_eqb c' n k = Some (next c).
Proof.
  intros F L G. pose proof (proj1 F) as I. pose proof (pick_free c I) as Pf. cbn zeta.
  split; [apply FI_step; [apply FI_weaken, F|discriminate|intros; right; reflexivity]|].
  split; [apply mild_ext; [exact I|exact G]|].
  pose proof (i_live _ _ I n L) as Nn.
  unfold PathMatrix_Model.cstep, getHolder. cbn. rewrite L, Pf. cbn. rewrite !upd_same, (upd_other _ _ _ n) by lia.
  repeat split. try rewrite upd_same. rewrite dget_dset_same; [reflexivity|exact ckey_eqb_spec].
Qed.

(** while holder [ex] is being filled in, its record is tracked by the caller;
    other holders may be created and completed *)
Lemma newholder_spec_ex ex c v n k : FI ex c v -> live c n = true -> getHolder ckey_eqb c n k = None ->
  (forall e, ex = Some e -> e < next c) ->
  let c' := cstep c (NewHolder n k (pick c) None) in
  inv c' /\ ext c c' /\ live c' (next c) = true /\
  hold c' (next c) = Some {| h_client := n; h_key := k; h_data := None; h_sigs := []; h_objs := [] |} /\
  (forall h x, live c' h = true -> hold c' h = Some x -> live c' (h_client x) = true -> h <> next c -> Some h <> ex -> good v x).
Proof.
  intros [I G0] L G Hx. pose proof (pick_free c I) as Pf. cbn zeta.
  split; [apply step_inv; [exact ckey_eqb_spec|exact I]|].
  split; [apply mild_ext; [exact I|exact G]|].
  pose proof (i_live _ _ I n L) as Nn.
  unfold PathMatrix_Model.cstep, getHolder. cbn. rewrite L, Pf. cbn. rewrite !upd_same.
  repeat split. intros h x Lh E Lc Nh Ne. rewrite upd_other in Lh by exact Nh. rewrite upd_other in E by exact Nh.
  pose proof (i_hold _ _ I h x E). rewrite upd_other in Lc by lia. apply (G0 h x); assumption.
Qed.

Lemma good_local_fields n fl v x : h_key x = KLocal fl -> h_client x = n ->
  (forall f, In f (local_fields fl) -> In (n, f) (h_sigs x)) ->
  good v (with_data x (Some (DLocal (local_compute fl (v n))))).
Proof. intros Kx C S. unfold good. cbn. rewrite Kx, C. split; [exact S|auto]. Qed.

Lemma localMatrices_spec ex st n fl st' h d : FI ex (cs st) (vals st) -> live (cs st) n = true ->
  (forall e, ex = Some e -> e < next (cs st) /\
     exists x, hold (cs st) e = Some x /\ forall fl', h_key x <> KLocal fl') ->
  localMatrices st n fl = (st', h, d) ->
  FI ex (cs st') (vals st') /\ vals st' = vals st /\ ext (cs st) (cs st') /\ live (cs st') h = true /\
  d = local_compute fl (vals st n) /\
  (forall e x, ex = Some e -> hold (cs st) e = Some x -> hold (cs st') e = Some x).
Proof.
  intros F L Hx. unfold PathMatrix_Model.localMatrices.
  destruct (getHolder ckey_eqb (cs st) n (KLocal fl)) as [h0|] eqn:G.
  - pose proof (proj1 F) as I.
    destruct (entry_belongs ckey_eqb _ n _ h0 I L G) as (x & Ex & Cx & Kx).
    assert (Lh : live (cs st) h0 = true).
    { unfold getHolder in G. destruct (cache (cs st) (addr (cs st) n)) as [cur|] eqn:Ec; [|discriminate].
      apply (i_entry _ _ I _ _ _ _ Ec G). }
    assert (Nex : Some h0 <> ex).
    { intros <-. destruct (Hx h0 eq_refl) as (_ & y & Ey & Ny). rewrite Ex in Ey. injection Ey as <-. apply (Ny fl Kx). }
    pose proof (proj2 F h0 x Lh Ex (eq_trans (f_equal _ Cx) L) Nex) as Gx. pose proof Gx as Gx'.
    unfold good in Gx. rewrite Kx, Cx in Gx. destruct Gx as [Gs Gd].
    unfold data_of. rewrite Ex. destruct Gd as [Gd|Gd]; rewrite Gd.
    + intros HT; apply triple_inj in HT; destruct HT as (<- & <- & <-). cbn [cs vals with_cs].
      destruct (setdata_spec_ex ex (cs st) (vals st) h0 x (DLocal (local_compute fl (vals st n))) F Lh Ex) as [F' X'].
      { apply good_local_fields; assumption. }
      split; [exact F'|]. split; [reflexivity|]. split; [exact X'|]. split; [apply (e_live _ _ X'), Lh|].
      split; [reflexivity|]. intros e y -> Ey. unfold PathMatrix_Model.cstep. cbn. rewrite Ex, Lh. cbn.
      rewrite upd_other by congruence. exact Ey.
    + intros HT; apply triple_inj in HT; destruct HT as (<- & <- & <-). split; [exact F|]. split; [reflexivity|]. split; [apply ext_refl|]. auto.
  - intros HT; apply triple_inj in HT; destruct HT as (<- & <- & <-). cbn [cs vals with_cs].
    destruct (newholder_spec_ex ex (cs st) (vals st) n (KLocal fl) F L G (fun e E => proj1 (Hx e E)))
      as (I1 & X1 & L1 & E1 & G1).
    set (c1 := cstep (cs st) (NewHolder n (KLocal fl) (pick (cs st)) None)) in *.
    set (h := next (cs st)) in *.
    (* dependencies added one by one on a holder outside the invariant *)
    assert (DA : forall fs c x, inv c -> live c h = true -> live c n = true -> hold c h = Some x ->
      (forall h' x', live c h' = true -> hold c h' = Some x' -> live c (h_client x') = true -> h' <> h -> Some h' <> ex -> good (vals st) x') ->
      let c' := depend_all path_of c h n fs in
      inv c' /\ ext c c' /\ (forall e, e <> h -> hold c' e = hold c e) /\
      (forall h' x', live c' h' = true -> hold c' h' = Some x' -> live c' (h_client x') = true -> h' <> h -> Some h' <> ex -> good (vals st) x') /\
      exists x', hold c' h = Some x' /\ h_client x' = h_client x /\ h_key x' = h_key x /\
        incl (h_sigs x) (h_sigs x') /\ forall f, In f fs -> In (n, f) (h_sigs x')).
    { clear. induction fs as [|f fs IH]; intros c x I L Ln E G; cbn zeta.
      - split; [exact I|]. split; [apply ext_refl|]. split; [auto|]. split; [exact G|].
        exists x. repeat split; auto; [intros z Iz; exact Iz|intros f []].
      - cbn [depend_all fold_left]. set (c1 := cstep c (Depend h n f)).
        assert (E1 : c1 = set_hold c h {| h_client := h_client x; h_key := h_key x; h_data := h_data x;
                          h_sigs := h_sigs x ++ [(n, f)]; h_objs := h_objs x |}).
        { unfold c1, PathMatrix_Model.cstep. cbn. rewrite E, L, Ln. reflexivity. }
        pose proof (mild_ext c (Depend h n f) I Logic.I) as X1. fold c1 in X1.
        assert (I1 : inv c1) by (apply step_inv; [exact ckey_eqb_spec|exact I]).
        assert (H1 : hold c1 h = Some {| h_client := h_client x; h_key := h_key x; h_data := h_data x;
                          h_sigs := h_sigs x ++ [(n, f)]; h_objs := h_objs x |}) by (rewrite E1; apply upd_same).
        destruct (IH c1 _ I1 (e_live _ _ X1 _ L) (e_live _ _ X1 _ Ln) H1) as (I2 & X2 & O2 & G2 & x' & E' & C' & K' & S' & Fs').
        { intros h' x' L' E' Lc' Nh Ne. rewrite E1 in L', E', Lc'. cbn in *. rewrite upd_other in E' by exact Nh.
          apply (G h' x'); assumption. }
        split; [exact I2|]. split; [eapply ext_trans; eassumption|]. split.
        { intros e Ne. change (fold_left _ fs c1) with (depend_all path_of c1 h n fs). rewrite (O2 e Ne), E1. cbn. apply upd_other, Ne. }
        split; [exact G2|]. exists x'. cbn in *. repeat split; auto.
        + intros z Iz. apply S', in_or_app. auto.
        + intros g [<-|Ig]; [apply S', in_or_app; right; left; reflexivity|apply Fs', Ig]. }
    pose proof (e_live _ _ X1 _ L) as Ln1.
    destruct (DA (local_fields fl) c1 _ I1 L1 Ln1 E1 G1) as (I2 & X2 & O2 & G2 & x2 & E2 & C2 & K2 & _ & S2).
    set (c2 := depend_all path_of c1 h n (local_fields fl)) in *. cbn in C2, K2.
    pose proof (e_live _ _ X2 _ L1) as L2.
    pose proof (mild_ext c2 (SetData h (Some (DLocal (local_compute fl (vals st n))))) I2 Logic.I) as X3.
    assert (E3 : cstep c2 (SetData h (Some (DLocal (local_compute fl (vals st n))))) =
                 set_hold c2 h (with_data x2 (Some (DLocal (local_compute fl (vals st n))))))
      by (unfold PathMatrix_Model.cstep; cbn; rewrite E2, L2; reflexivity).
    split.
    + split; [apply step_inv; [exact ckey_eqb_spec|exact I2]|]. rewrite E3. cbn. intros h' x' L' E' Lc' Ne.
      destruct (Nat.eq_dec h' h) as [->|Nh].
      * rewrite upd_same in E'. injection E' as <-. apply good_local_fields; auto.
      * rewrite upd_other in E' by exact Nh. apply (G2 h' x'); assumption.
    + split; [reflexivity|]. split; [eapply ext_trans; [exact X1|eapply ext_trans; eassumption]|].
      split; [apply (e_live _ _ X3), L2|]. split; [reflexivity|].
      intros e y -> Ey. destruct (Hx e eq_refl) as (En & _). fold h in En.
      rewrite E3. cbn. rewrite upd_other by lia. rewrite (O2 e) by lia. unfold c1, PathMatrix_Model.cstep. cbn.
      rewrite L, (pick_free _ (proj1 F)). cbn. rewrite upd_other by (fold h; lia). exact Ey.
Qed.

Lemma get_mats_spec fl i hp (dc : bool) : forall items (st st' : state V M) ms p x,
  FI (if dc then Some hp else None) (cs st) (vals st) -> live (cs st) hp = true -> hold (cs st) hp = Some x ->
  h_key x = KPath i fl -> h_client x = p ->
  (forall n, In n items -> live (cs st) n = true) ->
  get_mats st hp dc i fl items = (st', ms) ->
  FI (if dc then Some hp else None) (cs st') (vals st') /\ vals st' = vals st /\ ext (cs st) (cs st') /\
  ms = map (fun n => side i (local_compute fl (vals st n))) items /\
  exists x', hold (cs st') hp = Some x' /\ h_key x' = KPath i fl /\ h_client x' = p /\ incl (h_sigs x) (h_sigs x') /\
    (dc = true -> forall n f, In n items -> In f (path_fields fl) -> In (n, f) (h_sigs x')).
Proof.
  induction items as [|n items IH]; intros st st' ms p x F L E Kx Cx Li; cbn [PathMatrix_Model.get_mats].
  - intros [= <- <-]. split; [exact F|]. split; [reflexivity|]. split; [apply ext_refl|]. split; [reflexivity|].
    exists x. repeat split; auto; [intros z Iz; exact Iz|intros _ n f []].
  - destruct (localMatrices st n fl) as [[st1 hc] fi] eqn:EL.
    assert (Ln : live (cs st) n = true) by (apply Li; left; reflexivity).
    assert (HX : forall e, (if dc then Some hp else None) = Some e -> e < next (cs st) /\
       exists x, hold (cs st) e = Some x /\ forall fl', h_key x <> KLocal fl').
    { intros e Ee. destruct dc; [|discriminate]. injection Ee as <-.
      split; [apply (i_hold _ _ (proj1 F) hp x E)|]. exists x. split; [exact E|]. intros fl' Hk. congruence. }
    destruct (localMatrices_spec _ _ _ _ _ _ _ F Ln HX EL) as (F1 & V1 & X1 & Lc1 & D1 & H1).
    assert (E1 : exists x1, hold (cs st1) hp = Some x1 /\ h_key x1 = KPath i fl /\ h_client x1 = p /\ incl (h_sigs x) (h_sigs x1)).
    { destruct (e_hold _ _ X1 hp x L E) as (x1 & Ex1 & C1 & K1 & S1). exists x1. repeat split; try congruence. exact S1. }
    destruct E1 as (x1 & E1 & K1 & C1 & S1).
    pose proof (e_live _ _ X1 _ L) as L1.
    set (st2 := if dc then with_cs st1 (depend_all path_of (cstep (cs st1) (DependObj hp hc)) hp n (path_fields fl)) else st1).
    assert (P2 : FI (if dc then Some hp else None) (cs st2) (vals st2) /\ vals st2 = vals st1 /\ ext (cs st1) (cs st2) /\
      exists x2, hold (cs st2) hp = Some x2 /\ h_key x2 = KPath i fl /\ h_client x2 = p /\ incl (h_sigs x1) (h_sigs x2) /\
        (dc = true -> forall f, In f (path_fields fl) -> In (n, f) (h_sigs x2))).
    { unfold st2. destruct dc.
      - assert (Fo : FI (Some hp) (cstep (cs st1) (DependObj hp hc)) (vals st1)) by (apply FI_step; [exact F1|discriminate|discriminate]).
        pose proof (mild_ext (cs st1) (DependObj hp hc) (proj1 F1) Logic.I) as Xo.
        assert (Eo : hold (cstep (cs st1) (DependObj hp hc)) hp = Some {| h_client := h_client x1; h_key := h_key x1;
            h_data := h_data x1; h_sigs := h_sigs x1; h_objs := h_objs x1 ++ [hc] |}).
        { unfold PathMatrix_Model.cstep. cbn. rewrite E1, L1, Lc1. cbn. apply upd_same. }
        destruct (depend_all_spec (path_fields fl) (Some hp) _ (vals st1) hp n _ Fo (e_live _ _ Xo _ L1)
                   (e_live _ _ Xo _ (e_live _ _ X1 _ Ln)) Eo) as (F2 & X2 & x2 & E2 & C2 & K2 & _ & S2 & N2).
        cbn in *. split; [exact F2|]. split; [reflexivity|]. split; [eapply ext_trans; eassumption|].
        exists x2. repeat split; try congruence; auto.
      - split; [exact F1|]. split; [reflexivity|]. split; [apply ext_refl|]. exists x1.
        repeat split; auto; [intros z Iz; exact Iz|discriminate]. }
    destruct P2 as (F2 & V2 & X2 & x2 & E2 & K2 & C2 & S2 & N2).
    pose proof (e_live _ _ X2 _ L1) as L2.
    destruct (get_mats st2 hp dc i fl items) as [st3 ms3] eqn:EG. intros [= <- <-].
    assert (LI2 : forall m, In m items -> live (cs st2) m = true).
    { intros m Im. apply (e_live _ _ X2), (e_live _ _ X1), Li. right. exact Im. }
    destruct (IH st2 st3 ms3 p x2 F2 L2 E2 K2 C2 LI2 EG) as (F3 & V3 & X3 & M3 & x3 & E3 & K3 & C3 & S3 & N3).
    split; [exact F3|]. split; [congruence|].
    split; [eapply ext_trans; [exact X1|eapply ext_trans; eassumption]|].
    split; [cbn; rewrite M3, D1, V2, V1; reflexivity|].
    exists x3. split; [exact E3|]. split; [exact K3|]. split; [exact C3|].
    split; [intros z Iz; apply S3, S2, S1, Iz|].
    intros Dc m f [<-|Im] If; [apply S3, N2; assumption|apply N3; assumption].
Qed.

Lemma all_live_spec (c : cstate) p : all_live path_of c p = true ->
  live c p = true /\ path_of p <> None /\ forall n, In n (nodes_of p) -> live c n = true.
Proof.
  unfold all_live, nodes_of. rewrite andb_true_iff. intros [L H]. split; [exact L|].
  destruct (path_of p) as [l|]; [|discriminate]. split; [discriminate|]. apply forallb_forall, H.
Qed.

Theorem transformMatrix_fresh (st : state V M) p fl i : FI None (cs st) (vals st) -> all_live path_of (cs st) p = true ->
  let r := transformMatrix st p fl i in
  FI None (cs (fst r)) (vals (fst r)) /\ vals (fst r) = vals st /\
  (okfl fl = true -> snd r = fresh_matrix (vals st) p fl i).
Proof.
  intros F AL. destruct (all_live_spec _ _ AL) as (L & _ & Ln). cbn zeta. unfold PathMatrix_Model.transformMatrix.
  change (match path_of p with Some l => l | None => [] end) with (nodes_of p).
  set (items := if i then rev (nodes_of p) else nodes_of p).
  assert (LI : forall n, In n items -> live (cs st) n = true).
  { intros n In1. apply Ln. unfold items in In1. destruct i; [apply in_rev in In1|]; exact In1. }
  assert (Inn : forall n, In n (nodes_of p) -> In n items).
  { intros n In1. unfold items. destruct i; [apply in_rev; rewrite rev_involutive|]; exact In1. }
  destruct (getHolder ckey_eqb (cs st) p (KPath i fl)) as [hp|] eqn:G.
  - destruct (entry_belongs ckey_eqb _ p _ hp (proj1 F) L G) as (x & Ex & Cx & Kx).
    assert (Lh : live (cs st) hp = true).
    { unfold getHolder in G. destruct (cache (cs st) (addr (cs st) p)) as [cur|] eqn:Ec; [|discriminate].
      apply (i_entry _ _ (proj1 F) _ _ _ _ Ec G). }
    pose proof (proj2 F hp x Lh Ex (eq_trans (f_equal _ Cx) L) ltac:(discriminate)) as Gx.
    unfold good in Gx. rewrite Kx, Cx in Gx.
    unfold data_of. rewrite Ex.
    assert (RE : let r := (let r0 := get_mats st hp false i fl items in
        (with_cs (fst r0) (cstep (cs (fst r0)) (SetData hp (Some (DPath (match compress (snd r0) with Some m => m | None => ident end))))),
         match compress (snd r0) with Some m => m | None => ident end)) in
      FI None (cs (fst r)) (vals (fst r)) /\ vals (fst r) = vals st /\ (okfl fl = true -> snd r = fresh_matrix (vals st) p fl i)).
    { cbn zeta. destruct (get_mats st hp false i fl items) as [st1 ms] eqn:EG.
      destruct (get_mats_spec fl i hp false items st st1 ms p x F Lh Ex Kx Cx LI EG) as (F1 & V1 & X1 & M1 & x1 & E1 & K1 & C1 & S1 & _).
      cbn [fst snd]. 
      assert (VM : match compress ms with Some m => m | None => ident end = fresh_matrix (vals st) p fl i)
        by (rewrite M1; reflexivity).
      rewrite VM. split; [|auto]. cbn [cs vals with_cs]. 
      apply (setdata_spec None (cs st1) (vals st1) hp x1 (DPath (fresh_matrix (vals st) p fl i))); auto.
      - apply (e_live _ _ X1), Lh.
      - unfold good. cbn. rewrite K1. intros Ok. destruct (Gx Ok) as [Gs _]. split.
        + rewrite C1. intros n f In1 If. apply S1, Gs; assumption.
        + right. rewrite C1, V1. reflexivity. }
    destruct (h_data x) as [[fi|m|o]|] eqn:Dx; try exact RE.
    cbn. split; [exact F|]. split; [reflexivity|]. intros Ok. destruct (Gx Ok) as [_ [Gd|Gd]]; congruence.
  - destruct (newholder_spec (cs st) (vals st) p (KPath i fl) F L G) as (F1 & X1 & L1 & E1 & _).
    set (hp := next (cs st)) in *.
    set (st1 := with_cs st (cstep (cs st) (NewHolder p (KPath i fl) (pick (cs st)) None))) in *.
    destruct (get_mats st1 hp true i fl items) as [st2 ms] eqn:EG.
    assert (LI1 : forall n, In n items -> live (cs st1) n = true) by (intros n In1; apply (e_live _ _ X1), LI, In1).
    destruct (get_mats_spec fl i hp true items st1 st2 ms p _ F1 L1 E1 eq_refl eq_refl LI1 EG)
      as (F2 & V2 & X2 & M2 & x2 & E2 & K2 & C2 & S2 & N2).
    cbn [fst snd].
    assert (VM : match compress ms with Some m => m | None => ident end = fresh_matrix (vals st) p fl i)
      by (rewrite M2; reflexivity).
    rewrite VM. split; [|split; [exact V2|auto]]. cbn [cs vals with_cs].
    apply (setdata_spec (Some hp) (cs st2) (vals st2) hp x2 (DPath (fresh_matrix (vals st) p fl i))); auto.
    + apply (e_live _ _ X2), L1.
    + unfold good. cbn. rewrite K2. intros Ok. split.
      * rewrite C2. intros n f In1 If. apply N2; auto.
      * right. rewrite C2, V2. reflexivity.
Qed.

(** values enter the matrices only through the fields selected by the flags *)
Lemma local_compute_ext fl v v' : (forall f, In f (local_fields fl) -> v f = v' f) -> local_compute fl v = local_compute fl v'.
Proof.
  intros H. unfold PathMatrix_Model.local_compute.
  assert (X : forall f, (if existsb (Nat.eqb f) (local_fields fl) then Some (v f) else None) =
                        (if existsb (Nat.eqb f) (local_fields fl) then Some (v' f) else None)).
  { intros f. destruct (existsb (Nat.eqb f) (local_fields fl)) eqn:E; [|reflexivity]. f_equal. apply H.
    apply existsb_exists in E. destruct E as (g & Ig & Eg). apply Nat.eqb_eq in Eg. subst. exact Ig. }
  rewrite !X. reflexivity.
Qed.
Lemma fresh_ext fl v v' p i : (forall n, In n (nodes_of p) -> local_compute fl (v n) = local_compute fl (v' n)) ->
  fresh_matrix v p fl i = fresh_matrix v' p fl i.
Proof.
  intros H. unfold PathMatrix_Model.fresh_matrix.
  change (match path_of p with Some l => l | None => [] end) with (nodes_of p).
  erewrite map_ext_in; [reflexivity|]. intros n In1. cbn. rewrite H; [reflexivity|].
  destruct i; [apply in_rev in In1|]; exact In1.
Qed.
Lemma path_fields_local fl f : okfl fl = true -> (nc = true -> f <> f_center) ->
  In f (local_fields fl) -> In f (path_fields fl).
Proof.
  unfold okfl, local_fields, path_fields. destruct nc, fl as [[] [] []]; cbn; intros Ok N I; try discriminate;
    decompose [or] I; subst; auto 10; try contradiction; exfalso; apply N; auto.
Qed.

Lemma FI_set c v n f y : FI None c v -> (nc = true -> f <> f_center) -> live c n = true ->
  FI None (cstep c (Notify n f)) (setval v n f y).
Proof.
  intros [I G] N L. split; [apply step_inv; [exact ckey_eqb_spec|exact I]|].
  intros h x' Lh E Lc _. unfold PathMatrix_Model.cstep in *. cbn in *. rewrite L in *.
  pose proof (notify_frame ckey_eqb ckey_eqb_spec truthy c n f) as FR.
  destruct (hold c h) as [x|] eqn:E0; [|rewrite (f_none _ _ _ FR h E0) in E; discriminate].
  destruct (f_some _ _ _ FR h x E0) as (x2 & E2 & C2 & K2 & S2 & D2 & _). rewrite E in E2. injection E2 as <-.
  rewrite (f_live _ _ _ FR) in Lh, Lc. rewrite C2 in Lc.
  pose proof (G h x Lh E0 Lc ltac:(discriminate)) as Gx.
  destruct (mem2 (n, f) (h_sigs x)) eqn:Ms.
  - apply mem2_In in Ms.
    destruct (notify_clears ckey_eqb ckey_eqb_spec truthy c n f h x I E0 Lh Lc Ms) as (x3 & E3 & D3).
    rewrite E in E3. injection E3 as <-. unfold good in *. rewrite K2, C2, S2, D3.
    destruct (h_key x); [|intros Ok; specialize (Gx Ok)|exact Logic.I]; (split; [apply Gx|auto]).
  - assert (NI : ~ In (n, f) (h_sigs x)) by (rewrite <- mem2_In; congruence).
    assert (LV : forall fl m, (In f (local_fields fl) -> m <> n) -> local_compute fl (v m) = local_compute fl (setval v n f y m)).
    { intros fl m H. apply local_compute_ext. intros g Ig. unfold setval.
      destruct (Nat.eqb m n) eqn:Em; [|reflexivity]. destruct (Nat.eqb g f) eqn:Eg; [|reflexivity].
      apply Nat.eqb_eq in Em, Eg. subst. exfalso. apply H; auto. }
    assert (G2 : good (setval v n f y) x).
    { unfold good in *. destruct (h_key x) as [fl|i fl|o]; [| |exact Logic.I].
      - destruct Gx as [Gs Gd]. split; [exact Gs|]. rewrite <- (LV fl (h_client x)); [exact Gd|].
        intros If Ec. apply NI. rewrite <- Ec. apply Gs, If.
      - intros Ok. destruct (Gx Ok) as [Gs Gd]. split; [exact Gs|].
        rewrite <- (fresh_ext fl v (setval v n f y)); [exact Gd|]. intros m Im. apply LV. intros If ->.
        apply NI, Gs; [exact Im|]. apply path_fields_local; assumption. }
    eapply good_mono; [exact G2|exact C2|exact K2|rewrite S2; intros z Iz; exact Iz|exact D2].
Qed.

Lemma local_compute_default fl v n f m : v n f = None ->
  local_compute fl (setval v n f (Some (dflt f)) m) = local_compute fl (v m).
Proof.
  intros E. unfold PathMatrix_Model.local_compute.
  rewrite <- (localM_default (if existsb (Nat.eqb f_translation) (local_fields fl) then Some (v m f_translation) else None)
     (if existsb (Nat.eqb f_center) (local_fields fl) then Some (v m f_center) else None)
     (if existsb (Nat.eqb f_rotation) (local_fields fl) then Some (v m f_rotation) else None)
     (if existsb (Nat.eqb f_scale) (local_fields fl) then Some (v m f_scale) else None)
     (if existsb (Nat.eqb f_scaleOrientation) (local_fields fl) then Some (v m f_scaleOrientation) else None)).
  rewrite <- (localM_default (if existsb (Nat.eqb f_translation) (local_fields fl) then Some (setval v n f (Some (dflt f)) m f_translation) else None)
     (if existsb (Nat.eqb f_center) (local_fields fl) then Some (setval v n f (Some (dflt f)) m f_center) else None)
     (if existsb (Nat.eqb f_rotation) (local_fields fl) then Some (setval v n f (Some (dflt f)) m f_rotation) else None)
     (if existsb (Nat.eqb f_scale) (local_fields fl) then Some (setval v n f (Some (dflt f)) m f_scale) else None)
     (if existsb (Nat.eqb f_scaleOrientation) (local_fields fl) then Some (setval v n f (Some (dflt f)) m f_scaleOrientation) else None)).
  assert (X : forall g, filled g (if existsb (Nat.eqb g) (local_fields fl) then Some (setval v n f (Some (dflt f)) m g) else None) =
                        filled g (if existsb (Nat.eqb g) (local_fields fl) then Some (v m g) else None)).
  { intros g. destruct (existsb (Nat.eqb g) (local_fields fl)); [|reflexivity]. unfold setval.
    destruct (Nat.eqb m n) eqn:Em; [|reflexivity]. destruct (Nat.eqb g f) eqn:Eg; [|reflexivity].
    apply Nat.eqb_eq in Em, Eg. subst. rewrite E. reflexivity. }
  rewrite !X. reflexivity.
Qed.

Definition allowed (o : hop V) : Prop :=
  match o with HSet _ f _ => nc = true -> f <> f_center | _ => True end.

Lemma FI_hstep (st : state V M) o : allowed o -> FI None (cs st) (vals st) -> FI None (cs (hstep st o)) (vals (hstep st o)).
Proof.
  intros A F. destruct o as [n f x|n f|p fl i|n fl|a|o|c k a]; cbn [PathMatrix_Model.hstep] in *.
  - destruct (live (cs st) n) eqn:L; [|exact F]. cbn [cs vals]. apply FI_set; assumption.
  - destruct (vals st n f) as [y|] eqn:E; [exact F|]. cbn [cs vals]. destruct F as [I G]. split; [exact I|].
    intros h x L Ex Lc Ne. specialize (G h x L Ex Lc Ne). unfold good in *.
    destruct (h_key x) as [fl|i fl|o]; [| |exact Logic.I].
    + rewrite local_compute_default by exact E. exact G.
    + intros Ok. destruct (G Ok) as [G1 G2]. split; [exact G1|].
      rewrite (fresh_ext fl _ (vals st)); [exact G2|]. intros m _. apply local_compute_default, E.
  - destruct (all_live path_of (cs st) p) eqn:AL; [|exact F]. apply transformMatrix_fresh; assumption.
  - destruct (live (cs st) n) eqn:L; [|exact F].
    destruct (localMatrices st n fl) as [[st1 h] d] eqn:EL. cbn.
    eapply localMatrices_spec; [exact F|exact L|discriminate|exact EL].
  - apply FI_step; [exact F|discriminate|discriminate].
  - apply FI_step; [exact F|discriminate|discriminate].
  - apply FI_step; [exact F|discriminate|]. intros c' k' a' d' [= <- <- <- <-]. left. eauto.
Qed.
Lemma FI_hrun os : forall (st : state V M), Forall allowed os -> FI None (cs st) (vals st) ->
  FI None (cs (hrun st os)) (vals (hrun st os)).
Proof.
  induction os as [|o os IH]; intros st A F; [exact F|]. inversion A; subst. cbn. apply IH; [assumption|].
  apply FI_hstep; assumption.
Qed.
Lemma FI_init : FI None (cs (hinit (V:=V) (M:=M))) (vals (hinit (V:=V) (M:=M))).
Proof. split; [apply empty_inv|]. intros h x _ E. discriminate. Qed.

Theorem always_fresh os p fl i : Forall allowed os -> okfl fl = true ->
  let st := hrun hinit os in
  all_live path_of (cs st) p = true ->
  snd (transformMatrix st p fl i) = fresh_matrix (vals st) p fl i.
Proof.
  intros A Ok st AL. apply transformMatrix_fresh; [|exact AL|exact Ok].
  apply FI_hrun; [exact A|apply FI_init].
Qed.
End PM.
