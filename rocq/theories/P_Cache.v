(** C44-C46: the scenegraph cache and cached path matrices. *)
From Verif Require Import Base PyDict Cache_Model Cache_Spec Cache_Proofs PathMatrix_Model PathMatrix_Proofs.

Section Claims.
Context {K D : Type}.
Variable keqb : K -> K -> bool.
Hypothesis keqb_spec : forall a b, keqb a b = true <-> a = b.
Variable truthy : nat -> bool.
Notation run := (run keqb truthy (D := D)).
Notation step := (step keqb truthy (D := D)).

(** C44.  Take any history in which holder h depends on field f of node n, that
    field then announces a change, and anything may follow.  If a lookup then
    finds holder h with data d, then d was assigned to h after the change, and
    is the last value assigned. *)
Theorem C44_no_stale_data : forall before n f after h x c k d,
  let s1 := run empty before in
  let s2 := run empty (before ++ Notify n f :: after) in
  live s1 n = true -> hold s1 h = Some x -> In (n, f) (h_sigs x) ->
  getHolder keqb s2 c k = Some h -> getData keqb s2 c k = Some (Some d) ->
  last_set h after = Some (Some d).
Proof.
  intros before n f after h x c k d s1 s2 L E I G Gd.
  assert (X : s2 = run s1 (Notify n f :: after)) by (unfold s2, s1, Cache_Model.run; rewrite fold_left_app; reflexivity).
  rewrite X in G, Gd. eapply (no_stale keqb keqb_spec truthy before n f after); eassumption.
Qed.

(** C44.  Conversely data is kept: as long as no dependency of the holder
    changes or disappears, the client lives and nobody touches the entry, the
    lookup keeps returning the data. *)
Theorem C44_data_retained : forall before after c k h x d,
  let s := run empty before in
  live s c = true -> truthy c = true ->
  getHolder keqb s c k = Some h -> hold s h = Some x -> h_data x = Some d -> only c h k s ->
  Forall (harmless c h k x) after ->
  getData keqb (run empty (before ++ after)) c k = Some (Some d).
Proof.
  intros before after c k h x d s L T G E Dx O F.
  unfold Cache_Model.run. rewrite fold_left_app. fold (run empty before). fold s. fold (run s after).
  assert (Kp : kept keqb c h k x s) by (split; auto; apply run_inv; [exact keqb_spec|apply empty_inv]).
  destruct (retained keqb keqb_spec truthy c h k x after T s Kp F) as [_ _ G' E' _].
  unfold getData. rewrite G', E', Dx. reflexivity.
Qed.

(** C45.  Looking up a live object only ever finds a holder created for that
    very object and key, whatever addresses the allocator reuses. *)
Theorem C45_entry_belongs_to_object : forall history c k h,
  let s := run empty history in
  live s c = true -> getHolder keqb s c k = Some h ->
  exists x, hold s h = Some x /\ h_client x = c /\ h_key x = k.
Proof.
  intros history c k h s L G. eapply entry_belongs; [|exact L|exact G].
  apply run_inv; [exact keqb_spec|apply empty_inv].
Qed.

(** C45.  When an object is collected its entries are gone at once ... *)
Theorem C45_entries_die_with_client : forall history c k,
  let s := run empty history in
  live s c = true -> in_cache keqb s c = false ->
  getHolder keqb (step s (Collect c)) c k = None.
Proof.
  intros history c k s L N. apply entries_die; [exact keqb_spec| |exact L|exact N].
  apply run_inv; [exact keqb_spec|apply empty_inv].
Qed.
(** ... and a new object, at a recycled address or not, finds nothing. *)
Theorem C45_new_object_finds_nothing : forall history a k,
  let s := run empty history in
  free_addr s a = true -> getHolder keqb (step s (New a)) (next s) k = None.
Proof.
  intros history a k s F. apply fresh_sees_nothing; [|exact F].
  apply run_inv; [exact keqb_spec|apply empty_inv].
Qed.

(** C44 (refuted side claims).  After an invalidation getData returns None, not
    the caller's default ([None] in this model is "the default"). *)
Theorem C44_default_after_invalidation_refuted : forall (k : K) (d : D),
  truthy 0 = true ->
  getData keqb (run empty [New 0; NewHolder 0 k 1 (Some d); Depend 1 0 7; Notify 0 7]) 0 k = Some None.
Proof.
  intros k d T. assert (R : keqb k k = true) by (apply keqb_spec; reflexivity).
  cbn. rewrite T. cbn. unfold getData, getHolder. cbn. rewrite R. reflexivity.
Qed.
End Claims.
(** A replaced holder still evicts its successor: "this does not affect any
    other CacheHolder for our client node" fails. *)
Theorem C44_other_holder_unaffected_refuted : exists history client k (d : nat) old new other,
  ~ old = new /\ In (DependObj old other) history /\ ~ In (DependObj new other) history /\
  getHolder Nat.eqb (run Nat.eqb (fun _ => true) empty history) client k = Some new /\
  getData Nat.eqb (run Nat.eqb (fun _ => true) empty history) client k = Some (Some d) /\
  getData Nat.eqb (run Nat.eqb (fun _ => true) empty (history ++ [Collect other])) client k = None.
Proof.
  exists [New 0; New 1; NewHolder 0 9 2 (Some 5); DependObj 2 1; NewHolder 0 9 3 (Some 6)], 0, 9, 6, 2, 3, 1.
  vm_compute. intuition discriminate.
Qed.
Print Assumptions C44_no_stale_data.
Print Assumptions C44_data_retained.
Print Assumptions C45_entry_belongs_to_object.
Print Assumptions C45_entries_die_with_client.
Print Assumptions C45_new_object_finds_nothing.
Print Assumptions C44_default_after_invalidation_refuted.
Print Assumptions C44_other_holder_unaffected_refuted.

(** address 5 is used by object 1, freed, and reused by object 3 *)
Example C44_C45_nonvacuous :
  let h1 := [New 4; New 5; NewHolder 1 7 6 (Some 100); Depend 2 0 9] in
  let h2 := [Notify 0 9; SetData 2 (Some 200)] in
  let r := run Nat.eqb (fun _ => true) empty in
  (exists x, hold (r h1) 2 = Some x /\ In (0, 9) (h_sigs x)) /\
  getData Nat.eqb (r (h1 ++ h2)) 1 7 = Some (Some 200) /\
  in_cache Nat.eqb (r (h1 ++ h2)) 1 = false /\
  addr (r (h1 ++ h2 ++ [Collect 1; New 5])) 3 = 5 /\ live (r (h1 ++ h2 ++ [Collect 1; New 5])) 3 = true.
Proof. vm_compute. split; [eexists; split; [reflexivity|left; reflexivity]|]. repeat split; reflexivity. Qed.

(** ** C46: cached path matrices *)
Section Paths.
Context {V M : Type}.
Variable localM : option (option V) -> option (option V) -> option (option V) ->
                  option (option V) -> option (option V) -> option M * option M.
Variable compress : list (option M) -> option M.
Variable ident : M.
Variable path_of : nat -> option (list nat).
Variable pick : Cache_Model.state ckey (cdata M) -> nat.
Variable dflt : nat -> V.

(** the allocator never returns an address in use *)
Definition allocates : Prop := forall c, (forall o, live c o = true -> o < next c) -> free_addr c (pick c) = true.
(** matrices of an unset field are those of its default (proved for the real
    matrix functions in P_Matrix.v) *)
Definition defaults_agree : Prop := forall t c r s so,
  let fill f (a : option (option V)) := match a with Some None => Some (Some (dflt f)) | _ => a end in
  localM (fill f_translation t) (fill f_center c) (fill f_rotation r) (fill f_scale s) (fill f_scaleOrientation so)
  = localM t c r s so.

(** C46.  After any history of field sets, deletions, reads, matrix queries,
    allocations, collections and other cache users, transformMatrix returns what
    a computation from the current field values gives, for every path and every
    flags other than scale without rotate. *)
Theorem C46_matrix_up_to_date : allocates -> defaults_agree ->
  forall history p fl inverse,
  let st := hrun localM compress ident path_of pick dflt hinit history in
  (fl_r fl = true \/ fl_s fl = false) ->
  all_live path_of (cs st) p = true ->
  snd (transformMatrix localM compress ident path_of pick st p fl inverse)
  = fresh_matrix localM compress ident path_of (vals st) p fl inverse.
Proof.
  intros A DA history p fl inverse st Ok AL.
  apply (always_fresh localM compress ident path_of pick dflt) with (nc := false).
  - intros c I. apply A, I.
  - exact DA.
  - apply Forall_forall. intros o _. destruct o; cbn; try exact I. discriminate.
  - unfold okfl. destruct Ok as [-> | ->]; [reflexivity|apply orb_true_r].
  - exact AL.
Qed.

(** C46.  For scale without rotate the same holds if no center field changes. *)
Theorem C46_matrix_up_to_date_fixed_centers : allocates -> defaults_agree ->
  forall history p fl inverse,
  let st := hrun localM compress ident path_of pick dflt hinit history in
  (forall n x, ~ In (HSet n f_center x) history) ->
  all_live path_of (cs st) p = true ->
  snd (transformMatrix localM compress ident path_of pick st p fl inverse)
  = fresh_matrix localM compress ident path_of (vals st) p fl inverse.
Proof.
  intros A DA history p fl inverse st NC AL.
  apply (always_fresh localM compress ident path_of pick dflt) with (nc := true).
  - intros c I. apply A, I.
  - exact DA.
  - apply Forall_forall. intros o Io. destruct o; cbn; try exact I. intros _ ->. eapply NC, Io.
  - reflexivity.
  - exact AL.
Qed.
End Paths.

(** C46 (refuted): a change of center is missed for scale without rotate; the
    matrix served is the one from before the change, whatever the values. *)
Theorem C46_center_missed_refuted :
  forall (V M : Type) localM (compress : list (option M) -> option M) (ident : M) (dflt : nat -> V) (v : V) translate inverse,
  let path_of := fun o => if Nat.eqb o 1 then Some [0] else None in
  let fl := {| fl_t := translate; fl_s := true; fl_r := false |} in
  let st := hrun localM compress ident path_of (fun c => next c) dflt hinit
                 [HNew 0; HNew 1; HQuery 1 fl inverse; HSet 0 f_center (Some v)] in
  all_live path_of (cs st) 1 = true /\
  snd (transformMatrix localM compress ident path_of (fun c => next c) st 1 fl inverse)
  = fresh_matrix localM compress ident path_of (fun _ _ => None) 1 fl inverse /\
  vals st 0 f_center = Some v.
Proof. intros. destruct translate, inverse; repeat split. Qed.

Print Assumptions C46_matrix_up_to_date.
Print Assumptions C46_matrix_up_to_date_fixed_centers.
Print Assumptions C46_center_missed_refuted.

(** Concrete instance: "matrices" are the lists of values they were built from;
    two nodes, two paths sharing a node, a change, a deletion and a recycled id. *)
Definition exM (t c r s so : option (option nat)) : option (list nat) * option (list nat) :=
  let g a := match a with Some (Some n) => [n] | Some None => [0] | None => [] end in
  (Some (g t ++ g c ++ g r ++ g s ++ g so), Some (rev (g t ++ g c ++ g r ++ g s ++ g so))).
Definition ex_compress (l : list (option (list nat))) : option (list nat) :=
  Some (concat (map (fun o => match o with Some x => x | None => [] end) l)).
Definition ex_path (o : nat) : option (list nat) :=
  if Nat.eqb o 2 then Some [0; 1] else if Nat.eqb o 3 then Some [1] else None.
Definition ex_fl : flags := {| fl_t := true; fl_s := false; fl_r := true |}.
(** the allocator: one above every address in use *)
Definition ex_pick {D} (c : Cache_Model.state ckey D) : nat :=
  S (list_max (map (addr c) (seq 0 (next c)))).
Lemma ex_pick_free : allocates (M := list nat) ex_pick.
Proof.
  intros c I. unfold free_addr. apply forallb_forall. intros o Io.
  destruct (live c o); [|reflexivity]. cbn.
  assert (L : addr c o <= list_max (map (addr c) (seq 0 (next c)))).
  { pose proof (proj1 (list_max_le (map (addr c) (seq 0 (next c))) _) (le_n _)) as F.
    rewrite Forall_forall in F. apply F, in_map, Io. }
  rewrite (proj2 (Nat.eqb_neq _ _)); [reflexivity|unfold ex_pick; lia].
Qed.
Lemma ex_defaults : defaults_agree exM (fun _ => 0).
Proof. intros t c r s so. destruct t as [[]|], c as [[]|], r as [[]|], s as [[]|], so as [[]|]; reflexivity. Qed.
Example C46_nonvacuous :
  let h := [HNew 0; HNew 10; HNew 20; HNew 30; HSet 0 f_translation (Some 5); HSet 1 f_rotation (Some 6);
            HQuery 2 ex_fl false; HQuery 3 ex_fl true; HSet 1 f_rotation (Some 8); HRead 0 f_center;
            HSet 0 f_translation None] in
  let st := hrun exM ex_compress [] ex_path ex_pick (fun _ => 0) hinit h in
  all_live ex_path (cs st) 2 = true /\
  snd (transformMatrix exM ex_compress [] ex_path ex_pick st 2 ex_fl false) = [0; 0; 0; 0; 0; 8].
Proof. vm_compute. auto. Qed.
