(** C15, C17, C18: coercion. *)
From Coq Require Import Reals Psatz.
From Flocq Require Import Core.Core IEEE754.BinarySingleNaN.
From Verif Require Import Base Text Float Float_Proofs Color_Model Color_Spec P_Color Coerce_Model Coerce_Spec Coerce_Proofs.
Local Open Scope nat_scope.

Section S.
Variable P : prims.

(** ** C15: canonical results, and idempotence.
    Each theorem: whatever the argument, a coercion that succeeds gives a
    value in the field's storage format, and coercing that value again gives
    it back. *)
Theorem C15_SFBool v w : sfbool_coerce P v = Ok w -> is_bool w /\ sfbool_coerce P w = Ok w.
Proof.
  unfold sfbool_coerce at 1. intros H. apply bind_ok in H as (b & _ & [= <-]).
  destruct b; cbn; split; auto; unfold is_bool; auto.
Qed.
Theorem C15_SFInt32 v w : sfint32_coerce P v = Ok w -> is_int w /\ sfint32_coerce P w = Ok w.
Proof. intros H. apply bind_ok in H as (z & _ & [= <-]). split; [exists z; auto|reflexivity]. Qed.
Theorem C15_SFFloat v w : sane P -> wf_arg v ->
  sffloat_coerce P v = Ok w -> is_float w /\ sffloat_coerce P w = Ok w.
Proof.
  intros [_ SP] W H. apply bind_ok in H as (f & E & [= <-]). split; [|reflexivity].
  exists f. split; auto.
  assert (Z : forall z, of_option OtherError (float_of_Z z) = Ok f -> valid_binary 53 1024 f = true).
  { intros z. destruct (float_of_Z z) eqn:F; [|discriminate]. intros [= <-]. eapply float_of_Z_valid; eauto. }
  assert (T : forall t, of_option ValueError (p_float P t) = Ok f -> valid_binary 53 1024 f = true).
  { intros t. destruct (p_float P t) eqn:F; [|discriminate]. intros [= <-]. eapply SP; eauto. }
  destruct v as [|b|z|g|t|t|k l|a]; cbn in E, W; try discriminate; eauto; try congruence.
  destruct (a_data a) as [|[z|g] [|]]; try discriminate; eauto.
  injection E as <-. apply r64_valid.
Qed.
Theorem C15_SFString v w : sfstring_coerce P v = Ok w -> is_string w /\ sfstring_coerce P w = Ok w.
Proof.
  intros H. assert (E : is_string w); [|destruct E as [t ->]; split; [exists t|]; reflexivity].
  unfold sfstring_coerce in H.
  destruct v as [|b|z|g|t|t|k l|a]; try (injection H as <-; eexists; reflexivity).
  - destruct (p_decode P t); [|discriminate]. injection H as <-. eexists; reflexivity.
  - assert (F : forall x, match x with PStr t => Ok (PStr t) | _ => Ok (PStr (p_str P x)) end = Ok w -> is_string w).
    { intros x Hx. destruct x; injection Hx as <-; eexists; reflexivity. }
    assert (G : forall l, bind (mapM (fun x => match x with PStr t => Ok t | _ => Exc TypeError end) l)
                 (fun ts => Ok (PStr (List.concat ts))) = Ok w -> is_string w).
    { intros l' Hx. apply bind_ok in Hx as (ts & _ & [= <-]). eexists; reflexivity. }
    destruct k; try discriminate;
    (destruct l as [|x [|y l]]; [injection H as <-; eexists; reflexivity|apply (F x), H|apply (G _ H)]).
Qed.
Theorem C15_MFString v w : mfstring_coerce P v = Ok w -> is_strings w /\ mfstring_coerce P w = Ok w.
Proof.
  intros H. unfold mfstring_coerce in H. apply bind_ok in H as (items & _ & H).
  apply bind_ok in H as (l & E & [= <-]).
  assert (S : exists ts, l = map PStr ts).
  { clear - E. revert l E. induction items as [|x items IH]; intros l E; cbn in E.
    - injection E as <-. exists []. reflexivity.
    - apply bind_ok in E as (y & Ey & E). apply bind_ok in E as (ys & Eys & [= <-]).
      apply C15_SFString in Ey as [[t ->] _]. apply IH in Eys as [ts ->]. exists (t :: ts). reflexivity. }
  destruct S as [ts ->]. split; [exists ts; reflexivity|].
  unfold mfstring_coerce. cbn [py_iter bind].
  replace (mapM (sfstring_coerce P) (map PStr ts)) with (Ok (map PStr ts)); [reflexivity|].
  symmetry. clear. induction ts as [|t ts IH]; [reflexivity|]. cbn [map mapM]. cbn [sfstring_coerce bind].
  rewrite IH. reflexivity.
Qed.

Lemma flat_again_int c xs : mfint32_coerce P c (PArr (mkarr c [List.length xs] xs)) = Ok (PArr (mkarr c [List.length xs] xs)).
Proof. cbn. rewrite tcode_eqb_refl. reflexivity. Qed.
Lemma flat_again_float c xs : mffloat_coerce P c (PArr (mkarr c [List.length xs] xs)) = Ok (PArr (mkarr c [List.length xs] xs)).
Proof. cbn. rewrite tcode_eqb_refl. reflexivity. Qed.
Lemma iarray_ok c zs a : (c = Ci \/ c = CI \/ c = Cl) -> iarray c zs = Ok a ->
  a = mkarr c [List.length (map NZ zs)] (map NZ zs) /\ Forall (item_of c) (map NZ zs).
Proof.
  intros C. unfold iarray. destruct (forallb _ zs) eqn:E; [|discriminate]. intros [= <-].
  rewrite map_length. split; auto. apply Forall_map, Forall_forall. intros z Hz.
  rewrite forallb_forall in E. apply E in Hz. apply Z.eqb_eq in Hz. now apply wrap_id_range.
Qed.
Lemma ravel_flat c a : wf_arr a -> is_flat_array c (PArr (ravel (converted P c a))).
Proof.
  intros W. exists (a_data (converted P c a)). unfold ravel. rewrite converted_code. split; auto.
  now apply converted_items.
Qed.
Theorem C15_MFInt32 c v w : c = Ci \/ c = CI -> wf_arg v ->
  mfint32_coerce P c v = Ok w -> is_flat_array c w /\ mfint32_coerce P c w = Ok w.
Proof.
  intros C W H. assert (C' : c = Ci \/ c = CI \/ c = Cl) by tauto.
  assert (E : is_flat_array c w); [|split; [auto|destruct E as (xs & -> & _); apply flat_again_int]].
  assert (F : forall zs, bind (iarray c zs) (fun a => Ok (PArr a)) = Ok w -> is_flat_array c w).
  { intros zs Hz. apply bind_ok in Hz as (a & Ea & [= <-]). apply iarray_ok in Ea as [-> Hi]; auto.
    eexists; eauto. }
  assert (G : forall l, bind (mapM (py_int P) l) (fun zs => bind (iarray c zs) (fun a => Ok (PArr a))) = Ok w -> is_flat_array c w).
  { intros l Hl. apply bind_ok in Hl as (zs & _ & Hz). eauto. }
  destruct v as [|b|z|g|t|t|k l|a]; unfold mfint32_coerce in H; eauto.
  - apply bind_ok in H as (zs & _ & H). eauto.
  - destruct t; [eauto|discriminate].
  - injection H as <-. apply ravel_flat, W.
Qed.
Lemma farray_flat c fs : is_flat_array c (PArr (farray P c fs)).
Proof.
  exists (a_data (farray P c fs)). split; [|apply farray_items].
  unfold farray. cbn [a_data]. now rewrite map_length.
Qed.
Theorem C15_MFFloat c v w : c = Cd \/ c = Cf -> wf_arg v ->
  mffloat_coerce P c v = Ok w -> is_flat_array c w /\ mffloat_coerce P c w = Ok w.
Proof.
  intros C W H.
  assert (E : is_flat_array c w); [|split; [auto|destruct E as (xs & -> & _); apply flat_again_float]].
  assert (G : forall l, bind (mapM (py_float P) l) (fun fs => Ok (PArr (farray P c fs))) = Ok w -> is_flat_array c w).
  { intros l Hl. apply bind_ok in Hl as (zs & _ & [= <-]). apply farray_flat. }
  destruct v as [|b|z|g|t|t|k l|a]; unfold mffloat_coerce in H; eauto.
  - injection H as <-. apply farray_flat.
  - apply bind_ok in H as (zs & _ & [= <-]). apply farray_flat.
  - destruct t; [|discriminate]. injection H as <-. apply farray_flat.
  - injection H as <-. apply ravel_flat, W.
Qed.

Lemma sfvec_again c dim xs : List.length xs = size dim ->
  sfvec_coerce P c dim (PArr (mkarr c dim xs)) = Ok (PArr (mkarr c dim xs)).
Proof. intros E. cbn [sfvec_coerce a_code]. rewrite tcode_eqb_refl, reshape_self; auto. Qed.
Lemma sfvec_list_ok c dim fs w : sfvec_list P c dim fs = Ok w ->
  dim = [List.length fs] /\ w = PArr (farray P c fs).
Proof.
  unfold sfvec_list. intros H. apply bind_ok in H as (_ & _ & H).
  destruct (list_eq_dec _ _ _) as [E|]; [|discriminate]. injection H as <-. cbn in E. auto.
Qed.
Lemma farray_is_array c fs : is_array c [List.length fs] (PArr (farray P c fs)).
Proof.
  exists (a_data (farray P c fs)). split; [reflexivity|]. split; [|apply farray_items].
  unfold farray. cbn. rewrite map_length. lia.
Qed.
Lemma sfvec_canonical c dim v w : wf_arg v -> sfvec_coerce P c dim v = Ok w -> is_array c dim w.
Proof.
  intros W H. assert (F : forall f, is_array c dim (PArr (mkarr c dim (repeat (cast P c (NF f)) (size dim))))).
  { intros f. eexists. split; [reflexivity|]. rewrite repeat_length. split; auto.
    apply Forall_forall. intros x Hx. apply repeat_spec in Hx as ->. apply cast_item. }
  destruct v as [|b|z|g|t|t|k l|a]; cbn [sfvec_coerce] in H; try discriminate.
  1-3: destruct (py_float P _); [injection H as <-; auto|discriminate].
  - apply bind_ok in H as (fs & _ & H). apply sfvec_list_ok in H as [-> ->]. apply farray_is_array.
  - apply bind_ok in H as (fs & _ & H). apply sfvec_list_ok in H as [-> ->]. apply farray_is_array.
  - apply bind_ok in H as (b & E & [= <-]). fold (converted P c a) in E.
    apply reshape_ok in E as [-> E]. rewrite converted_code. eexists. split; [reflexivity|].
    split; auto. now apply converted_items.
Qed.
Theorem C15_SFVec c dim v w : wf_arg v ->
  sfvec_coerce P c dim v = Ok w -> is_array c dim w /\ sfvec_coerce P c dim w = Ok w.
Proof.
  intros W H. pose proof (sfvec_canonical _ _ _ _ W H) as E. split; auto.
  destruct E as (xs & -> & L & _). now apply sfvec_again.
Qed.

Lemma discover_items c : forall v s d, discover P c v = Ok (s, d) -> Forall (item_of c) d.
Proof.
  fix IH 1. intros v s d H.
  destruct v as [|b|z|g|t|t|k l|a]; cbn [discover] in H.
  1: { injection H as _ <-. repeat constructor. apply cast_item. }
  1-5: apply bind_ok in H as (f & _ & H); injection H as _ <-; repeat constructor; apply cast_item.
  2: { injection H as _ <-. apply Forall_map, Forall_forall. intros. apply cast_item. }
  assert (G : forall l ps, (fix go (l : list pv) : res (list (list nat * list num)) :=
               match l with
               | [] => Ok []
               | x :: r => bind (discover P c x) (fun y => bind (go r) (fun ys => Ok (y :: ys)))
               end) l = Ok ps -> Forall (item_of c) (List.concat (map snd ps))).
  { clear - IH. fix IHl 1. intros [|x r] ps H.
    - injection H as <-. constructor.
    - apply bind_ok in H as ([s1 d1] & E & H). apply bind_ok in H as (ys & F & [= <-]).
      cbn. apply Forall_app. split; [|apply (IHl r), F].
      exact (IH _ _ _ E). }
  assert (K : bind ((fix go (l : list pv) : res (list (list nat * list num)) :=
               match l with
               | [] => Ok []
               | x :: r => bind (discover P c x) (fun y => bind (go r) (fun ys => Ok (y :: ys)))
               end) l) stack = Ok (s, d)) by (destruct k; [exact H..|discriminate]).
  apply bind_ok in K as (ps & E & K). apply G in E.
  destruct ps as [|[s1 d1] ps]; cbn [stack] in K; [injection K as _ <-; constructor|].
  destruct (forallb _ _); [|discriminate]. injection K as _ <-. exact E.
Qed.

Lemma mfvec_again c dim n xs : List.length xs = n * size dim -> size dim <> 0 ->
  mfvec_coerce P c dim (PArr (mkarr c (n :: dim) xs)) = Ok (PArr (mkarr c (n :: dim) xs)).
Proof. intros E N. cbn [mfvec_coerce a_code]. rewrite tcode_eqb_refl, (reshape_rows_self c n); auto. Qed.
Lemma mfvec_canonical c dim v w : wf_arg v -> mfvec_coerce P c dim v = Ok w ->
  exists n xs, w = PArr (mkarr c (n :: dim) xs) /\ List.length xs = n * size dim /\ size dim <> 0 /\ Forall (item_of c) xs.
Proof.
  intros W H.
  assert (F : forall a, a_code a = c -> Forall (item_of c) (a_data a) ->
     bind (reshape_rows dim a) (fun a => Ok (PArr a)) = Ok w ->
     exists n xs, w = PArr (mkarr c (n :: dim) xs) /\ List.length xs = n * size dim /\ size dim <> 0 /\ Forall (item_of c) xs).
  { intros a <- Fa Ha. apply bind_ok in Ha as (b & E & [= <-]).
    apply reshape_rows_ok in E as (n & -> & L & N). eauto 8. }
  destruct v as [|b|z|g|t|t|k l|a]; cbn [mfvec_coerce] in H; try discriminate.
  1-3: apply bind_ok in H as (f & _ & H); eapply F; [|apply farray_items|exact H]; reflexivity.
  - destruct (np_array P c (PSeq KList l)) as [a|[]] eqn:E; try discriminate.
    + unfold np_array in E. apply bind_ok in E as ([s d] & E & [= <-]).
      eapply F; [| |exact H]; [reflexivity|]. cbn. eapply discover_items. exact E.
    + apply bind_ok in H as (fs & _ & H). eapply F; [|apply farray_items|exact H]; reflexivity.
  - fold (converted P c a) in H. eapply F; [apply converted_code| |exact H]. apply converted_items, W.
Qed.
Theorem C15_MFVec c dim v w : wf_arg v ->
  mfvec_coerce P c dim v = Ok w -> is_rows c dim w /\ mfvec_coerce P c dim w = Ok w.
Proof.
  intros W H. destruct (mfvec_canonical _ _ _ _ W H) as (n & xs & -> & L & N & I). split.
  - exists n, xs. repeat split; auto.
  - now apply mfvec_again.
Qed.

(** colours *)
Definition clipped (x : num) : Prop := exists f, x = NF f /\ valid32 f = true /\ clip01 fone32 f = f.
Lemma clip_num_clipped x : item_of Cf x -> clipped (clip_num x).
Proof.
  destruct x as [z|f]; cbn; [contradiction|]. intros V. eexists. split; [reflexivity|].
  split; [now apply clip01_valid|apply clip01_idem].
Qed.
Lemma clipped_id x : clipped x -> clip_num x = x.
Proof. intros (f & -> & _ & E). cbn. now rewrite E. Qed.
Lemma clipped_item x : clipped x -> item_of Cf x.
Proof. now intros (f & -> & V & _). Qed.
Lemma map_clipped_id xs : Forall clipped xs -> map clip_num xs = xs.
Proof. induction 1; cbn; [auto|]. rewrite clipped_id; congruence. Qed.

Definition color_arg (v : pv) : Prop := wf_arg v.
Lemma sfcolor_canonical v w : wf_arg v -> sfcolor_coerce P v = Ok w ->
  exists xs, w = PArr (mkarr Cf [3] xs) /\ List.length xs = 3 /\ Forall clipped xs.
Proof.
  intros W H. unfold sfcolor_coerce in H. apply bind_ok in H as (v' & E & H).
  apply bind_ok in H as (u & F & [= <-]).
  assert (W' : wf_arg v').
  { destruct v; try (injection E as <-; exact W).
    apply bind_ok in E as ([[r g] b] & _ & [= <-]). exact I. }
  apply sfvec_canonical in F as (xs & -> & L & Fx); auto. cbn [clip a_code a_shape a_data].
  eexists. split; [reflexivity|]. rewrite map_length. split; [exact L|].
  apply Forall_map. eapply Forall_impl; [|exact Fx]. intros; now apply clip_num_clipped.
Qed.
Lemma sfcolor_again xs : List.length xs = 3 -> Forall clipped xs ->
  sfcolor_coerce P (PArr (mkarr Cf [3] xs)) = Ok (PArr (mkarr Cf [3] xs)).
Proof.
  intros L F. unfold sfcolor_coerce. cbn [bind]. rewrite sfvec_again by exact L.
  cbn [bind clip a_code a_shape a_data]. now rewrite map_clipped_id.
Qed.
Lemma mfcolor_base v w : wf_arg v -> bind (mfvec_coerce P Cf [3] v) (fun v => Ok (clip v)) = Ok w ->
  exists n xs, w = PArr (mkarr Cf [n; 3] xs) /\ List.length xs = n * 3 /\ Forall clipped xs.
Proof.
  intros W H. apply bind_ok in H as (u & E & [= <-]).
  apply mfvec_canonical in E as (n & xs & -> & L & _ & F); auto.
  exists n, (map clip_num xs). split; [reflexivity|]. rewrite map_length. split; [exact L|].
  apply Forall_map. eapply Forall_impl; [|exact F]. intros; now apply clip_num_clipped.
Qed.
Lemma mfcolor_canonical v w : wf_arg v -> mfcolor_coerce P v = Ok w ->
  exists n xs, w = PArr (mkarr Cf [n; 3] xs) /\ List.length xs = n * 3 /\ Forall clipped xs.
Proof.
  intros W H. unfold mfcolor_coerce in H.
  destruct (bind (mfvec_coerce P Cf [3] v) (fun v => Ok (clip v))) as [u|e] eqn:E.
  - injection H as <-. eapply mfcolor_base; eauto.
  - assert (G : bind (match v with PSeq KIter _ => Ok [] | _ => py_iter P v end) (fun items =>
      bind (mfcolor_loop P [] [] items) (fun result =>
       bind (mfvec_coerce P Cf [3] (PSeq KList result)) (fun v => Ok (clip v)))) = Ok w)
      by (destruct e; first [discriminate|exact H]).
    apply bind_ok in G as (items & _ & G). apply bind_ok in G as (result & _ & G).
    eapply mfcolor_base; [|exact G]. exact I.
Qed.
Lemma mfcolor_again n xs : List.length xs = n * 3 -> Forall clipped xs ->
  mfcolor_coerce P (PArr (mkarr Cf [n; 3] xs)) = Ok (PArr (mkarr Cf [n; 3] xs)).
Proof.
  intros L F. unfold mfcolor_coerce. rewrite mfvec_again; [|exact L|discriminate].
  cbn [bind clip a_code a_shape a_data]. now rewrite map_clipped_id.
Qed.
Theorem C15_SFColor v w : wf_arg v ->
  sfcolor_coerce P v = Ok w -> is_array Cf [3] w /\ sfcolor_coerce P w = Ok w.
Proof.
  intros W H. destruct (sfcolor_canonical _ _ W H) as (xs & -> & L & F). split.
  - exists xs. repeat split; auto. eapply Forall_impl; [|exact F]. apply clipped_item.
  - now apply sfcolor_again.
Qed.
Theorem C15_MFColor v w : wf_arg v ->
  mfcolor_coerce P v = Ok w -> is_rows Cf [3] w /\ mfcolor_coerce P w = Ok w.
Proof.
  intros W H. destruct (mfcolor_canonical _ _ W H) as (n & xs & -> & L & F). split.
  - exists n, xs. repeat split; auto. eapply Forall_impl; [|exact F]. apply clipped_item.
  - now apply mfcolor_again.
Qed.

(** ** C17: which arguments vector fields take *)
(** A sequence is accepted exactly when, flattened, it has [d] items that
    float() accepts; the result holds those numbers in order, rounded to the
    array's type. *)
Theorem C17_vector_accepts c d k l w : 
  sfvec_coerce P c [d] (PSeq k l) = Ok w <->
  exists xs fs, flattens l xs /\ Forall2 (fun x f => py_float P x = Ok f) xs fs /\
    List.length xs = d /\ w = PArr (mkarr c [d] (map (fun f => cast P c (NF f)) fs)).
Proof.
  cbn [sfvec_coerce]. split.
  - intros H. apply bind_ok in H as (fs & E & H). apply mapM_ok in E.
    apply sfvec_list_ok in H as [[= ->] ->].
    exists (collapse l), fs. split; [apply collapse_flattens|]. repeat split; auto.
    eapply Forall2_len; eauto.
  - intros (xs & fs & F & N & L & ->). apply collapse_spec in F. subst xs.
    apply mapM_ok in N as E. rewrite E. cbn [bind]. apply Forall2_len in N.
    unfold sfvec_list. unfold reshape, farray. cbn [a_data a_shape a_code size fold_right].
    rewrite map_length, Nat.mul_1_r, <- N, L, Nat.eqb_refl. cbn [bind].
    destruct (list_eq_dec _ _ _) as [_|X]; [reflexivity|congruence].
Qed.
(** ... a sequence of numbers of the wrong length is a ValueError *)
Theorem C17_wrong_length_rejected c d k l xs fs :
  flattens l xs -> Forall2 number xs fs -> List.length xs <> d ->
  sfvec_coerce P c [d] (PSeq k l) = Exc ValueError.
Proof.
  intros F N L. apply collapse_spec in F. subst xs. cbn [sfvec_coerce].
  assert (E : mapM (py_float P) (collapse l) = Ok fs).
  { apply mapM_ok. clear L. induction N as [|x f xs fs Hx _ IH]; constructor; auto.
    destruct Hx as [f|z f Hz|b f Hz]; cbn; rewrite ?Hz; reflexivity. }
  rewrite E. cbn [bind]. unfold sfvec_list, reshape, farray. cbn [a_data size fold_right].
  apply Forall2_len in N. rewrite map_length, Nat.mul_1_r.
  destruct (Nat.eqb_spec d (List.length fs)); [congruence|reflexivity].
Qed.
(** Scalars are rejected by every vector and matrix field. *)
Theorem C17_scalars_rejected c dim v f : 
  2 <= size dim -> number v f -> sfvec_coerce P c dim v = Exc TypeError.
Proof.
  intros S N. destruct (size dim) as [|[|n]] eqn:E; try lia.
  destruct N; cbn [sfvec_coerce]; rewrite E; reflexivity.
Qed.
(** Matrix fields reject every sequence and every string, including those with
    the right number of items, nested rows included. *)
Theorem C17_matrix_from_sequence_refuted c m n k l :
  is_ok (sfvec_coerce P c [m; n] (PSeq k l)) = false.
Proof.
  destruct (sfvec_coerce P c [m; n] (PSeq k l)) eqn:E; [|reflexivity].
  cbn [sfvec_coerce] in E. apply bind_ok in E as (fs & _ & E). apply sfvec_list_ok in E as [E _]. discriminate.
Qed.
Theorem C17_matrix_from_string_refuted c m n t :
  is_ok (sfvec_coerce P c [m; n] (PStr t)) = false.
Proof.
  destruct (sfvec_coerce P c [m; n] (PStr t)) eqn:E; [|reflexivity].
  cbn [sfvec_coerce] in E. apply bind_ok in E as (fs & _ & E). apply sfvec_list_ok in E as [E _]. discriminate.
Qed.
(** Arrays are accepted by every vector and matrix field exactly when they
    have the right number of items, whatever their shape. *)
Theorem C17_arrays c dim a :
  is_ok (sfvec_coerce P c dim (PArr a)) = true <-> List.length (a_data a) = size dim.
Proof.
  cbn [sfvec_coerce]. fold (converted P c a). unfold reshape. rewrite converted_length.
  destruct (Nat.eqb_spec (size dim) (List.length (a_data a))); cbn; split; congruence.
Qed.
(** MFVec fields reject every string *)
Theorem C17_mfvec_string_refuted c dim t : mfvec_coerce P c dim (PStr t) = Exc TypeError.
Proof. reflexivity. Qed.

(** ** C18: colours *)
Lemma clipped_unit x : clipped x -> is_nan_item x \/ in_unit x.
Proof.
  intros (f & -> & V & E). destruct (Float.is_nan f) eqn:N.
  - left. destruct f; try discriminate. reflexivity.
  - right. exists f. split; auto. rewrite <- E at 2 3. split; [rewrite <- E; now apply clip01_finite|].
    now apply clip01_range.
Qed.
Theorem C18_SFColor_range v w : wf_arg v -> sfcolor_coerce P v = Ok w ->
  exists xs, w = PArr (mkarr Cf [3] xs) /\ List.length xs = 3 /\
    Forall (fun x => is_nan_item x \/ in_unit x) xs.
Proof.
  intros W H. destruct (sfcolor_canonical _ _ W H) as (xs & -> & L & F). exists xs.
  repeat split; auto. eapply Forall_impl; [|exact F]. apply clipped_unit.
Qed.
Theorem C18_MFColor_range v w : wf_arg v -> mfcolor_coerce P v = Ok w ->
  exists n xs, w = PArr (mkarr Cf [n; 3] xs) /\ List.length xs = n * 3 /\
    Forall (fun x => is_nan_item x \/ in_unit x) xs.
Proof.
  intros W H. destruct (mfcolor_canonical _ _ W H) as (n & xs & -> & L & F). exists n, xs.
  repeat split; auto. eapply Forall_impl; [|exact F]. apply clipped_unit.
Qed.
(** the exception is real: nan is stored as it is *)
Theorem C18_nan_refuted : exists v xs,
  sfcolor_coerce P v = Ok (PArr (mkarr Cf [3] xs)) /\ ~ Forall in_unit xs.
Proof.
  exists (PSeq KList [PFloat S754_nan; PFloat fzero; PFloat fzero]), [NF S754_nan; NF fzero; NF fzero].
  split; [reflexivity|]. intros H. inversion H as [|x l U _]; subst. destruct U as (f & E & F & _). injection E as <-. discriminate F.
Qed.
(** components in range that float32 can represent are stored unchanged *)
Theorem C18_in_range_unchanged k r g b :
  Forall (fun f => valid_binary 24 128 f = true /\ is_finite_SF f = true /\ (0 <= SF2R radix2 f <= 1)%R)
    (map r32 [r; g; b]) ->
  sfcolor_coerce P (PSeq k [PFloat r; PFloat g; PFloat b]) = Ok (PArr (mkarr Cf [3] (map (fun f => NF (r32 f)) [r; g; b]))).
Proof.
  intros H. cbn [map] in H. inversion H as [|? ? (Vr & Fr & Ir) H1]; subst. inversion H1 as [|? ? (Vg & Fg & Ig) H2]; subst.
  inversion H2 as [|? ? (Vb & Fb & Ib) _]; subst.
  unfold sfcolor_coerce. cbn [bind]. 
  assert (E : sfvec_coerce P Cf [3] (PSeq k [PFloat r; PFloat g; PFloat b])
      = Ok (PArr (mkarr Cf [3] (map (fun f => NF (r32 f)) [r; g; b])))).
  { apply C17_vector_accepts. exists [PFloat r; PFloat g; PFloat b], [r; g; b].
    split; [repeat constructor; discriminate|]. repeat split; auto. }
  rewrite E. cbn [bind clip a_data a_shape a_code map clip_num].
  rewrite !clip01_id; auto.
Qed.

(** MFColor lists *)
Notation pix := (fun f => NF (clip01 fone32 (r32 f))).
Lemma py_number v f : number v f -> py_float P v = Ok f.
Proof. destruct 1; cbn; rewrite ?H; reflexivity. Qed.
Lemma number_not_list v f : number v f -> forall l, v <> PSeq KList l.
Proof. destruct 1; discriminate. Qed.
Lemma number_discover c v f : number v f -> discover P c v = Ok ([], [cast P c (NF f)]).
Proof.
  intros N. pose proof (py_number _ _ N) as E. destruct N; cbn [discover]; rewrite E; reflexivity.
Qed.
Lemma sfcolor_triple k x y z r g b : number x r -> number y g -> number z b ->
  sfcolor_coerce P (PSeq k [x; y; z]) = Ok (PArr (mkarr Cf [3] (map pix [r; g; b]))).
Proof.
  intros X Y Z. unfold sfcolor_coerce. cbn [bind].
  assert (E : sfvec_coerce P Cf [3] (PSeq k [x; y; z]) = Ok (PArr (mkarr Cf [3] (map (fun f => NF (r32 f)) [r; g; b])))).
  { apply C17_vector_accepts. exists [x; y; z], [r; g; b].
    split; [repeat (apply fl_item; [eapply number_not_list; eassumption|]); constructor|].
    repeat split; auto. repeat (constructor; [apply py_number; assumption|]). constructor. }
  rewrite E. reflexivity.
Qed.
Lemma sfcolor_name t r g b : stringToColor t = Ok (r, g, b) ->
  sfcolor_coerce P (PStr t) = Ok (PArr (mkarr Cf [3] (map pix [r; g; b]))).
Proof.
  intros E. unfold sfcolor_coerce. rewrite E. cbn [bind].
  pose proof (sfcolor_triple KTuple (PFloat r) (PFloat g) (PFloat b) r g b (nm_float r) (nm_float g) (nm_float b)) as H.
  unfold sfcolor_coerce in H. exact H.
Qed.
Definition row (xs : list num) : pv := PArr (mkarr Cf [3] xs).
Lemma number_not_str v f : number v f -> forall t, v <> PStr t.
Proof. destruct 1; discriminate. Qed.
Lemma loop_item x f res cur r : number x f -> List.length cur < 2 ->
  mfcolor_loop P res cur (x :: r) = mfcolor_loop P res (cur ++ [x]) r.
Proof.
  intros N L.
  assert (E : (List.length (cur ++ [x]) =? 3) = false) by (apply Nat.eqb_neq; rewrite app_length; cbn; lia).
  destruct N; cbn [mfcolor_loop]; rewrite E; reflexivity.
Qed.
Lemma loop_third x f res a b r : number x f ->
  mfcolor_loop P res [a; b] (x :: r) =
  bind (sfcolor_coerce P (PSeq KList [a; b; x])) (fun c => mfcolor_loop P (res ++ [c]) [] r).
Proof. intros N. destruct N; reflexivity. Qed.
Lemma loop_denotes items rows : denotes items rows -> forall res,
  mfcolor_loop P res [] items = Ok (res ++ map row rows).
Proof.
  induction 1 as [|t r g b rest rows E D IH|x y z r g b rest rows X Y Z D IH]; intros res.
  - cbn. now rewrite app_nil_r.
  - cbn [mfcolor_loop]. rewrite (sfcolor_name _ _ _ _ E). cbn [bind]. rewrite IH, <- app_assoc. reflexivity.
  - rewrite (loop_item _ _ _ _ _ X) by (cbn; lia). cbn [app].
    rewrite (loop_item _ _ _ _ _ Y) by (cbn; lia). cbn [app].
    rewrite (loop_third _ _ _ _ _ _ Z), (sfcolor_triple _ _ _ _ _ _ _ X Y Z). cbn [bind].
    rewrite IH, <- app_assoc. reflexivity.
Qed.
(** the loop raises ValueError on anything else made of numbers and colour strings *)
Lemma loop_rejects : forall n items, List.length items <= n -> Forall color_item items ->
  (~ exists rows, denotes items rows) -> forall res, mfcolor_loop P res [] items = Exc ValueError.
Proof.
  induction n as [|n IH]; intros items L F N res.
  - destruct items; [|cbn in L; lia]. exfalso. apply N. exists []. constructor.
  - destruct items as [|x items]; [exfalso; apply N; exists []; constructor|].
    inversion F as [|? ? Cx Fr]; subst. cbn in L.
    destruct Cx as [[f X]|(t & [[r g] b] & -> & E)].
    2:{ cbn [mfcolor_loop]. rewrite (sfcolor_name _ _ _ _ E). cbn [bind]. apply IH; auto; [lia|].
        intros [rows D]. apply N. eexists. econstructor; eauto. }
    rewrite (loop_item _ _ _ _ _ X) by (cbn; lia). cbn [app].
    destruct items as [|y items]; [reflexivity|].
    inversion Fr as [|? ? Cy Fr']; subst.
    destruct Cy as [[g Y]|(t & c & -> & E)]; [|reflexivity].
    rewrite (loop_item _ _ _ _ _ Y) by (cbn; lia). cbn [app].
    destruct items as [|z items]; [reflexivity|].
    inversion Fr' as [|? ? Cz Fr'']; subst.
    destruct Cz as [[b Z]|(t & c & -> & E)]; [|reflexivity].
    rewrite (loop_third _ _ _ _ _ _ Z), (sfcolor_triple _ _ _ _ _ _ _ X Y Z). cbn [bind].
    apply IH; auto; [cbn in L; lia|]. intros [rows D]. apply N. eexists. econstructor; eauto.
Qed.

Lemma denotes_rows items rows : denotes items rows -> Forall (fun xs => List.length xs = 3 /\ Forall clipped xs) rows.
Proof.
  induction 1; constructor; auto; (split; [reflexivity|]);
  repeat (constructor; [eexists; split; [reflexivity|split; [apply clip01_valid, r32_valid|apply clip01_idem]]|]); constructor.
Qed.
Lemma concat_len (rows : list (list num)) : Forall (fun xs => List.length xs = 3 /\ Forall clipped xs) rows ->
  List.length (List.concat rows) = List.length rows * 3 /\ Forall clipped (List.concat rows).
Proof.
  induction 1 as [|xs rows [L F] _ [IH1 IH2]]; cbn [List.concat List.length]; [split; [auto|constructor]|].
  rewrite app_length, L, IH1. split; [lia|]. apply Forall_app. auto.
Qed.
Lemma map_cast_clipped xs : Forall clipped xs -> map (cast P Cf) xs = xs.
Proof.
  induction 1; cbn [map]; [auto|]. rewrite (cast_id P Cf); [congruence|auto|now apply clipped_item].
Qed.
(** the base coercion of a list of stored colours stacks them *)
Definition go_discover c := fix go (l : list pv) : res (list (list nat * list num)) :=
  match l with
  | [] => Ok []
  | x :: r => bind (discover P c x) (fun y => bind (go r) (fun ys => Ok (y :: ys)))
  end.
Lemma discover_list c l : discover P c (PSeq KList l) = bind (go_discover c l) stack.
Proof. reflexivity. Qed.
Lemma go_cons c x r : go_discover c (x :: r) =
  bind (discover P c x) (fun y => bind (go_discover c r) (fun ys => Ok (y :: ys))).
Proof. reflexivity. Qed.
Lemma stack_rows rows : Forall (fun xs => List.length xs = 3 /\ Forall clipped xs) rows ->
  bind (mfvec_coerce P Cf [3] (PSeq KList (map row rows))) (fun v => Ok (clip v))
  = Ok (PArr (mkarr Cf [List.length rows; 3] (List.concat rows))).
Proof.
  intros F. destruct (concat_len _ F) as [L C].
  assert (E : go_discover Cf (map row rows) = Ok (map (fun xs => ([3], xs)) rows)).
  { clear L C. induction F as [|xs rows [L C] _ IH]; [reflexivity|]. cbn [map].
    rewrite go_cons, IH. unfold row. cbn [discover a_shape a_data bind].
    rewrite map_cast_clipped by auto. reflexivity. }
  assert (S : exists s, stack (map (fun xs => ([3], xs)) rows) = Ok (s, List.concat rows)).
  { destruct rows as [|x rows']; [eexists; reflexivity|]. cbn [map stack fst].
    eexists. replace (forallb _ _) with true.
    - cbn [map snd List.concat]. rewrite map_map. cbn [snd]. rewrite map_id. reflexivity.
    - symmetry. apply forallb_forall. intros p [<-|Hp]; [reflexivity|].
      apply in_map_iff in Hp as (xs & <- & _). reflexivity. }
  destruct S as [s S].
  cbn [mfvec_coerce]. unfold np_array. rewrite discover_list, E. cbn [bind]. rewrite S. cbn [bind fst snd].
  rewrite (reshape_rows_self Cf (List.length rows)); [|exact L|discriminate]. cbn [bind clip a_code a_shape a_data].
  rewrite map_clipped_id by auto. reflexivity.
Qed.

(** numbers only: the direct conversion *)
Lemma numbers_direct items fs : Forall2 number items fs ->
  exists s, np_array P Cf (PSeq KList items) = Ok (mkarr Cf s (map (fun f => NF (r32 f)) fs)).
Proof.
  intros H. unfold np_array. rewrite discover_list.
  assert (E : go_discover Cf items = Ok (map (fun f => ([], [NF (r32 f)])) fs)).
  { induction H as [|x f items fs N _ IH]; [reflexivity|]. cbn [map].
    rewrite go_cons, (number_discover _ _ _ N), IH. reflexivity. }
  rewrite E. cbn [bind].
  destruct fs as [|f fs]; [eexists; reflexivity|]. cbn [map stack].
  replace (forallb _ _) with true.
  - cbn [bind fst snd map]. eexists. f_equal. f_equal. rewrite map_map. cbn [snd]. cbn [List.concat app]. f_equal.
    clear. induction fs; cbn; congruence.
  - symmetry. apply forallb_forall. intros p [<-|Hp]; [reflexivity|].
    apply in_map_iff in Hp as (g & <- & _). reflexivity.
Qed.
Lemma triples items fs : Forall2 number items fs -> forall n, List.length fs = n * 3 ->
  exists rows, denotes items rows /\ List.length rows = n /\ List.concat rows = map pix fs.
Proof.
  intros H n. revert items fs H. induction n as [|n IH]; intros items fs H L.
  - destruct fs; [|discriminate]. inversion H; subst. exists []. repeat split. constructor.
  - destruct fs as [|r [|g [|b fs]]]; try (cbn in L; lia).
    inversion H as [|x ? ? ? X H1]; subst. inversion H1 as [|y ? ? ? Y H2]; subst.
    inversion H2 as [|z ? ? ? Z H3]; subst. destruct (IH _ _ H3) as (rows & D & R & C); [cbn in L; lia|].
    exists (map pix [r; g; b] :: rows). split; [constructor; auto|]. cbn. rewrite R, C. auto.
Qed.
Lemma denotes_numbers items rows : denotes items rows -> forall fs, Forall2 number items fs ->
  List.length fs = List.length rows * 3 /\ List.concat rows = map pix fs.
Proof.
  induction 1 as [|t r g b rest rows E D IH|x y z r g b rest rows X Y Z D IH]; intros fs H.
  - inversion H; subst. auto.
  - inversion H as [|? ? ? ? N _]; subst. inversion N.
  - inversion H as [|? r' ? ? X' H1]; subst. inversion H1 as [|? g' ? ? Y' H2]; subst.
    inversion H2 as [|? b' ? ? Z' H3]; subst. destruct (IH _ H3) as [L C]. cbn. rewrite C.
    assert (r = r' /\ g = g' /\ b = b') as (-> & -> & ->).
    { repeat split.
      - apply py_number in X, X'. congruence.
      - apply py_number in Y, Y'. congruence.
      - apply py_number in Z, Z'. congruence. }
    split; [lia|reflexivity].
Qed.
Lemma items_cases items : Forall color_item items ->
  (exists fs, Forall2 number items fs) \/
  (exists pre t c post fs, items = pre ++ PStr t :: post /\ Forall2 number pre fs /\ stringToColor t = Ok c).
Proof.
  induction 1 as [|x items C _ IH]; [left; exists []; constructor|].
  destruct C as [[f X]|(t & c & -> & E)].
  - destruct IH as [[fs H]|(pre & t & c & post & fs & -> & H & E)].
    + left. exists (f :: fs). constructor; auto.
    + right. exists (x :: pre), t, c, post, (f :: fs). repeat split; auto.
  - right. exists [], t, c, items, []. repeat split; auto.
Qed.
Lemma name_fails (SP : sane P) pre t c post fs : Forall2 number pre fs -> stringToColor t = Ok c ->
  bind (mfvec_coerce P Cf [3] (PSeq KList (pre ++ PStr t :: post))) (fun v => Ok (clip v)) = Exc ValueError.
Proof.
  intros N E. destruct SP as [SP _]. apply SP in E.
  assert (G : go_discover Cf (pre ++ PStr t :: post) = Exc ValueError).
  { clear - N E. induction N as [|x f pre fs X _ IH]; cbn [app]; rewrite go_cons.
    - cbn [discover py_float]. rewrite E. reflexivity.
    - rewrite (number_discover _ _ _ X), IH. reflexivity. }
  assert (M : mapM (py_float P) (pre ++ PStr t :: post) = Exc ValueError).
  { clear - N E. induction N as [|x f pre fs X _ IH]; cbn [app mapM].
    - cbn [py_float]. rewrite E. reflexivity.
    - rewrite (py_number _ _ X). cbn [bind]. rewrite IH. reflexivity. }
  cbn [mfvec_coerce]. unfold np_array. rewrite discover_list, G. cbn [bind]. rewrite M. reflexivity.
Qed.

(** C18.  A list, tuple or range of numbers and colour names is accepted by
    MFColor exactly when it is a sequence of names and of triples of numbers;
    the stored array then has one row per colour, in order.  Everything else
    made of numbers and names is a ValueError. *)
Theorem C18_MFColor_list k items rows : sane P -> k <> KIter -> Forall color_item items ->
  denotes items rows ->
  mfcolor_coerce P (PSeq k items) = Ok (PArr (mkarr Cf [List.length rows; 3] (List.concat rows))).
Proof.
  intros SP K F D. unfold mfcolor_coerce.
  assert (B : mfvec_coerce P Cf [3] (PSeq k items) = mfvec_coerce P Cf [3] (PSeq KList items)) by reflexivity.
  rewrite B.
  destruct (items_cases _ F) as [[fs N]|(pre & t & c & post & fs & -> & N & E)].
  - destruct (denotes_numbers _ _ D _ N) as [L C]. destruct (numbers_direct _ _ N) as [s Es].
    cbn [mfvec_coerce]. rewrite Es.
    rewrite (reshape_rows_self Cf (List.length rows)); [|rewrite map_length; exact L|discriminate].
    cbn [bind clip a_code a_shape a_data]. rewrite map_map, C. reflexivity.
  - rewrite (name_fails SP _ _ _ _ _ N E).
    assert (I : (match PSeq k (pre ++ PStr t :: post) with PSeq KIter _ => Ok [] | _ => py_iter P (PSeq k (pre ++ PStr t :: post)) end)
      = Ok (pre ++ PStr t :: post)) by (destruct k; [reflexivity..|congruence]).
    rewrite I. cbn [bind]. rewrite (loop_denotes _ _ D). cbn [bind app].
    apply stack_rows. eapply denotes_rows; eauto.
Qed.
Theorem C18_MFColor_rejects k items : sane P -> k <> KIter -> Forall color_item items ->
  (~ exists rows, denotes items rows) -> mfcolor_coerce P (PSeq k items) = Exc ValueError.
Proof.
  intros SP K F D. unfold mfcolor_coerce.
  assert (B : mfvec_coerce P Cf [3] (PSeq k items) = mfvec_coerce P Cf [3] (PSeq KList items)) by reflexivity.
  rewrite B.
  assert (E : bind (mfvec_coerce P Cf [3] (PSeq KList items)) (fun v => Ok (clip v)) = Exc ValueError).
  { destruct (items_cases _ F) as [[fs N]|(pre & t & c & post & fs & -> & N & E)].
    - destruct (numbers_direct _ _ N) as [s Es]. cbn [mfvec_coerce]. rewrite Es.
      unfold reshape_rows. cbn [size fold_right a_data Nat.eqb orb Nat.mul Nat.add]. rewrite map_length.
      destruct (Nat.eqb_spec (List.length fs mod 3) 0) as [M|M]; [|reflexivity].
      exfalso. apply D. destruct (triples _ _ N (List.length fs / 3)) as (rows & R & _).
      { pose proof (Nat.div_mod (List.length fs) 3 ltac:(lia)). lia. }
      eauto.
    - eapply name_fails; eauto. }
  rewrite E.
  assert (I : (match PSeq k items with PSeq KIter _ => Ok [] | _ => py_iter P (PSeq k items) end)
      = Ok items) by (destruct k; [reflexivity..|congruence]).
  rewrite I. cbn [bind]. rewrite (loop_rejects _ _ (le_n _) F D). reflexivity.
Qed.
(** An iterator with a name in it silently gives an empty list of colours. *)
Theorem C18_iterator_refuted items t c : sane P -> Forall color_item items ->
  In (PStr t) items -> stringToColor t = Ok c ->
  mfcolor_coerce P (PSeq KIter items) = Ok (PArr (mkarr Cf [0; 3] [])).
Proof.
  intros SP F I E. unfold mfcolor_coerce.
  assert (B : mfvec_coerce P Cf [3] (PSeq KIter items) = mfvec_coerce P Cf [3] (PSeq KList items)) by reflexivity.
  rewrite B.
  destruct (items_cases _ F) as [[fs N]|(pre & t' & c' & post & fs & -> & N & E')].
  - exfalso. clear - N I. induction N as [|x f l fs X _ IH]; [auto|]. destruct I as [->|I]; [inversion X|auto].
  - rewrite (name_fails SP _ _ _ _ _ N E'). reflexivity.
Qed.
(** Names next to nested triples are rejected: (r,g,b) tuples or lists followed
    by a name. *)
Theorem C18_nested_with_name_refuted k' x y z rest t c : sane P -> k' <> KIter ->
  (exists r g b, number x r /\ number y g /\ number z b) -> stringToColor t = Ok c ->
  mfcolor_coerce P (PSeq KList (PSeq k' [x; y; z] :: PStr t :: rest)) = Exc ValueError.
Proof.
  intros [SP _] K' (r & g & b & X & Y & Z) E. apply SP in E.
  assert (D : discover P Cf (PSeq k' [x; y; z]) = Ok ([3], map (fun f => NF (r32 f)) [r; g; b])).
  { assert (D' : discover P Cf (PSeq KList [x; y; z]) = Ok ([3], map (fun f => NF (r32 f)) [r; g; b])).
    { rewrite discover_list, !go_cons. rewrite (number_discover _ _ _ X), (number_discover _ _ _ Y), (number_discover _ _ _ Z). reflexivity. }
    destruct k'; [exact D'..|congruence]. }
  assert (B : bind (mfvec_coerce P Cf [3] (PSeq KList (PSeq k' [x; y; z] :: PStr t :: rest))) (fun v => Ok (clip v)) = Exc TypeError).
  { cbn [mfvec_coerce]. unfold np_array. rewrite discover_list, !go_cons, D. cbn [bind].
    cbn [discover py_float]. rewrite E. cbn [of_option bind mapM py_float]. reflexivity. }
  unfold mfcolor_coerce. rewrite B. reflexivity.
Qed.

(** *** and the right value: what is stored is what was given *)
Theorem C15_SFBool_value t : p_int P t = None ->
  (same_but_case t (lit "true") -> sfbool_coerce P (PStr t) = Ok (PInt 1)) /\
  (same_but_case t (lit "false") -> sfbool_coerce P (PStr t) = Ok (PInt 0)).
Proof.
  intros E. unfold sfbool_coerce. rewrite E. split; intros S; apply lower_same in S; rewrite S; reflexivity.
Qed.
Theorem C15_SFBool_number_value v f : number v f ->
  sfbool_coerce P v = Ok (PInt (match f with S754_zero _ => 0 | _ => 1 end)).
Proof.
  assert (Z : forall z f, float_of_Z z = Some f -> negb (z =? 0)%Z = match f with S754_zero _ => false | _ => true end).
  { intros z g. unfold float_of_Z. intros H.
    destruct (Z.eqb_spec z 0) as [->|N]; [injection H as <-; reflexivity|].
    pose proof (BinarySingleNaN.binary_normalize_correct 53 1024 prec53 lt53 mode_NE z 0 false) as B.
    cbv zeta in B. set (b := BinarySingleNaN.binary_normalize 53 1024 prec53 lt53 mode_NE z 0 false) in B.
    assert (E2 : B2SF b = SpecFloat.binary_normalize 53 1024 z 0 false).
    { destruct z as [|p|p]; [congruence|..]; unfold b; cbn [BinarySingleNaN.binary_normalize SpecFloat.binary_normalize];
      rewrite B2SF_SF2B, sf_round_flocq; reflexivity. }
    rewrite <- E2 in H. destruct (Float.is_inf (B2SF b)); [discriminate|]. injection H as <-.
    destruct b as [s|s| |s m e Hb]; try reflexivity. exfalso.
    assert (E : F2R (Float radix2 z 0) = IZR z) by (unfold F2R; cbn; lra). rewrite E in B.
    destruct (Rlt_bool_spec (Rabs (round radix2 (SpecFloat.fexp 53 1024) (round_mode mode_NE) (IZR z))) (bpow radix2 1024)) as [L|L].
    - destruct B as [B _]. cbn [B2R] in B. 
      assert (1 <= Rabs (round radix2 (SpecFloat.fexp 53 1024) (round_mode mode_NE) (IZR z)))%R.
      { apply abs_round_ge_generic; try typeclasses eauto; [apply (fexp_correct 53 1024 prec53)| |].
        - change 1%R with (bpow radix2 0). apply generic_format_bpow. cbv; discriminate.
        - rewrite <- abs_IZR. apply IZR_le. lia. }
      rewrite <- B, Rabs_R0 in H. lra.
    - destruct s; discriminate B. }
  intros N. destruct N as [f|z f H|b f H].
  - destruct f; reflexivity.
  - unfold sfbool_coerce. cbn [py_true bind]. rewrite (Z _ _ H). destruct f; reflexivity.
  - unfold sfbool_coerce. cbn [py_true bind]. apply Z in H. destruct b, f; try discriminate; reflexivity.
Qed.
Theorem C15_SFString_value k ts : k <> KIter ->
  sfstring_coerce P (PSeq k (map PStr ts)) = Ok (PStr (List.concat ts)).
Proof.
  intros K.
  assert (G : mapM (fun x => match x with PStr t => Ok t | _ => Exc TypeError end) (map PStr ts) = Ok ts).
  { induction ts as [|t ts IH]; [reflexivity|]. cbn [map mapM bind]. rewrite IH. reflexivity. }
  destruct ts as [|t [|u ts]]; destruct k; try congruence; try reflexivity;
  try (cbn; rewrite app_nil_r; reflexivity);
  cbn [map sfstring_coerce] in *; rewrite G; reflexivity.
Qed.
Theorem C15_MFString_value k ts : mfstring_coerce P (PSeq k (map PStr ts)) = Ok (PSeq KList (map PStr ts)).
Proof.
  unfold mfstring_coerce. cbn [py_iter bind].
  replace (mapM (sfstring_coerce P) (map PStr ts)) with (Ok (map PStr ts)); [reflexivity|].
  symmetry. clear. induction ts as [|t ts IH]; [reflexivity|]. cbn [map mapM]. cbn [sfstring_coerce bind].
  rewrite IH. reflexivity.
Qed.
Lemma in_range_wrap c z : item_of c (NZ z) -> (wrap_code c z =? z)%Z = true.
Proof.
  intros H. apply Z.eqb_eq. unfold wrap_code, wrap.
  destruct c; cbn [item_of] in H; try contradiction.
  - change (2 ^ 32)%Z with 4294967296%Z. change (2 ^ 31)%Z with 2147483648%Z in H. cbn [andb].
    change (2 ^ (32 - 1))%Z with 2147483648%Z.
    destruct (Z.lt_ge_cases z 0).
    + replace (z mod 4294967296)%Z with (z + 4294967296)%Z
        by (apply (Z.mod_unique _ 4294967296 (-1)); lia).
      destruct (Z.leb_spec 2147483648 (z + 4294967296)); lia.
    + rewrite Z.mod_small by lia. destruct (Z.leb_spec 2147483648 z); lia.
  - cbn [andb]. apply Z.mod_small. exact H.
  - change (2 ^ 64)%Z with 18446744073709551616%Z. change (2 ^ 63)%Z with 9223372036854775808%Z in H. cbn [andb].
    change (2 ^ (64 - 1))%Z with 9223372036854775808%Z.
    destruct (Z.lt_ge_cases z 0).
    + replace (z mod 18446744073709551616)%Z with (z + 18446744073709551616)%Z
        by (apply (Z.mod_unique _ 18446744073709551616 (-1)); lia).
      destruct (Z.leb_spec 9223372036854775808 (z + 18446744073709551616)); lia.
    + rewrite Z.mod_small by lia. destruct (Z.leb_spec 9223372036854775808 z); lia.
Qed.
Theorem C15_MFInt32_value c k l w : c = Ci \/ c = CI ->
  mfint32_coerce P c (PSeq k l) = Ok w <->
  exists zs, Forall2 (fun x z => py_int P x = Ok z) l zs /\ Forall (fun z => item_of c (NZ z)) zs /\
    w = PArr (mkarr c [List.length l] (map NZ zs)).
Proof.
  intros C. assert (C' : c = Ci \/ c = CI \/ c = Cl) by tauto. cbn [mfint32_coerce]. split.
  - intros H. apply bind_ok in H as (zs & E & H). apply bind_ok in H as (a & Ea & [= <-]).
    apply mapM_ok in E. apply iarray_ok in Ea as [-> F]; auto. exists zs.
    rewrite map_length, (Forall2_len _ _ _ E). rewrite Forall_map in F. repeat split; auto.
  - intros (zs & E & F & ->). rewrite (Forall2_len _ _ _ E). apply mapM_ok in E. rewrite E. cbn [bind].
    unfold iarray. replace (forallb _ zs) with true; [reflexivity|].
    symmetry. apply forallb_forall. intros z Hz. rewrite Forall_forall in F. now apply in_range_wrap, F.
Qed.
Theorem C15_MFFloat_value c k l w :
  mffloat_coerce P c (PSeq k l) = Ok w <->
  exists xs fs, flattens l xs /\ Forall2 (fun x f => py_float P x = Ok f) xs fs /\
    w = PArr (mkarr c [List.length xs] (map (fun f => cast P c (NF f)) fs)).
Proof.
  cbn [mffloat_coerce]. split.
  - intros H. apply bind_ok in H as (fs & E & [= <-]). apply mapM_ok in E.
    exists (collapse l), fs. split; [apply collapse_flattens|]. split; auto.
    unfold farray. now rewrite (Forall2_len _ _ _ E).
  - intros (xs & fs & F & E & ->). apply collapse_spec in F. subst xs.
    rewrite (Forall2_len _ _ _ E). apply mapM_ok in E. rewrite E. reflexivity.
Qed.
(** rows of numbers, as lists or tuples, give the array of those rows *)
Theorem C15_MFVec_value c d k k' rows frows : 1 <= d -> k' <> KIter ->
  Forall2 (fun r fs => Forall2 number r fs /\ List.length r = d) rows frows ->
  mfvec_coerce P c [d] (PSeq k (map (PSeq k') rows)) =
  Ok (PArr (mkarr c [List.length rows; d] (map (fun f => cast P c (NF f)) (List.concat frows)))).
Proof.
  intros D K H.
  assert (R : forall r fs, Forall2 number r fs -> r <> [] -> discover P c (PSeq k' r) =
     Ok ([List.length r], map (fun f => cast P c (NF f)) fs)).
  { intros r fs N NE.
    assert (B : discover P c (PSeq k' r) = discover P c (PSeq KList r)) by (destruct k'; [reflexivity..|congruence]).
    rewrite B, discover_list.
    assert (E : go_discover c r = Ok (map (fun f => ([], [cast P c (NF f)])) fs)).
    { clear - N. induction N as [|x f r fs N _ IH]; [reflexivity|]. cbn [map].
      rewrite go_cons, (number_discover _ _ _ N), IH. reflexivity. }
    rewrite E. cbn [bind]. apply Forall2_len in N as L.
    destruct fs as [|f fs]; [destruct r; [congruence|discriminate]|]. cbn [map stack].
    replace (forallb _ _) with true.
    - cbn [List.length]. rewrite map_length, L. cbn [map snd List.concat app]. do 3 f_equal.
      rewrite map_map. cbn [snd]. clear. induction fs; cbn; congruence.
    - symmetry. apply forallb_forall. intros p [<-|Hp]; [reflexivity|].
      apply in_map_iff in Hp as (g & <- & _). reflexivity. }
  assert (E : go_discover c (map (PSeq k') rows) = Ok (map (fun fs => ([d], map (fun f => cast P c (NF f)) fs)) frows)).
  { induction H as [|r fs rows frows [N L] _ IH]; [reflexivity|]. cbn [map].
    rewrite go_cons, (R _ _ N), L, IH; [reflexivity|]. intros ->. cbn in L. lia. }
  assert (T : exists s, stack (map (fun fs => ([d], map (fun f => cast P c (NF f)) fs)) frows)
      = Ok (s, map (fun f => cast P c (NF f)) (List.concat frows))).
  { rewrite concat_map. destruct frows as [|fs frows']; [eexists; reflexivity|]. cbn [map stack].
    eexists. replace (forallb _ _) with true.
    - cbn [map snd List.concat]. rewrite map_map. reflexivity.
    - symmetry. apply forallb_forall. intros p [<-|Hp]; cbn [fst].
      + destruct (list_eq_dec _ _ _); congruence.
      + apply in_map_iff in Hp as (g & <- & _). cbn [fst]. destruct (list_eq_dec _ _ _); congruence. }
  destruct T as [s T].
  cbn [mfvec_coerce]. unfold np_array. rewrite discover_list, E. cbn [bind]. rewrite T. cbn [bind fst snd].
  rewrite (reshape_rows_self c (List.length rows)).
  - reflexivity.
  - rewrite map_length. cbn [size fold_right]. rewrite Nat.mul_1_r.
    clear - H. induction H as [|r fs rows frows [N L] _ IH]; [reflexivity|]. cbn [List.concat List.length].
    rewrite app_length, IH, <- (Forall2_len _ _ _ N), L. lia.
  - cbn. lia.
Qed.
(** strings of numbers separated by commas and white space *)
Theorem C15_MFFloat_string_value c t fs :
  Forall2 (fun w f => p_float P w = Some f) (words t) fs ->
  mffloat_coerce P c (PStr t) = Ok (PArr (mkarr c [List.length fs] (map (fun f => cast P c (NF f)) fs))).
Proof.
  intros H. cbn [mffloat_coerce].
  replace (mapM _ (words t)) with (Ok fs); [reflexivity|]. symmetry. apply mapM_ok.
  induction H as [|w f ws fs E _ IH]; constructor; auto. now rewrite E.
Qed.
End S.

(** *** concrete cases *)
(** a runtime whose float() and int() know the string "1" only *)
Definition P1 : prims := {|
  p_int := fun t => if text_eqb t (lit "1") then Some 1%Z else None;
  p_float := fun t => if text_eqb t (lit "1") then Some fone else None;
  p_str := fun _ => lit "?"; p_decode := fun b => Some b;
  p_f2i := fun _ f => match trunc f with Some z => z | None => 0%Z end;
  p_items := fun a => Ok [] |}.
Example ex_sane : sane P1.
Proof.
  split.
  - intros t c H. change (lit "1") with [49%N] in *. cbn. destruct (text_eqb t [49%N]) eqn:E; [|reflexivity].
    apply text_eqb_spec in E. subst t. vm_compute in H. discriminate H.
  - intros t f. cbn. destruct (text_eqb _ _); [|discriminate]. intros [= <-]. reflexivity.
Qed.
Definition fhalf : fl := S754_finite false 4503599627370496 (-53).
Definition ftwo : fl := S754_finite false 4503599627370496 (-51).
(** [[1, [0.5]], (2.0)] as SFVec3f; nested one level more it is the same *)
Example ex_vec : sfvec_coerce P1 Cf [3] (PSeq KTuple [PSeq KList [PInt 1; PSeq KList [PFloat fhalf]]; PFloat ftwo])
  = Ok (PArr (mkarr Cf [3] [NF fone32; NF (r32 fhalf); NF (r32 ftwo)])).
Proof. vm_compute. reflexivity. Qed.
Example ex_vec_string : sfvec_coerce P1 Cd [2] (PStr (lit "1,1")) = Ok (PArr (mkarr Cd [2] [NF fone; NF fone])).
Proof. vm_compute. reflexivity. Qed.
Example ex_mat_array : is_ok (sfvec_coerce P1 Cf [2; 2] (PArr (mkarr Cd [4] [NF fone; NF fzero; NF fzero; NF fone]))) = true.
Proof. vm_compute. reflexivity. Qed.
(** [2.0, 'red', ...]: clamped; names and numbers mixed *)
Definition ex_items : list pv := [PStr (lit "Red"); PFloat ftwo; PInt 0; PFloat fhalf; PStr (lit "#00ff00")].
Example ex_mixed : mfcolor_coerce P1 (PSeq KList ex_items)
  = Ok (PArr (mkarr Cf [3; 3] [NF fone32; NF fzero; NF fzero; NF fone32; NF fzero; NF (r32 fhalf); NF fzero; NF fone32; NF fzero])).
Proof. vm_compute. reflexivity. Qed.
Example ex_mixed_hyps : Forall color_item ex_items /\ exists rows, denotes ex_items rows.
Proof.
  split.
  - repeat (apply Forall_cons; [red|]); [..|apply Forall_nil].
    + right. eexists _, _. split; [reflexivity|]. vm_compute. reflexivity.
    + left. exists ftwo. constructor.
    + left. exists fzero. constructor. reflexivity.
    + left. exists fhalf. constructor.
    + right. eexists _, _. split; [reflexivity|]. vm_compute. reflexivity.
  - eexists. eapply dn_name; [vm_compute; reflexivity|].
    eapply dn_rgb; [apply nm_float|apply nm_int; reflexivity|apply nm_float|].
    eapply dn_name; [vm_compute; reflexivity|]. constructor.
Qed.
Example ex_leftover : mfcolor_coerce P1 (PSeq KList [PStr (lit "red"); PInt 1]) = Exc ValueError.
Proof. vm_compute. reflexivity. Qed.
Example ex_int : mfint32_coerce P1 Ci (PSeq KList [PInt 3; PFloat ftwo; PStr (lit "1")]) = Ok (PArr (mkarr Ci [3] [NZ 3; NZ 2; NZ 1])).
Proof. vm_compute. reflexivity. Qed.
Example ex_bool : sfbool_coerce P1 (PStr (lit "TRUE")) = Ok (PInt 1) /\ sfbool_coerce P1 (PStr (lit "False")) = Ok (PInt 0).
Proof. vm_compute. auto. Qed.
Example ex_strings : mfstring_coerce P1 (PSeq KTuple [PStr (lit "a"); PBytes (lit "b"); PSeq KList [PStr (lit "c"); PStr (lit "d")]])
  = Ok (PSeq KList [PStr (lit "a"); PStr (lit "b"); PStr (lit "cd")]).
Proof. vm_compute. reflexivity. Qed.
Example ex_rows : mfvec_coerce P1 Cd [2] (PSeq KList [PSeq KTuple [PInt 1; PInt 0]; PSeq KTuple [PInt 0; PInt 1]])
  = Ok (PArr (mkarr Cd [2; 2] [NF fone; NF fzero; NF fzero; NF fone])).
Proof. vm_compute. reflexivity. Qed.

Print Assumptions C15_SFVec.
Print Assumptions C15_MFColor.
Print Assumptions C17_vector_accepts.
Print Assumptions C18_MFColor_range.
Print Assumptions C18_MFColor_list.
Print Assumptions C18_MFColor_rejects.
