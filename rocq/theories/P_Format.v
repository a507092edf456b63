(** C65: the number format each field type stores. *)
From Coq Require Import Reals SpecFloat.
From Flocq Require Import Core.Core IEEE754.BinarySingleNaN.
From Verif Require Import Base Text Float Float_Proofs Coerce_Model Coerce_Spec Coerce_Proofs P_Coerce PyNum VrmlStr_Model VrmlStr_Spec
  P_VrmlStr.
Local Open Scope nat_scope.
Local Open Scope list_scope.

(** *** specification: the vector types and the precision their names promise *)
(** one vector of so many doubles *)
Definition double_vec (t : fty) : option nat :=
  match t with SFVec2d => Some 2 | SFVec3d => Some 3 | SFVec4d => Some 4 | _ => None end.
(** any number of vectors of so many doubles (the class [MFVec2d] is not among
    them, see below; rotations are kept as doubles in lists only) *)
Definition double_rows (t : fty) : option nat :=
  match t with MFVec3d => Some 3 | MFVec4d | MFRotation => Some 4 | _ => None end.
(** one vector of so many single-precision numbers *)
Definition single_vec (t : fty) : option nat :=
  match t with SFVec2f => Some 2 | SFVec3f => Some 3 | SFVec4f | SFRotation => Some 4 | _ => None end.
Definition single_rows (t : fty) : option nat :=
  match t with MFVec2f | MFVec2d => Some 2 | MFVec3f => Some 3 | MFVec4f => Some 4 | _ => None end.
Definition flat_doubles (t : fty) : bool := match t with MFFloat | MFTime => true | _ => false end.

Definition is_double (f : fl) : Prop := valid_binary 53 1024 f = true.
Definition vec (k : skind) (fs : list fl) : pv := PSeq k (map PFloat fs).
Definition rows (k k' : skind) (rs : list (list fl)) : pv := PSeq k (map (vec k') rs).

Lemma floats_flat fs : flattens (map PFloat fs) (map PFloat fs).
Proof. induction fs; constructor; auto. intros l. discriminate. Qed.
Lemma floats_num P fs : Forall2 (fun x f => py_float P x = Ok f) (map PFloat fs) fs.
Proof. induction fs; constructor; auto. Qed.
Lemma cast_double P f : is_double f -> cast P Cd (NF f) = NF f.
Proof. intros H. cbn. f_equal. apply r64_exact, H. Qed.
Lemma casts_double P fs : Forall is_double fs -> map (fun f => cast P Cd (NF f)) fs = map NF fs.
Proof. induction 1; cbn [map]; [reflexivity|]. rewrite cast_double by assumption. f_equal. assumption. Qed.

(** C65.  Every accepted value is stored in the format of the table [stored]. *)
Theorem C65_stored_format : forall P t v u, sane P -> wf_arg v -> coerce P t v = Ok u -> finite u -> stored t u.
Proof. exact coerce_stored. Qed.

(** C65.  A double vector keeps each of its doubles exactly. *)
Theorem C65_double_vectors_exact : forall P t d k fs, double_vec t = Some d -> List.length fs = d -> Forall is_double fs ->
  coerce P t (vec k fs) = Ok (PArr (mkarr Cd [d] (map NF fs))).
Proof.
  intros P t d k fs T L V.
  assert (E : sfvec_coerce P Cd [d] (vec k fs) = Ok (PArr (mkarr Cd [d] (map NF fs)))).
  { apply C17_vector_accepts. exists (map PFloat fs), fs. split; [apply floats_flat|]. split; [apply floats_num|].
    rewrite map_length, casts_double by exact V. auto. }
  destruct t; try discriminate; injection T as <-; exact E.
Qed.
Lemma go_floats P c fs : (fix go (l : list pv) : res (list (list nat * list num)) :=
    match l with
    | [] => Ok []
    | x :: r => bind (discover P c x) (fun y => bind (go r) (fun ys => Ok (y :: ys)))
    end) (map PFloat fs) = Ok (map (fun f => ([], [cast P c (NF f)])) fs).
Proof. induction fs as [|f fs IH]; [reflexivity|]. cbn [map]. cbn [discover py_float bind]. rewrite IH. reflexivity. Qed.
Lemma concat_snd P c fs : List.concat (map snd (map (fun f : fl => (@nil nat, [cast P c (NF f)])) fs)) = map (fun f => cast P c (NF f)) fs.
Proof. induction fs as [|f fs IH]; [reflexivity|]. cbn. f_equal. exact IH. Qed.
Lemma discover_vec P c k fs : k <> KIter -> fs <> [] ->
  discover P c (vec k fs) = Ok ([List.length fs], map (fun f => cast P c (NF f)) fs).
Proof.
  intros K N. unfold vec. destruct k; try congruence; cbn [discover]; rewrite go_floats; cbn [bind];
  unfold stack; (destruct fs as [|f fs]; [congruence|]); cbn [map];
  (replace (forallb _ _) with true; [f_equal; f_equal; [cbn; now rewrite !map_length|exact (concat_snd P c (f :: fs))]
   |symmetry; apply forallb_forall; intros x [<-|Hx]; [reflexivity|apply in_map_iff in Hx as (y & <- & _); reflexivity]]).
Qed.
Lemma go_rows P c k d rs : k <> KIter -> 0 < d -> Forall (fun r => List.length r = d) rs ->
  (fix go (l : list pv) : res (list (list nat * list num)) :=
    match l with
    | [] => Ok []
    | x :: r => bind (discover P c x) (fun y => bind (go r) (fun ys => Ok (y :: ys)))
    end) (map (vec k) rs) = Ok (map (fun r => ([d], map (fun f => cast P c (NF f)) r)) rs).
Proof.
  intros K D. induction 1 as [|r rs Hr _ IH]; [reflexivity|]. cbn [map]. rewrite discover_vec; [|exact K|intros ->; cbn in Hr; lia].
  cbn [bind]. rewrite IH. rewrite Hr. reflexivity.
Qed.
Lemma length_rows {A} d (rs : list (list A)) : Forall (fun r => List.length r = d) rs -> List.length (List.concat rs) = List.length rs * d.
Proof. induction 1 as [|r rs Hr _ IH]; [reflexivity|]. cbn. rewrite app_length, Hr, IH. reflexivity. Qed.
Lemma mfvec_rows P c k k' d rs : k' <> KIter -> 0 < d -> Forall (fun r => List.length r = d) rs ->
  mfvec_coerce P c [d] (rows k k' rs) = Ok (PArr (mkarr c [List.length rs; d] (map (fun f => cast P c (NF f)) (List.concat rs)))).
Proof.
  intros K D F. unfold rows, mfvec_coerce, np_array. cbn [discover]. rewrite (go_rows P c k' d rs K D F). cbn [bind].
  assert (E : stack (map (fun r => ([d], map (fun f => cast P c (NF f)) r)) rs) =
    Ok (match rs with [] => [0] | _ => [List.length rs; d] end, map (fun f => cast P c (NF f)) (List.concat rs))).
  { unfold stack. destruct rs as [|r rs]; [reflexivity|]. cbn [map].
    replace (forallb _ _) with true.
    - f_equal. f_equal; [cbn; now rewrite map_length|]. rewrite concat_map. f_equal. cbn. f_equal.
      rewrite map_map. apply map_ext. reflexivity.
    - symmetry. apply forallb_forall. intros x [<-|Hx]; [|apply in_map_iff in Hx as (y & <- & _)]; cbn [fst];
      (destruct (list_eq_dec Nat.eq_dec [d] [d]); [reflexivity|congruence]). }
  rewrite E. cbn [bind fst snd]. unfold reshape_rows. cbn [a_data a_code size fold_right].
  rewrite map_length, (length_rows d rs F), Nat.mul_1_r.
  replace (d =? 0) with false by (symmetry; apply Nat.eqb_neq; lia).
  rewrite Nat.mod_mul, Nat.div_mul by lia. reflexivity.
Qed.
(** C65.  A list of double vectors keeps each of its doubles exactly, row by row. *)
Theorem C65_double_rows_exact : forall P t d k k' rs, double_rows t = Some d -> k' <> KIter ->
  Forall (fun r => List.length r = d /\ Forall is_double r) rs ->
  coerce P t (rows k k' rs) = Ok (PArr (mkarr Cd [List.length rs; d] (map NF (List.concat rs)))).
Proof.
  intros P t d k k' rs T K F.
  assert (D : 0 < d) by (destruct t; try discriminate; injection T as <-; lia).
  assert (E : mfvec_coerce P Cd [d] (rows k k' rs) = Ok (PArr (mkarr Cd [List.length rs; d] (map NF (List.concat rs))))).
  { rewrite mfvec_rows; auto; [|eapply Forall_impl; [|exact F]; intros r H; apply H].
    rewrite casts_double; [reflexivity|]. induction F as [|r rs [_ H] _ IH]; [constructor|]. cbn. apply Forall_app; auto. }
  destruct t; try discriminate; injection T as <-; exact E.
Qed.
(** C65.  A list of doubles keeps them exactly. *)
Theorem C65_flat_doubles_exact : forall P t k fs, flat_doubles t = true -> Forall is_double fs ->
  coerce P t (vec k fs) = Ok (PArr (mkarr Cd [List.length fs] (map NF fs))).
Proof.
  intros P t k fs T V.
  assert (C : collapse (map PFloat fs) = map PFloat fs) by (apply collapse_spec, floats_flat).
  assert (M : mapM (py_float P) (map PFloat fs) = Ok fs) by (apply mapM_ok, floats_num).
  assert (E : mffloat_coerce P Cd (vec k fs) = Ok (PArr (mkarr Cd [List.length fs] (map NF fs)))).
  { unfold vec. cbn [mffloat_coerce]. rewrite C, M. cbn [bind]. unfold farray. rewrite casts_double by exact V. reflexivity. }
  destruct t; try discriminate; exact E.
Qed.
(** C65.  The single-precision types store the nearest single, each time. *)
Theorem C65_single_vectors_rounded : forall P t d k fs, single_vec t = Some d -> List.length fs = d ->
  coerce P t (vec k fs) = Ok (PArr (mkarr Cf [d] (map (fun f => NF (r32 f)) fs))).
Proof.
  intros P t d k fs T L.
  assert (E : sfvec_coerce P Cf [d] (vec k fs) = Ok (PArr (mkarr Cf [d] (map (fun f => NF (r32 f)) fs)))).
  { apply C17_vector_accepts. exists (map PFloat fs), fs. split; [apply floats_flat|]. split; [apply floats_num|].
    rewrite map_length. split; [exact L|]. reflexivity. }
  destruct t; try discriminate; injection T as <-; exact E.
Qed.
Theorem C65_single_rows_rounded : forall P t d k k' rs, single_rows t = Some d -> k' <> KIter ->
  Forall (fun r => List.length r = d) rs ->
  coerce P t (rows k k' rs) = Ok (PArr (mkarr Cf [List.length rs; d] (map (fun f => NF (r32 f)) (List.concat rs)))).
Proof.
  intros P t d k k' rs T K F.
  assert (D : 0 < d) by (destruct t; try discriminate; injection T as <-; lia).
  pose proof (mfvec_rows P Cf k k' d rs K D F) as E. cbn [cast] in E.
  destruct t; try discriminate; injection T as <-; exact E.
Qed.
(** C65.  Integer lists take exactly the numbers of the 32-bit range, signed or
    not, and keep them. *)
Definition int_list (t : fty) : option (tcode * Z * Z) :=
  match t with
  | MFInt32 => Some (Ci, -2147483648, 2147483647)%Z
  | MFUInt32 | SFImage => Some (CI, 0, 4294967295)%Z
  | _ => None
  end.
Lemma wrap_i z : (wrap 32 true z =? z)%Z = true <-> (-2147483648 <= z <= 2147483647)%Z.
Proof.
  unfold wrap. cbn [andb]. change (2 ^ 32)%Z with 4294967296%Z. change (2 ^ (32 - 1))%Z with 2147483648%Z. rewrite Z.eqb_eq.
  pose proof (Z.mod_pos_bound z 4294967296 ltac:(lia)) as B. pose proof (Z.div_mod z 4294967296 ltac:(lia)) as E.
  destruct (2147483648 <=? z mod 4294967296)%Z eqn:C; [apply Z.leb_le in C|apply Z.leb_gt in C]; lia.
Qed.
Lemma wrap_I z : (wrap 32 false z =? z)%Z = true <-> (0 <= z <= 4294967295)%Z.
Proof.
  unfold wrap. cbn [andb]. change (2 ^ 32)%Z with 4294967296%Z. rewrite Z.eqb_eq.
  pose proof (Z.mod_pos_bound z 4294967296 ltac:(lia)) as B. pose proof (Z.div_mod z 4294967296 ltac:(lia)) as E. lia.
Qed.
Theorem C65_integers_exact : forall P t c lo hi k zs w, int_list t = Some (c, lo, hi) ->
  coerce P t (PSeq k (map PInt zs)) = Ok w <->
  Forall (fun z => (lo <= z <= hi)%Z) zs /\ w = PArr (mkarr c [List.length zs] (map NZ zs)).
Proof.
  intros P t c lo hi k zs w T.
  assert (M : mapM (py_int P) (map PInt zs) = Ok zs) by (apply mapM_ok; clear; induction zs; constructor; auto).
  assert (C : coerce P t (PSeq k (map PInt zs)) = bind (iarray c zs) (fun a => Ok (PArr a))).
  { destruct t; try discriminate; injection T as <- _ _; unfold coerce; cbn [fbase mfint32_coerce]; rewrite M; reflexivity. }
  assert (R : forall z, (wrap_code c z =? z)%Z = true <-> (lo <= z <= hi)%Z).
  { destruct t; try discriminate; injection T as <- <- <-; [apply wrap_i|apply wrap_I|apply wrap_I]. }
  rewrite C. unfold iarray. destruct (forallb _ zs) eqn:F.
  - cbn [bind]. rewrite forallb_forall in F. split; [intros [= <-]; split; [|reflexivity]|intros [_ ->]; reflexivity].
    apply Forall_forall. intros z Iz. apply R, F, Iz.
  - split; [discriminate|]. intros [G _]. exfalso. rewrite <- not_true_iff_false in F. apply F. apply forallb_forall.
    rewrite Forall_forall in G. intros z Iz. apply R, G, Iz.
Qed.
(** C65 (refuted).  [MFVec2d] stores single precision: a double survives only
    if it is a single already. *)
Theorem C65_MFVec2d_refuted : forall P k k' x y, k' <> KIter -> is_double x -> is_double y ->
  coerce P MFVec2d (rows k k' [[x; y]]) = Ok (PArr (mkarr Cf [1; 2] [NF (r32 x); NF (r32 y)])).
Proof. intros P k k' x y K _ _. apply (C65_single_rows_rounded P MFVec2d 2 k k' [[x; y]] eq_refl K). repeat constructor. Qed.
(** 0.1 *)
Definition tenth : fl := S754_finite false 7205759403792794 (-56).
Example C65_tenth_is_lost : is_double tenth /\ r64 (r32 tenth) <> tenth /\
  coerce P1 MFVec3d (rows KList KTuple [[tenth; tenth; tenth]; [tenth; tenth; tenth]]) =
    Ok (PArr (mkarr Cd [2; 3] (map NF [tenth; tenth; tenth; tenth; tenth; tenth]))) /\
  coerce P1 MFVec2d (rows KList KTuple [[tenth; tenth]]) <> Ok (PArr (mkarr Cd [1; 2] [NF tenth; NF tenth])).
Proof. vm_compute. repeat split; discriminate. Qed.
Print Assumptions C65_stored_format.
Print Assumptions C65_double_vectors_exact.
Print Assumptions C65_double_rows_exact.
Print Assumptions C65_flat_doubles_exact.
Print Assumptions C65_single_vectors_rounded.
Print Assumptions C65_single_rows_rounded.
Print Assumptions C65_integers_exact.
Print Assumptions C65_MFVec2d_refuted.
