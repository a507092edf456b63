(** Facts about the coercion model. *)
From Coq Require Import Reals Psatz.
From Flocq Require Import Core.Core IEEE754.BinarySingleNaN.
From Verif Require Import Base Text Float Float_Proofs Color_Model Coerce_Model Coerce_Spec.
Local Open Scope nat_scope.

Lemma bind_ok {A B} (r : res A) (f : A -> res B) b : bind r f = Ok b -> exists a, r = Ok a /\ f a = Ok b.
Proof. destruct r; cbn; [eauto|discriminate]. Qed.

(** *** flattening *)
Lemma flattens_app_inv l1 l2 ys : flattens (l1 ++ l2) ys ->
  exists a b, ys = a ++ b /\ flattens l1 a /\ flattens l2 b.
Proof.
  revert ys. induction l1 as [|x l1 IH]; cbn; intros ys H.
  - exists [], ys. repeat split; auto. constructor.
  - inversion H as [|l r xs zs H1 H2|x' r zs N H2]; subst.
    + apply IH in H2 as (a & b & -> & ? & ?). exists (xs ++ a), b. rewrite app_assoc.
      repeat split; auto. constructor; auto.
    + apply IH in H2 as (a & b & -> & ? & ?). exists (x :: a), b. repeat split; auto. constructor; auto.
Qed.
Lemma flattens_fun l xs : flattens l xs -> forall ys, flattens l ys -> xs = ys.
Proof.
  induction 1 as [|l r xs ys H1 IH1 H2 IH2|x r ys N H IH]; intros zs H'; inversion H'; subst; auto.
  - f_equal; auto.
  - exfalso. eapply H3. reflexivity.
  - exfalso. eapply N. reflexivity.
  - f_equal; auto.
Qed.
Lemma weight_list l : weight (PSeq KList l) = S (S (weights l)).
Proof. cbn. do 2 f_equal. Qed.
Lemma weights_app a b : weights (a ++ b) = weights a + weights b.
Proof. induction a; cbn [weights app]; lia. Qed.
Lemma weight_pos x : 1 <= weight x.
Proof. destruct x as [| | | | | |[] l|]; cbn; lia. Qed.
Lemma collapse_loop_spec : forall fuel done rest, weights rest < fuel ->
  exists ys, collapse_loop fuel done rest = List.rev done ++ ys /\ flattens rest ys.
Proof.
  induction fuel as [|f IH]; intros done rest L; [lia|]. cbn [collapse_loop].
  destruct rest as [|x r].
  - exists []. rewrite app_nil_r. split; [auto|constructor].
  - assert (C : (exists l, x = PSeq KList l) \/ forall l, x <> PSeq KList l).
    { destruct x as [| | | | | |[] l|]; try (right; congruence). left. eauto. }
    destruct C as [[l ->]|N].
    + cbn [weights] in L. rewrite weight_list in L.
      destruct (IH done (l ++ r)) as (ys & E & F); [rewrite weights_app; lia|].
      apply flattens_app_inv in F as (a & b & -> & ? & ?).
      exists (a ++ b). split; auto. constructor; auto.
    + cbn [weights] in L. pose proof (weight_pos x).
      destruct (IH (x :: done) r) as (ys & E & F); [lia|].
      exists (x :: ys). split; [|constructor; auto].
      cbn in E. rewrite <- app_assoc in E.
      transitivity (collapse_loop f (x :: done) r); [|exact E].
      destruct x as [| | | | | |[] l|]; try reflexivity. exfalso. eapply N. reflexivity.
Qed.
Lemma collapse_flattens l : flattens l (collapse l).
Proof. destruct (collapse_loop_spec (S (weights l)) [] l) as (ys & E & F); [lia|]. unfold collapse. now rewrite E. Qed.
Lemma collapse_spec l xs : flattens l xs <-> collapse l = xs.
Proof.
  split; intros H.
  - eapply flattens_fun; [apply collapse_flattens|auto].
  - rewrite <- H. apply collapse_flattens.
Qed.

(** *** arrays *)
Section S.
Variable P : prims.
Notation cast := (cast P).

Lemma wrap_range bits (s : bool) z : (1 <= bits)%Z ->
  (if s then - 2 ^ (bits - 1) <= wrap bits s z < 2 ^ (bits - 1) else 0 <= wrap bits s z < 2 ^ bits)%Z.
Proof.
  intros B. unfold wrap.
  assert (E : (2 ^ bits = 2 * 2 ^ (bits - 1))%Z) by (rewrite <- Z.pow_succ_r by lia; f_equal; lia).
  assert (0 < 2 ^ (bits - 1))%Z by (apply Z.pow_pos_nonneg; lia).
  pose proof (Z.mod_pos_bound z (2 ^ bits) ltac:(lia)).
  destruct s; cbn [andb]; [destruct (Z.leb_spec (2 ^ (bits - 1)) (z mod 2 ^ bits)); lia|lia].
Qed.
Lemma wrap_id_range c z : (wrap_code c z = z)%Z -> (c = Ci \/ c = CI \/ c = Cl) -> item_of c (NZ z).
Proof.
  intros E. unfold wrap_code in E. intros [-> | [-> | ->]]; cbn [item_of]; rewrite <- E.
  - apply (wrap_range 32 true). lia.
  - apply (wrap_range 32 false). lia.
  - apply (wrap_range 64 true). lia.
Qed.
Lemma cast_item c x : item_of c (cast c x).
Proof.
  destruct c, x; cbn [Coerce_Model.cast item_of wrap_code].
  1,2: apply (wrap_range 32 true); lia.
  1,2: apply (wrap_range 32 false); lia.
  1,2: apply (wrap_range 64 true); lia.
  - apply binary_normalize_valid; [apply prec24|apply lt24].
  - apply r32_valid.
  - apply binary_normalize_valid; [apply prec53|apply lt53].
  - apply r64_valid.
Qed.
Lemma cast_id c x : (c = Cf \/ c = Cd) -> item_of c x -> cast c x = x.
Proof.
  intros [-> | ->] H; destruct x; cbn in *; try contradiction.
  - f_equal. now apply r32_exact.
  - f_equal. now apply r64_exact.
Qed.
Lemma tcode_eqb_spec a b : tcode_eqb a b = true <-> a = b.
Proof. destruct a, b; cbn; split; congruence. Qed.
Lemma tcode_eqb_refl a : tcode_eqb a a = true.
Proof. now apply tcode_eqb_spec. Qed.
Lemma farray_items c fs : Forall (item_of c) (a_data (farray P c fs)).
Proof. cbn. apply Forall_map, Forall_forall. intros. apply cast_item. Qed.

(** the array a field takes from an array argument *)
Definition converted (c : tcode) (a : arr) := if tcode_eqb (a_code a) c then a else astype P c a.
Lemma converted_code c a : a_code (converted c a) = c.
Proof. unfold converted. destruct (tcode_eqb _ _) eqn:E; [now apply tcode_eqb_spec in E|reflexivity]. Qed.
Lemma converted_length c a : List.length (a_data (converted c a)) = List.length (a_data a).
Proof. unfold converted. destruct (tcode_eqb _ _); [auto|cbn; apply map_length]. Qed.
Lemma converted_items c a : wf_arr a -> Forall (item_of c) (a_data (converted c a)).
Proof.
  intros [_ W]. unfold converted. destruct (tcode_eqb _ _) eqn:E.
  - apply tcode_eqb_spec in E. now subst.
  - cbn. apply Forall_map, Forall_forall. intros. apply cast_item.
Qed.
Lemma converted_id c a : a_code a = c -> converted c a = a.
Proof. intros <-. unfold converted. now rewrite tcode_eqb_refl. Qed.

Lemma reshape_ok s a b : reshape s a = Ok b ->
  b = mkarr (a_code a) s (a_data a) /\ List.length (a_data a) = size s.
Proof.
  unfold reshape. destruct (Nat.eqb_spec (size s) (List.length (a_data a))); [|discriminate].
  intros [= <-]. auto.
Qed.
Lemma reshape_self c s d : List.length d = size s -> reshape s (mkarr c s d) = Ok (mkarr c s d).
Proof. intros E. unfold reshape. cbn. rewrite E, Nat.eqb_refl. reflexivity. Qed.
Lemma reshape_rows_ok s a b : reshape_rows s a = Ok b ->
  exists n, b = mkarr (a_code a) (n :: s) (a_data a) /\ List.length (a_data a) = n * size s /\ size s <> 0.
Proof.
  unfold reshape_rows. destruct (Nat.eqb_spec (size s) 0) as [|N]; [discriminate|].
  destruct (Nat.eqb_spec (List.length (a_data a) mod size s) 0) as [M|]; cbn; [|discriminate].
  intros [= <-]. exists (List.length (a_data a) / size s). repeat split; auto.
  pose proof (Nat.div_mod (List.length (a_data a)) (size s) N). lia.
Qed.
Lemma reshape_rows_self c n s d : List.length d = n * size s -> size s <> 0 ->
  forall s', reshape_rows s (mkarr c s' d) = Ok (mkarr c (n :: s) d).
Proof.
  intros E N s'. unfold reshape_rows. cbn. destruct (Nat.eqb_spec (size s) 0); [contradiction|].
  rewrite E, Nat.mod_mul, Nat.div_mul by auto. reflexivity.
Qed.

Lemma mapM_ok {A B} (f : A -> res B) l ys : mapM f l = Ok ys <-> Forall2 (fun x y => f x = Ok y) l ys.
Proof.
  revert ys. induction l as [|x l IH]; intros ys; cbn.
  - split; [intros [= <-]; constructor|intros H; inversion H; auto].
  - split.
    + intros H. apply bind_ok in H as (y & E & H). apply bind_ok in H as (zs & F & H).
      injection H as <-. constructor; auto. now apply IH.
    + intros H. inversion H as [|a b c d E F]; subst. rewrite E. cbn.
      apply IH in F. rewrite F. reflexivity.
Qed.
Lemma Forall2_len {A B} (R : A -> B -> Prop) l l' : Forall2 R l l' -> List.length l = List.length l'.
Proof. induction 1; cbn; congruence. Qed.
End S.
