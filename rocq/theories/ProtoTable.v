(** The fields and events of a PROTO that was written and read again. *)
From Coq Require Import Reals Permutation SpecFloat.
From Flocq Require Import Core.Core IEEE754.BinarySingleNaN.
From Verif Require Import Base Text PyDict PyDict_Proofs Float Coerce_Model Coerce_Spec Grammar_Model Lex_Spec Lex_Proofs
  Doc_Spec Doc_Proofs SceneGraph_Model VrmlStr_Model VrmlStr_Spec VrmlStr_Proofs VrmlStr_Values Scene_Model Linearise_Model
  Build_Model Proto_Model Scene_Spec Proto_Spec Linearise_Proofs Drop_Proofs Layout_Proofs Written Rebuilt Reading_Spec Reading_Proofs ProtoText.
Local Open Scope nat_scope.
Local Open Scope list_scope.

Definition url : text := lit "externalURL".
Lemma in_events p nm o ty : In (nm, (o, ty)) (p_events p) <-> In (nm, MEvent o ty) (p_mem p).
Proof.
  unfold p_events. rewrite in_flat_map. split.
  - intros ([n m] & H & I). cbn in I. destruct m; [destruct I|]. destruct I as [I|[]]. injection I as -> -> ->. exact H.
  - intros H. exists (nm, MEvent o ty). split; [exact H|left; reflexivity].
Qed.
Lemma in_fields p nm e k : owns_url p = false ->
  (In (nm, (e, k)) (p_fields p) <-> In (nm, MField e k) (p_mem p) \/ (nm = url /\ e = true /\ k = f_kind url_field)).
Proof.
  intros O. unfold p_fields. rewrite O, in_app_iff, in_flat_map. split.
  - intros [([n m] & H & I)|[H|[]]].
    + cbn in I. destruct m; [|destruct I]. destruct I as [I|[]]. injection I as -> -> ->. left. exact H.
    + injection H as <- <- <-. right. auto.
  - intros [H|(-> & -> & ->)]; [left|right; left; reflexivity]. exists (nm, MField e k). split; [exact H|left; reflexivity].
Qed.
Lemma keys_perm p : owns_url p = false -> Permutation (map fst (p_events p) ++ map fst (p_fields p)) (map fst (p_mem p) ++ [url]).
Proof.
  intros O. unfold p_fields, p_events. rewrite O, map_app, app_assoc. apply Permutation_app_tail.
  induction (p_mem p) as [|[n m] l IH]; [constructor|]. cbn [flat_map fst snd map]. destruct m; cbn [app map fst].
  - rewrite <- Permutation_middle. constructor. exact IH.
  - constructor. exact IH.
Qed.
Lemma owns_not p : Forall (fun x : text * member => fst x <> url) (p_mem p) -> owns_url p = false /\ ~ In url (map fst (p_mem p)).
Proof.
  intros F. split.
  - unfold owns_url. destruct (existsb _ (p_mem p)) eqn:E; [|reflexivity]. apply existsb_exists in E as (x & Hx & E).
    apply text_eqb_spec in E. rewrite Forall_forall in F. destruct (F x Hx E).
  - intros H. apply in_map_iff in H as (x & E & Hx). rewrite Forall_forall in F. destruct (F x Hx E).
Qed.

Section Read.
Variable P : prims.
Variable p : pdef.
Hypothesis NE : p_url p = None.
Hypothesis ND : NoDup (map fst (p_mem p)).
Hypothesis NU : Forall (fun x : text * member => fst x <> url) (p_mem p).
Variable fds' : list (text * (bool * kind)).
Hypothesis F2 : Forall2 (alike_field P) (sort_by (p_fields p)) fds'.
Definition mem' : list (text * member) := map ev_mem (sort_by (p_events p)) ++ map fd_mem fds'.

Lemma fds_names : map fst fds' = map fst (sort_by (p_fields p)).
Proof. induction F2 as [|x x' l l' (E & _) F IH]; [reflexivity|]. cbn. rewrite E. f_equal. exact (IH F). Qed.
Lemma mem_names : map fst mem' = map fst (sort_by (p_events p)) ++ map fst (sort_by (p_fields p)).
Proof. unfold mem'. rewrite map_app, !map_map. cbn [ev_mem fd_mem fst]. f_equal. apply fds_names. Qed.
Lemma names_perm : Permutation (map fst mem') (map fst (p_mem p) ++ [url]).
Proof.
  rewrite mem_names. rewrite (Permutation_map fst (sort_by_perm (p_events p))), (Permutation_map fst (sort_by_perm (p_fields p))).
  apply keys_perm. apply (owns_not p NU).
Qed.
Lemma nodup_url : NoDup (map fst (p_mem p) ++ [url]).
Proof. rewrite <- Permutation_cons_append. constructor; [apply (owns_not p NU)|exact ND]. Qed.
Lemma nodup_mem : NoDup (map fst mem').
Proof. eapply Permutation_NoDup; [symmetry; apply names_perm|]. apply nodup_url. Qed.
Lemma alike_in x : In x (p_fields p) -> exists x', In x' fds' /\ alike_field P x x'.
Proof.
  intros H. assert (I : In x (sort_by (p_fields p))) by (eapply Permutation_in; [symmetry; apply sort_by_perm|exact H]).
  clear H. induction F2 as [|y y' l l' A F IH]; [destruct I|]. destruct I as [->|I]; [exists y'; split; [left; reflexivity|exact A]|].
  destruct (IH F I) as (x' & H1 & H2). exists x'. split; [right; exact H1|exact H2].
Qed.
Lemma url_read : exists k', dget text_eqb mem' url = Some (MField true k') /\ alike_kind P (f_kind url_field) k'.
Proof.
  destruct (alike_in (url, (true, f_kind url_field))) as ((n & e & k) & Hi & A & B & C).
  { apply in_fields; [apply (owns_not p NU)|]. right. auto. }
  cbn [fst snd] in *. subst n e. exists k. split; [|exact C].
  apply (In_dget text_eqb text_eqb_spec); [exact nodup_mem|]. apply in_or_app. right. apply in_map_iff. exists (url, (true, k)). auto.
Qed.
Lemma interface_read inner b : same_interface P p (PDef mem' inner b).
Proof.
  intros nm Hn. cbn [p_mem]. destruct (dget text_eqb (p_mem p) nm) as [m|] eqn:E.
  - apply (dget_In text_eqb text_eqb_spec) in E. destruct m as [e k|o ty].
    + destruct (alike_in (nm, (e, k))) as ((n & e' & k') & Hi & A & B & C).
      { apply in_fields; [apply (owns_not p NU)|]. left. exact E. }
      cbn [fst snd] in *. subst n e'.
      rewrite (In_dget text_eqb text_eqb_spec mem' nm (MField e k')); [auto|exact nodup_mem|].
      apply in_or_app. right. apply in_map_iff. exists (nm, (e, k')). auto.
    + rewrite (In_dget text_eqb text_eqb_spec mem' nm (MEvent o ty)); [auto|exact nodup_mem|].
      apply in_or_app. left. apply in_map_iff. exists (nm, (o, ty)). split; [reflexivity|].
      eapply Permutation_in; [symmetry; apply sort_by_perm|]. apply in_events. exact E.
  - apply (dget_None_notin text_eqb text_eqb_spec) in E. destruct (dget text_eqb mem' nm) as [m|] eqn:E'; [|exact I]. exfalso.
    apply (dget_In text_eqb text_eqb_spec) in E'. apply (in_map fst) in E'. cbn [fst] in E'.
    eapply Permutation_in in E'; [|apply names_perm]. apply in_app_or in E' as [H|[H|[]]]; [exact (E H)|exact (Hn (eq_sym H))].
Qed.
Lemma pfields_eq inner b : pfields (PDef mem' inner b) = map (fun x => mkfd (fst x) (snd (snd x))) fds'.
Proof.
  unfold pfields. cbn [p_mem].
  assert (E : flat_map (fun x : text * member => match snd x with MField _ k => [mkfd (fst x) k] | MEvent _ _ => [] end) mem' =
              map (fun x => mkfd (fst x) (snd (snd x))) fds').
  { unfold mem'. rewrite flat_map_app.
    assert (flat_map (fun x : text * member => match snd x with MField _ k => [mkfd (fst x) k] | MEvent _ _ => [] end) (map ev_mem (sort_by (p_events p))) = []) as ->.
    { induction (sort_by (p_events p)) as [|y l IH]; [reflexivity|]. exact IH. }
    cbn [app]. clear F2. induction fds' as [|y l IH]; [reflexivity|]. cbn [map flat_map fd_mem fst snd app]. f_equal. exact IH. }
  rewrite E. destruct (existsb _ _) eqn:X; [reflexivity|]. exfalso.
  destruct (alike_in (url, (true, f_kind url_field))) as ((n & e & k) & Hi & A & _).
  { apply in_fields; [apply (owns_not p NU)|]. right. auto. }
  cbn [fst snd] in *. subst n.
  assert (existsb (fun f => text_eqb (f_name f) (lit "externalURL")) (map (fun x => mkfd (fst x) (snd (snd x))) fds') = true); [|congruence].
  apply existsb_exists. exists (mkfd url k). split; [|reflexivity]. apply in_map_iff. exists (url, (e, k)). auto.
Qed.
Lemma own_fields : pfields p = flat_map (fun x => match snd x with MField _ k => [mkfd (fst x) k] | MEvent _ _ => [] end) (p_mem p) ++ [url_field].
Proof.
  clear F2 ND fds'. destruct p as [mem inner body|]; [cbn [p_mem] in *|discriminate]. unfold pfields. cbn [p_mem]. destruct (existsb _ _) eqn:X; [|reflexivity]. exfalso. apply existsb_exists in X as (f & Hf & E).
  apply text_eqb_spec in E. apply in_flat_map in Hf as ([n m] & Hm & Hf). cbn in Hf. destruct m; [|destruct Hf].
  destruct Hf as [<-|[]]. cbn in E. rewrite Forall_forall in NU. exact (NU _ Hm E).
Qed.
Lemma in_pfields f : In f (pfields p) -> exists e, In (f_name f, (e, f_kind f)) (p_fields p).
Proof.
  rewrite own_fields. intros H. apply in_app_or in H as [H|[<-|[]]].
  - apply in_flat_map in H as ([n m] & Hm & H). cbn in H. destruct m as [e k|]; [|destruct H]. destruct H as [<-|[]].
    exists e. apply in_fields; [apply (owns_not p NU)|]. left. exact Hm.
  - exists true. apply in_fields; [apply (owns_not p NU)|]. right. auto.
Qed.
Lemma fields_read_ok inner b : fields_ok P (pfields p) (pfields (PDef mem' inner b)).
Proof.
  intros f Hf. destruct (in_pfields f Hf) as (e & He). destruct (alike_in _ He) as ((n & e' & k') & Hi & A & _ & C). cbn [fst snd] in *. subst n.
  rewrite pfields_eq. exists (mkfd (f_name f) k'). split; [|exact C].
  apply (Rebuilt.find_field_in _ (mkfd (f_name f) k')).
  - rewrite map_map. cbn [f_name]. change (NoDup (map fst fds')). rewrite fds_names. pose proof nodup_mem as N. rewrite mem_names in N. clear - N.
    induction (map fst (sort_by (p_events p))) as [|z l IH]; [exact N|]. cbn in N. inversion N; auto.
  - apply in_map_iff. exists (f_name f, (e', k')). auto.
Qed.
Lemma pfields_names : NoDup (map f_name (pfields p)).
Proof.
  rewrite own_fields, map_app. cbn [map f_name url_field]. fold url. pose proof nodup_url as N.
  revert N. clear. generalize url. induction (p_mem p) as [|[n m] l IH]; intros u N; [exact N|].
  cbn [map fst app] in N. inversion N as [|? ? Nn N']; subst. destruct m; cbn [flat_map snd fst map app f_name]; [|exact (IH u N')].
  constructor; [|exact (IH u N')]. intros H. apply Nn. apply in_app_or in H as [H|H]; apply in_or_app; [left|right; exact H].
  apply in_map_iff in H as (f & <- & Hf). apply in_flat_map in Hf as ([n' m'] & Hm & Hf). cbn in Hf. destruct m'; [|destruct Hf].
  destruct Hf as [<-|[]]. apply in_map_iff. eexists (n', _). split; [reflexivity|exact Hm].
Qed.
End Read.
