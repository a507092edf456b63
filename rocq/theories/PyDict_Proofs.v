From Verif Require Import Base PyDict.

Section Dict.
Context {K V : Type}.
Variable eqb : K -> K -> bool.
Hypothesis eqb_spec : forall a b, eqb a b = true <-> a = b.

Lemma eqb_refl_ a : eqb a a = true.
Proof. apply eqb_spec. reflexivity. Qed.
Lemma eqb_neq_ a b : eqb a b = false <-> a <> b.
Proof. rewrite <- eqb_spec. destruct (eqb a b); intuition discriminate. Qed.

Lemma dget_dset_same d k (v : V) : dget eqb (dset eqb d k v) k = Some v.
Proof.
  induction d as [|[k' v'] d IH]; cbn.
  - rewrite eqb_refl_. reflexivity.
  - destruct (eqb k' k) eqn:E; cbn; rewrite E; [reflexivity|exact IH].
Qed.
Lemma dget_dset_other d k k2 (v : V) : k <> k2 -> dget eqb (dset eqb d k v) k2 = dget eqb d k2.
Proof.
  intros N. induction d as [|[k' v'] d IH]; cbn.
  - apply eqb_neq_ in N. rewrite N. reflexivity.
  - destruct (eqb k' k) eqn:E; cbn.
    + apply eqb_spec in E. subst k'. apply eqb_neq_ in N. rewrite N. reflexivity.
    + destruct (eqb k' k2); [reflexivity|exact IH].
Qed.
Lemma dget_None_notin d k : dget eqb d k = None <-> ~ In k (dkeys (V:=V) d).
Proof.
  unfold dkeys. induction d as [|[k' v'] d IH]; cbn; [tauto|].
  destruct (eqb k' k) eqn:E.
  - apply eqb_spec in E. split; [discriminate|tauto].
  - apply eqb_neq_ in E. rewrite IH. tauto.
Qed.
Lemma dget_In d k (v : V) : dget eqb d k = Some v -> In (k, v) d.
Proof.
  induction d as [|[k' v'] d IH]; cbn; [discriminate|].
  destruct (eqb k' k) eqn:E; [intros [= ->]; apply eqb_spec in E; subst; auto|auto].
Qed.
Lemma In_dget d k (v : V) : NoDup (dkeys d) -> In (k, v) d -> dget eqb d k = Some v.
Proof.
  unfold dkeys. induction d as [|[k' v'] d IH]; cbn; [intros _ []|].
  intros ND [E|I].
  - injection E as -> ->. rewrite eqb_refl_. reflexivity.
  - inversion ND; subst. destruct (eqb k' k) eqn:E.
    + apply eqb_spec in E. subst k'. exfalso. apply H1. apply (in_map fst) in I. exact I.
    + auto.
Qed.
Lemma dkeys_dset d k (v : V) x : In x (dkeys (dset eqb d k v)) <-> x = k \/ In x (dkeys d).
Proof.
  unfold dkeys. induction d as [|[k' v'] d IH]; cbn.
  - intuition.
  - destruct (eqb k' k) eqn:E; cbn.
    + apply eqb_spec in E. subst. intuition.
    + rewrite IH. intuition.
Qed.
Lemma nodup_dset d k (v : V) : NoDup (dkeys d) -> NoDup (dkeys (dset eqb d k v)).
Proof.
  induction d as [|[k' v'] d IH]; cbn; intros ND.
  - constructor; [intros []|constructor].
  - destruct (eqb k' k) eqn:E; cbn; [exact ND|].
    inversion ND; subst. constructor; [|apply IH; assumption].
    intros I. apply dkeys_dset in I. destruct I as [->|I]; [rewrite eqb_refl_ in E; discriminate|contradiction].
Qed.
Lemma dget_ddel_same d k : NoDup (dkeys (V:=V) d) -> dget eqb (ddel eqb d k) k = None.
Proof.
  induction d as [|[k' v'] d IH]; cbn; intros ND; [reflexivity|]. inversion ND; subst.
  destruct (eqb k' k) eqn:E; cbn.
  - apply eqb_spec in E. subst. apply dget_None_notin. assumption.
  - rewrite E. apply IH. assumption.
Qed.
Lemma dget_ddel_other d k k2 : k <> k2 -> dget eqb (ddel eqb d k) k2 = dget eqb (V:=V) d k2.
Proof.
  intros N. induction d as [|[k' v'] d IH]; cbn; [reflexivity|].
  destruct (eqb k' k) eqn:E; cbn.
  - apply eqb_spec in E. subst. apply eqb_neq_ in N. rewrite N. reflexivity.
  - destruct (eqb k' k2); [reflexivity|exact IH].
Qed.
Lemma dkeys_ddel d k x : In x (dkeys (V:=V) (ddel eqb d k)) -> In x (dkeys d).
Proof.
  unfold dkeys. induction d as [|[k' v'] d IH]; cbn; [tauto|].
  destruct (eqb k' k); cbn; tauto.
Qed.
Lemma nodup_ddel d k : NoDup (dkeys (V:=V) d) -> NoDup (dkeys (ddel eqb d k)).
Proof.
  induction d as [|[k' v'] d IH]; cbn; intros ND; [exact ND|]. inversion ND; subst.
  destruct (eqb k' k); [assumption|]. cbn. constructor; [|auto].
  intros I. apply dkeys_ddel in I. contradiction.
Qed.
Lemma nodup_dupdate items d : NoDup (dkeys (V:=V) d) -> NoDup (dkeys (dupdate eqb d items)).
Proof.
  unfold dupdate. revert d. induction items as [|[k v] it IH]; cbn; intros d ND; [exact ND|].
  apply IH, nodup_dset, ND.
Qed.
Lemma dget_dupdate items d k : NoDup (dkeys (V:=V) items) ->
  dget eqb (dupdate eqb d items) k =
  match dget eqb items k with Some v => Some v | None => dget eqb d k end.
Proof.
  unfold dupdate. revert d. induction items as [|[k' v'] it IH]; cbn; intros d ND; [reflexivity|].
  inversion ND; subst. rewrite IH by assumption. destruct (eqb k' k) eqn:E.
  - apply eqb_spec in E. subst k'.
    assert (N : dget eqb it k = None) by (apply dget_None_notin; assumption).
    rewrite N. apply dget_dset_same.
  - apply eqb_neq_ in E. rewrite dget_dset_other by exact E. reflexivity.
Qed.
End Dict.
