(** C01-C04: the observable list of vrml/olist.py. *)
From Verif Require Import Base PyList OList_Model OList_Spec OList_Proofs.
Open Scope Z_scope.

(** C01.  For every history of calls other than deletion by integer index, on
    hashable values (nodes are), contents, exceptions and popped values are
    those of a builtin list.  [eqb] is ==, [isb] is [is], [alive] any schedule
    of the sender's collection. *)
Theorem C01_olist_refines_list :
  forall (A : Type) (eqb isb : A -> A -> bool) (hashable : A -> bool)
         (alive : nat -> nat -> bool) (os : list op) (s : state),
  Forall not_int_deletion os ->
  Forall (fun v => hashable v = true) (items s) ->
  Forall (fun o => Forall (fun v => hashable v = true) (op_values o)) os ->
  items (fst (run eqb isb hashable alive s os)) = fst (plain_run eqb (items s) os) /\
  map (fun p => visible (fst p) (snd p))
      (combine os (snd (run eqb isb hashable alive s os))) =
  snd (plain_run eqb (items s) os).
Proof. exact @run_plain. Qed.
Print Assumptions C01_olist_refines_list.

(** The hypothesis of hashability is needed: a slice assignment of an
    unhashable value raises TypeError although the list has been changed. *)
Theorem C01_unhashable_refuted :
  exists (hashable : nat -> bool) (s : state) (vs : list nat),
    let r := step Nat.eqb Nat.eqb hashable (fun _ _ => true) s (Extend vs) in
    snd r = Exc TypeError /\ items (fst r) <> items s.
Proof.
  exists (fun n => negb (Nat.eqb n 7)), {| items := [1%nat]; sender := None; log := [] |}, [7%nat].
  vm_compute. split; [reflexivity|discriminate].
Qed.
Print Assumptions C01_unhashable_refuted.

(** C02.  For every history whose slice assignments do not multiply an item of
    the replaced part (and without integer deletion and the un-overridden
    [clear]): (new - del) announcements = change of occurrences. *)
Theorem C02_event_balance :
  forall (A : Type) (eqb isb : A -> A -> bool) (hashable : A -> bool)
         (alive : nat -> nat -> bool),
  (forall x y, eqb x y = eqb y x) ->
  (forall x y z, eqb x y = true -> eqb y z = true -> eqb x z = true) ->
  (forall x y, isb x y = true <-> x = y) ->
  forall (v : A) (os : list op) (s : state),
  hist_ok eqb (items s) os ->
  Forall (fun v => hashable v = true) (items s) ->
  Forall (fun o => Forall (fun v => hashable v = true) (op_values o)) os ->
  let s' := fst (run eqb isb hashable alive s os) in
  (news eqb v (log s') + occurrences eqb v (items s) + dels eqb v (log s) =
   dels eqb v (log s') + occurrences eqb v (items s') + news eqb v (log s))%nat.
Proof. exact @run_balance. Qed.
Print Assumptions C02_event_balance.

(** C02, exact counts for every slice assignment that succeeds. *)
Theorem C02_slice_assignment_counts :
  forall (A : Type) (eqb : A -> A -> bool) (hashable : A -> bool)
         (alive : nat -> nat -> bool),
  (forall x y, eqb x y = eqb y x) ->
  (forall x y z, eqb x y = true -> eqb y z = true -> eqb x z = true) ->
  forall (v : A) (s : state) (sl : pyslice) (vs prev : list A) (r : ret),
  py_get_slice (items s) sl = Ok prev ->
  snd (o_set_slice eqb hashable alive s sl vs) = Ok r ->
  let s' := fst (o_set_slice eqb hashable alive s sl vs) in
  news eqb v (log s') =
    (news eqb v (log s) + (if Nat.eqb (occurrences eqb v prev) 0 then occurrences eqb v vs else 0))%nat /\
  dels eqb v (log s') =
    (dels eqb v (log s) + (occurrences eqb v prev - occurrences eqb v vs))%nat /\
  (occurrences eqb v (items s') + occurrences eqb v prev =
   occurrences eqb v (items s) + occurrences eqb v vs)%nat.
Proof. exact (fun A eqb h a => @set_slice_counts A eqb eqb h a). Qed.
Print Assumptions C02_slice_assignment_counts.

(** The balance fails without the restriction: l[0:1] = [x, x] over [x]. *)
Theorem C02_duplicates_refuted :
  exists (s : state) (o : op),
    let r := step Nat.eqb Nat.eqb (fun _ => true) (fun _ _ => true) s o in
    snd r <> Exc TypeError /\ log (fst r) = log s /\ items (fst r) <> items s.
Proof.
  exists {| items := [1%nat]; sender := None; log := [] |}, (SetSlice (slice2 0 1) [1%nat; 1%nat]).
  vm_compute. repeat split; discriminate.
Qed.
Print Assumptions C02_duplicates_refuted.

(** [clear] is inherited from list and silently drops everything. *)
Theorem C02_clear_silent_refuted :
  forall (A : Type) (eqb isb : A -> A -> bool) hashable alive (s : state (A:=A)),
  items s <> [] ->
  let r := step eqb isb hashable alive s Clear in
  items (fst r) <> items s /\ log (fst r) = log s.
Proof. intros A eqb isb h a s H. simpl. split; [congruence|reflexivity]. Qed.
Print Assumptions C02_clear_silent_refuted.

(** C03.  The log of every history is, call by call, a sequence of pairs
    (child event from S with value v; parent event from v with parent S), S the
    node of the last setSender while alive, the list otherwise. *)
Theorem C03_messages_paired :
  forall (A : Type) (eqb isb : A -> A -> bool) (hashable : A -> bool)
         (alive : nat -> nat -> bool) (os : list op) (s : state (A:=A)),
  exists ms, log (fst (run eqb isb hashable alive s os)) = log s ++ ms /\
             segments alive (sender s) (length (log s)) os ms.
Proof. exact @run_segments. Qed.
Print Assumptions C03_messages_paired.

(** C04 (refuted).  For every list and every valid index, del l[i] announces
    the removal of the item and leaves the list as it was. *)
Theorem C04_delitem_keeps_item_refuted :
  forall (A : Type) (eqb isb : A -> A -> bool) hashable alive (s : state (A:=A)) i v,
  py_get (items s) i = Ok v ->
  let r := step eqb isb hashable alive s (DelInt i) in
  items (fst r) = items s /\
  log (fst r) = log s ++ [DelChild (cur_sender alive s) v; DelParent v (cur_sender alive s)] /\
  snd r = Ok (RVal v).
Proof. exact @del_int_keeps. Qed.
Print Assumptions C04_delitem_keeps_item_refuted.

(** C04 (refuted).  `x += vs` always rebinds x to the plain list vs. *)
Theorem C04_iadd_rebinds_refuted :
  forall (A : Type) (eqb : A -> A -> bool) (hashable : A -> bool) alive (s : state) vs,
  Forall (fun v => hashable v = true) (items s) ->
  Forall (fun v => hashable v = true) vs ->
  iadd_name eqb hashable alive s vs = BPlain vs.
Proof. intros A eqb h a. apply iadd_plain; exact eqb. Qed.
Print Assumptions C04_iadd_rebinds_refuted.

(** *** The hypotheses are met by non-trivial histories *)
Definition ex_state : state (A:=nat) := {| items := [1;2;3]%nat; sender := Some 5%nat; log := [] |}.
Definition ex_hist : list (op (A:=nat)) :=
  [ Append 4%nat; Insert (-1) 9%nat; Pop None; Remove 2%nat; Remove 77%nat;
    SetSlice (slice2 0 2) [3;8]%nat; SetSender None;
    SetSlice {| sl_start := None; sl_stop := None; sl_step := Some (-2) |} [6;7]%nat;
    DelSlice (slice2 0 1); Extend [5;5]%nat; SetInt 0 1%nat ].
Example C01_hyps : Forall not_int_deletion ex_hist /\
  items (fst (run Nat.eqb Nat.eqb (fun _ => true) (fun n t => Nat.leb t 4) ex_state ex_hist)) = [1;6;5;5]%nat.
Proof. split; [repeat constructor|vm_compute; reflexivity]. Qed.
Example C02_hyps : hist_ok Nat.eqb (items ex_state) ex_hist.
Proof.
  cbn. repeat split; intros prev H v Hv; injection H as <-; cbn in *;
  repeat match goal with |- context [match v with _ => _ end] => destruct v as [|v]; cbn in * end; lia.
Qed.
Example C03_nonempty :
  length (log (fst (run Nat.eqb Nat.eqb (fun _ => true) (fun n t => Nat.leb t 4) ex_state ex_hist))) = 30%nat.
Proof. vm_compute. reflexivity. Qed.
Example C04_hyps : py_get (items ex_state) (-2) = Ok 2%nat.
Proof. reflexivity. Qed.
