(** C97: observers that raise. *)
From Verif Require Import Base PyList OList_Model OList_Spec OList_Proofs Watch_Model Watch_Spec Watch_Proofs.
From Verif Require Field_Model.
Open Scope Z_scope.

(** Without observers that raise this is the list of C01-C04. *)
Theorem C97_quiet_observers :
  forall (A : Type) (eqb isb : A -> A -> bool) (hashable : A -> bool) (alive : nat -> nat -> bool) (s : state) (o : op),
  w_step eqb isb hashable alive (fun _ _ => false) s o = step eqb isb hashable alive s o.
Proof. exact @quiet_all. Qed.
Print Assumptions C97_quiet_observers.

(** A call on a watched list either goes as if no observer raised, or it raises
    the observer's exception; then the last message sent is the one the
    observer raised on, and what was sent is the first part of what would have
    been sent.  [boom] is any behaviour of the observers. *)
Theorem C97_the_exception_ends_the_call :
  forall (A : Type) (eqb isb : A -> A -> bool) (hashable : A -> bool) (alive : nat -> nat -> bool)
         (boom : list message -> message -> bool) (s : state) (o : op) (s' : state) (r : res ret),
  w_step eqb isb hashable alive boom s o = (s', r) ->
  step eqb isb hashable alive s o = (s', r) \/
  (r = Exc OtherError /\ raised_on_last boom (log s') /\
   exists rest, log (fst (step eqb isb hashable alive s o)) = log s' ++ rest).
Proof. exact @interrupted_all. Qed.
Print Assumptions C97_the_exception_ends_the_call.

(** No call is left half done: the contents are the old ones, or those a
    builtin list has after the call. *)
Theorem C97_contents_old_or_new :
  forall (A : Type) (eqb isb : A -> A -> bool) (hashable : A -> bool) (alive : nat -> nat -> bool)
         (boom : list message -> message -> bool) (s : state) (o : op),
  let s' := fst (w_step eqb isb hashable alive boom s o) in
  items s' = items s \/ items s' = fst (plain_step eqb (items s) o).
Proof. exact @step_contents. Qed.
Print Assumptions C97_contents_old_or_new.

(** So after any history, whatever was raised and caught in it, the list is
    what a builtin list is after some of the calls, in order. *)
Theorem C97_history :
  forall (A : Type) (eqb isb : A -> A -> bool) (hashable : A -> bool) (alive : nat -> nat -> bool)
         (boom : list message -> message -> bool) (os : list op) (s : state),
  exists taken, some_of taken os /\
    items (fst (w_run eqb isb hashable alive boom s os)) = fst (plain_run eqb (items s) taken).
Proof. exact @run_contents. Qed.
Print Assumptions C97_history.

(** append, insert, pop, remove, extend and slice assignment have done their
    work before an observer is called: with hashable values the list is the
    new one, raised or not. *)
Theorem C97_changed_although_it_raised :
  forall (A : Type) (eqb isb : A -> A -> bool) (hashable : A -> bool) (alive : nat -> nat -> bool)
         (boom : list message -> message -> bool) (s : state) (o : op),
  changes_first o ->
  Forall (fun v => hashable v = true) (items s) -> Forall (fun v => hashable v = true) (op_values o) ->
  items (fst (w_step eqb isb hashable alive boom s o)) = fst (plain_step eqb (items s) o).
Proof. exact @changes_first_plain. Qed.
Print Assumptions C97_changed_although_it_raised.

(** Slice deletion announces first: it raised exactly when nothing is gone. *)
Theorem C97_slice_deletion :
  forall (A : Type) (eqb isb : A -> A -> bool) (hashable : A -> bool) (alive : nat -> nat -> bool)
         (boom : list message -> message -> bool) (s : state) (sl : pyslice),
  match snd (w_step eqb isb hashable alive boom s (DelSlice sl)) with
  | Ok _ => items (fst (w_step eqb isb hashable alive boom s (DelSlice sl))) = fst (plain_step eqb (items s) (DelSlice sl))
  | Exc _ => items (fst (w_step eqb isb hashable alive boom s (DelSlice sl))) = items s
  end.
Proof. exact @del_slice_all. Qed.
Print Assumptions C97_slice_deletion.

(** Messages and contents part company.  For any list: an item whose addition
    an observer of the parent failed on is in the list, and it was never told;
    and an item whose removal by [del l[:]] an observer failed on is still
    there, announced as removed. *)
Theorem C97_announcements_wrong_refuted :
  forall (A : Type) (eqb isb : A -> A -> bool) (hashable : A -> bool) (alive : nat -> nat -> bool) (l : list A) (v : A),
  let s := {| items := l; sender := None; log := [] |} in
  let t := {| items := v :: l; sender := None; log := [] |} in
  let boom := fun (_ : list (message (A:=A))) m => match m with NewChild _ _ | DelChild _ _ => true | _ => false end in
  w_step eqb isb hashable alive boom s (Append v) =
    ({| items := l ++ [v]; sender := None; log := [NewChild PList v] |}, Exc OtherError) /\
  w_step eqb isb hashable alive boom t (DelSlice {| sl_start := None; sl_stop := None; sl_step := None |}) =
    ({| items := v :: l; sender := None; log := [DelChild PList v] |}, Exc OtherError).
Proof.
  intros. split; [reflexivity|]. cbn [w_step]. unfold w_del_slice. cbn [items t].
  destruct (whole_slice v l) as (cur & ->). reflexivity.
Qed.
Print Assumptions C97_announcements_wrong_refuted.

(** Fields, pure or accelerated: every history leaves the same values and sends
    the same messages as if no observer raised. *)
Theorem C97_fields_as_if_nothing_raised :
  forall (V : Type) fname (coerce : nat -> V -> res V) deflt (boom : list Field_Model.msg -> Field_Model.msg -> bool) i os s,
  fst (f_run fname coerce deflt boom i s os) = fst (Field_Model.run fname coerce deflt i s os).
Proof. exact @f_run_state. Qed.
Print Assumptions C97_fields_as_if_nothing_raised.

(** A field access returns what it would, unless an observer raised on the one
    message it sent: then the observer's exception comes out of an access that
    has taken effect. *)
Theorem C97_field_results :
  forall (V : Type) fname (coerce : nat -> V -> res V) deflt (boom : list Field_Model.msg -> Field_Model.msg -> bool) i s o,
  snd (f_step fname coerce deflt boom i s o) = snd (Field_Model.step fname coerce deflt i s o) \/
  (snd (f_step fname coerce deflt boom i s o) = Exc OtherError /\
   (exists x, snd (Field_Model.step fname coerce deflt i s o) = Ok x) /\
   exists m, Field_Model.log (fst (f_step fname coerce deflt boom i s o)) = Field_Model.log s ++ [m] /\
             boom (Field_Model.log s) m = true).
Proof. exact @f_step_result. Qed.
Print Assumptions C97_field_results.

(** A concrete history: an observer that fails on the second message it gets.
    The append raises although the item is in; the deletion that follows works,
    the last append too. *)
Example C97_case :
  w_run Nat.eqb Nat.eqb (fun _ => true) (fun _ _ => true)
    (fun past _ => Nat.eqb (length past) 1) {| items := [5%nat]; sender := None; log := [] |}
    [Append 7%nat; Remove 5%nat; Append 9%nat] =
  ({| items := [7; 9]%nat; sender := None;
      log := [NewChild PList 7%nat; NewParent 7%nat PList; DelChild PList 5%nat; DelParent 5%nat PList;
              NewChild PList 9%nat; NewParent 9%nat PList] |},
   [Exc OtherError; Ok (RVal 5%nat); Ok (RVal 9%nat)]).
Proof. reflexivity. Qed.
(** A slice assignment cut at its first message: the list is the new one. *)
Example C97_changed_case :
  and (changes_first (SetSlice (slice2 0 1) [8%nat; 9%nat]))
  (w_step Nat.eqb Nat.eqb (fun _ => true) (fun _ _ => true) (fun _ _ => true)
    {| items := [5%nat; 6%nat]; sender := None; log := [] |} (SetSlice (slice2 0 1) [8%nat; 9%nat]) =
  ({| items := [8%nat; 9%nat; 6%nat]; sender := None; log := [NewChild PList 8%nat] |}, Exc OtherError)).
Proof. split; [exact Logic.I|reflexivity]. Qed.
(** A watched field: the setting raises, the value is there. *)
Example C97_field_case :
  let r := f_run (fun f => f) (fun _ (v : nat) => if Nat.leb v 9 then Ok v else Exc ValueError) (fun _ => Ok 0%nat) (fun _ _ => true)
             Field_Model.Pure Field_Model.empty
             [Field_Model.Set_ 1 2 5%nat; Field_Model.Get 1 2; Field_Model.Set_ 1 2 70%nat; Field_Model.Get 1 2] in
  snd r = [Exc OtherError; Ok (Field_Model.OVal 5%nat); Exc ValueError; Ok (Field_Model.OVal 5%nat)].
Proof. reflexivity. Qed.
