(** C08-C13: fields of vrml/field.py and accelerate/src/fieldaccel2.pyx.

    In all theorems [coerce] and [deflt] are arbitrary; the hypothesis
    [forall g, fname g = fname f -> g = f] says that the node's field objects
    have distinct storage names. *)
From Verif Require Import Base Field_Model Field_Spec Field_Proofs.

(** C08.  Reading gives the coercion of the last successful set, whatever
    happened before ([h1]) and whatever happens to other cells, or is merely
    read or rejected, afterwards ([h2]). *)
Theorem C08_read_last_write :
  forall (V : Type) fname (coerce : nat -> V -> res V) deflt i s h1 h2 n f v w o,
  (o = Set_ n f v \/ exists b, o = FSet n f v b) -> coerce f v = Ok w ->
  Forall (fun o => ~ overwrites fname coerce n (fname f) o) h2 ->
  let s' := fst (run fname coerce deflt i s (h1 ++ o :: h2)) in
  step fname coerce deflt i s' (Get n f) = (s', Ok (OVal w)).
Proof. exact @read_last_write. Qed.
Print Assumptions C08_read_last_write.

(** C08.  A field never successfully set reads as its coerced default. *)
Theorem C08_read_default :
  forall (V : Type) fname (coerce : nat -> V -> res V) deflt i s h n f d w,
  (forall g, fname g = fname f -> g = f) ->
  dict s n (fname f) = None -> deflt f = Ok d -> coerce f d = Ok w ->
  Forall (fun o => ~ writes fname coerce n (fname f) o) h ->
  snd (step fname coerce deflt i (fst (run fname coerce deflt i s h)) (Get n f)) = Ok (OVal w).
Proof. exact @read_default. Qed.
Print Assumptions C08_read_default.

(** C08.  After a deletion (accelerated fields) and no later set: the default. *)
Theorem C08_read_after_delete :
  forall (V : Type) fname (coerce : nat -> V -> res V) deflt s h1 h2 n f d w o v,
  (forall g, fname g = fname f -> g = f) ->
  (o = Del n f \/ exists b, o = FDel n f b) ->
  deflt f = Ok d -> coerce f d = Ok w ->
  dict (fst (run fname coerce deflt Accel s h1)) n (fname f) = Some v ->
  Forall (fun o => ~ writes fname coerce n (fname f) o) h2 ->
  snd (step fname coerce deflt Accel
         (fst (run fname coerce deflt Accel s (h1 ++ o :: h2))) (Get n f)) = Ok (OVal w).
Proof. exact @read_after_delete. Qed.
Print Assumptions C08_read_after_delete.

(** C08.  Frame: a history that does not address (n, name k) leaves it alone. *)
Theorem C08_frame :
  forall (V : Type) fname (coerce : nat -> V -> res V) deflt i os s n k,
  Forall (fun o => touches fname o <> Some (n, k)) os ->
  dict (fst (run fname coerce deflt i s os)) n k = dict s n k.
Proof. exact @run_frame. Qed.
Print Assumptions C08_frame.

(** C09.  A rejected value: ValueError (for ValueError/TypeError of coerce; any
    other exception escapes as it is), and nothing at all has changed. *)
Theorem C09_rejected_set_atomic :
  forall (V : Type) fname (coerce : nat -> V -> res V) deflt i s n f v e o,
  (o = Set_ n f v \/ exists b, o = FSet n f v b) -> coerce f v = Exc e ->
  step fname coerce deflt i s o =
  (s, Exc (match e with TypeError => ValueError | _ => e end)).
Proof. exact @set_fails_atomic. Qed.
Print Assumptions C09_rejected_set_atomic.

(** C09.  Likewise for every operation that raises. *)
Theorem C09_every_exception_atomic :
  forall (V : Type) fname (coerce : nat -> V -> res V) deflt i s o e,
  snd (step fname coerce deflt i s o) = Exc e -> fst (step fname coerce deflt i s o) = s.
Proof. exact @exn_atomic. Qed.
Print Assumptions C09_every_exception_atomic.

(** C10.  The 'set' messages of a history are exactly one per successful
    notifying set, in order, with the stored value; without deletions there
    are no other messages at all. *)
Theorem C10_messages_exact :
  forall (V : Type) fname (coerce : nat -> V -> res V) deflt i os s,
  exists ms, log (fst (run fname coerce deflt i s os)) = log s ++ ms /\
    filter is_set_msg ms = flat_map (announces coerce) os /\
    (forallb (fun o => negb (is_delete o)) os = true -> ms = flat_map (announces coerce) os).
Proof. exact @run_log. Qed.
Print Assumptions C10_messages_exact.

(** C10.  A watcher of a history in which every set notifies and nothing is
    deleted: whatever it heard last is what the field holds. *)
Theorem C10_watcher_agrees :
  forall (V : Type) fname (coerce : nat -> V -> res V) deflt i os s n f,
  (forall g, fname g = fname f -> g = f) ->
  Forall (fun o => notified o = true) os ->
  (forall v, last_heard n f (log s) = Some v -> dict s n (fname f) = Some v) ->
  forall v, last_heard n f (log (fst (run fname coerce deflt i s os))) = Some v ->
            dict (fst (run fname coerce deflt i s os)) n (fname f) = Some v.
Proof. exact @watcher_run. Qed.
Print Assumptions C10_watcher_agrees.

(** C11.  First read of an unset field: coerced default, silent, fhas becomes
    true, later reads return it and change nothing. *)
Theorem C11_default_materialised_once :
  forall (V : Type) fname (coerce : nat -> V -> res V) deflt i s n f d w,
  dict s n (fname f) = None -> deflt f = Ok d -> coerce f d = Ok w ->
  let r := step fname coerce deflt i s (Get n f) in
  snd r = Ok (OVal w) /\ log (fst r) = log s /\
  snd (step fname coerce deflt i s (Has n f)) = Ok (OBool false) /\
  snd (step fname coerce deflt i (fst r) (Has n f)) = Ok (OBool true) /\
  step fname coerce deflt i (fst r) (Get n f) = (fst r, Ok (OVal w)).
Proof. exact @first_read. Qed.
Print Assumptions C11_default_materialised_once.

Theorem C11_getDefault_without_client_stores_nothing :
  forall (V : Type) fname (coerce : nat -> V -> res V) deflt i s f,
  fst (step fname coerce deflt i s (Default f)) = s.
Proof. exact @default_no_store. Qed.
Print Assumptions C11_getDefault_without_client_stores_nothing.

(** C12, accelerated fields. *)
Theorem C12_accelerated_delete :
  forall (V : Type) fname (coerce : nat -> V -> res V) deflt s n f v o,
  (o = Del n f \/ o = FDel n f true) -> dict s n (fname f) = Some v ->
  let r := step fname coerce deflt Accel s o in
  is_ok (snd r) = true /\ dict (fst r) n (fname f) = None /\ log (fst r) = log s ++ [MDel f n].
Proof. exact @accel_delete. Qed.
Print Assumptions C12_accelerated_delete.

Theorem C12_delete_unset_raises :
  forall (V : Type) fname (coerce : nat -> V -> res V) deflt i s n f o,
  (o = Del n f \/ exists b, o = FDel n f b) -> dict s n (fname f) = None ->
  step fname coerce deflt i s o = (s, Exc AttributeError).
Proof. exact @delete_unset. Qed.
Print Assumptions C12_delete_unset_raises.

(** C12, pure Python (refuted): for every set field the deletion succeeds and
    changes no stored value. *)
Theorem C12_pure_delete_keeps_value_refuted :
  forall (V : Type) fname (coerce : nat -> V -> res V) deflt s n f v o,
  (o = Del n f \/ exists b, o = FDel n f b) -> dict s n (fname f) = Some v ->
  let r := step fname coerce deflt Pure s o in
  is_ok (snd r) = true /\ dict (fst r) = dict s.
Proof. exact @pure_delete_keeps. Qed.
Print Assumptions C12_pure_delete_keeps_value_refuted.

(** C13.  Same states, results and messages for every deletion-free history. *)
Theorem C13_implementations_agree :
  forall (V : Type) fname (coerce : nat -> V -> res V) deflt os s,
  forallb (fun o => negb (is_delete o)) os = true ->
  run fname coerce deflt Pure s os = run fname coerce deflt Accel s os.
Proof. exact @impl_agree. Qed.
Print Assumptions C13_implementations_agree.

(** ... and they do differ on a deletion. *)
Theorem C13_deletion_differs_refuted :
  exists (os : list (op (V:=nat))),
  snd (run (fun f => f) (fun _ v => Ok v) (fun _ => Ok 0) Pure empty os) <>
  snd (run (fun f => f) (fun _ v => Ok v) (fun _ => Ok 0) Accel empty os).
Proof. exists [Set_ 1 1 5; Del 1 1; Get 1 1]. vm_compute. discriminate. Qed.
Print Assumptions C13_deletion_differs_refuted.

(** *** Non-vacuity: a field accepting only even numbers (halving them),
    default 8. *)
Definition ex_coerce (f v : nat) : res nat :=
  if Nat.even v then Ok (Nat.div2 v) else Exc TypeError.
Definition ex_deflt (f : nat) : res nat := Ok 8.
Definition ex_h2 : list (op (V:=nat)) := [Get 1 2; Set_ 1 2 7; Set_ 2 2 6; Get 1 2; FSet 1 3 4 true].
Example C08_hyps :
  Forall (fun o => ~ overwrites (fun f => f) ex_coerce 1 2 o) ex_h2 /\
  snd (step (fun f => f) ex_coerce ex_deflt Pure
    (fst (run (fun f => f) ex_coerce ex_deflt Pure empty ([Get 1 2] ++ Set_ 1 2 10 :: ex_h2))) (Get 1 2))
  = Ok (OVal 5).
Proof.
  split; [|vm_compute; reflexivity].
  repeat constructor; cbn; intros H; try exact H; destruct H as (A & B & C);
  try discriminate; destruct C as [w C]; discriminate.
Qed.
Example C09_hyps : ex_coerce 2 7 = Exc TypeError /\
  step (fun f => f) ex_coerce ex_deflt Accel empty (Set_ 1 2 7) = (empty, Exc ValueError).
Proof. split; reflexivity. Qed.
Example C10_hyps :
  log (fst (run (fun f => f) ex_coerce ex_deflt Pure empty [Set_ 1 2 4; Set_ 1 2 5; FSet 1 2 6 false; Get 3 3; FSet 1 2 8 true]))
  = [MSet 2 1 2; MSet 2 1 4].
Proof. reflexivity. Qed.
Example C12_hyps : dict (fst (run (fun f => f) ex_coerce ex_deflt Accel empty [Set_ 1 2 4])) 1 2 = Some 2.
Proof. reflexivity. Qed.
