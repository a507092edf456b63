(** C99: watchers that set fields. *)
From Coq Require Import List Arith Bool Permutation Lia.
From Verif Require Import Base Echo_Model Echo_Spec Echo_Proofs.
Import ListNotations.

(** A field has the value last stored, and every value stored is one its type
    accepted; whoever raises, and however deep assignments nest. *)
Theorem C99_value_is_last_stored :
  forall V coerce watchers react p s t s' o, does V coerce watchers react p s t s' o ->
  forall k, s' k = last (given V k t) (s k) /\ forall v, In v (given V k t) -> exists r, coerce k r = Ok v.
Proof.
  intros V coerce watchers react p s t s' o H k. split; [exact (proj2 (proj2 (store_all V coerce watchers react)) p s t s' o H k)|].
  intros v I. apply (proj2 (proj2 (coerced_all V coerce watchers react)) p s t s' o H k v).
  clear H. induction t as [|[j x|w j x|w j|] t IH]; cbn in *; try tauto.
  destruct (Nat.eqb_spec j k) as [->|E]; [|auto]. destruct I as [->|I]; auto.
Qed.
Print Assumptions C99_value_is_last_stored.

(** No watcher hears of a value that was not stored, or twice of one assignment. *)
Theorem C99_heard_at_most_once :
  forall V coerce watchers react, (forall k, NoDup (watchers k)) ->
  forall p s t s' o, does V coerce watchers react p s t s' o ->
  forall w k, exists missed, Permutation (heard V w k t ++ missed) (given V k t).
Proof. intros V coerce watchers react ND p s t s' o H w k. exact (proj2 (proj2 (at_most_all V coerce watchers react ND)) p s t s' o H w k). Qed.
Print Assumptions C99_heard_at_most_once.

(** If nobody raises, every watcher hears of every assignment once. *)
Theorem C99_heard_once :
  forall V coerce watchers react w k, NoDup (watchers k) -> In w (watchers k) ->
  forall p s t s' o, does V coerce watchers react p s t s' o -> smooth V t -> Permutation (heard V w k t) (given V k t).
Proof. intros V coerce watchers react w k ND W p s t s' o H S. exact (proj2 (proj2 (exactly_all V coerce watchers react w k ND W)) p s t s' o H S). Qed.
Print Assumptions C99_heard_once.

(** A watcher hears of all values in the order they were stored, so that the last
    it heard of is the value the field has, if the watchers called before it do not
    assign to the field and do not raise. *)
Theorem C99_mirror :
  forall V coerce watchers react k w before after, watchers k = before ++ w :: after -> NoDup (watchers k) ->
  (forall x, In x before -> leaves_alone V coerce watchers react x k) ->
  forall p s t s' o, does V coerce watchers react p s t s' o ->
  ~ In (TooDeep V) t -> (forall x, In x before -> ~ In (Threw V x k) t) ->
  heard V w k t = given V k t /\ s' k = last (heard V w k t) (s k).
Proof.
  intros V coerce watchers react k w before after E ND LA p s t s' o H F1 F2.
  assert (A : heard V w k t = given V k t) by exact (proj2 (proj2 (mirror_all V coerce watchers react k w before after E ND LA)) p s t s' o H (conj F1 F2)).
  split; [exact A|]. rewrite A. apply (C99_value_is_last_stored _ _ _ _ _ _ _ _ _ H).
Qed.
Print Assumptions C99_mirror.

(** An assignment whose value is accepted sticks, whether or not a watcher
    raises, if the field's watchers do not assign to it. *)
Theorem C99_assignment_sticks :
  forall V coerce watchers react k v v' s t s' o, (forall w, In w (watchers k) -> leaves_alone V coerce watchers react w k) ->
  sets V coerce watchers react k v s t s' o -> coerce k v = Ok v' -> t <> [TooDeep V] -> s' k = v' /\ given V k t = [v'].
Proof. intros. eapply sticks; eauto. Qed.
Print Assumptions C99_assignment_sticks.

(** That is so in every network without cycles. *)
Theorem C99_acyclic :
  forall V coerce watchers react rank, acyclic V watchers react rank -> (forall k, NoDup (watchers k)) ->
  (forall w k, In w (watchers k) -> leaves_alone V coerce watchers react w k) /\
  (forall p s t s' o, does V coerce watchers react p s t s' o -> smooth V t ->
   forall w k, In w (watchers k) -> heard V w k t = given V k t /\ s' k = last (heard V w k t) (s k)).
Proof.
  intros V coerce watchers react rank A ND. assert (L := acyclic_alone V coerce watchers react rank A). split; [exact L|].
  intros p s t s' o H (F1 & F2) w k W. apply in_split in W as (before & after & E).
  apply (C99_mirror V coerce watchers react k w before after E (ND k)) with (p := p) (o := o); auto.
  intros x X. apply L. rewrite E. apply in_app_iff. auto.
Qed.
Print Assumptions C99_acyclic.

(** Otherwise watchers may be left with values the field no longer has.  The
    first watcher of a field keeps it at one value; the second one, whatever it
    does with what it hears, is left with every other value assigned. *)
Section Keeper.
Variable V : Type.
Variable V_dec : forall a b : V, {a = b} + {a <> b}.
(** the value to keep *)
Variable c : V.
(** watcher 0 of field 0 assigns [c] when it hears of something else; watcher 1
    only notes what it hears in field 1 *)
Definition keeper (w k : nat) (v : V) : prog V :=
  match w with
  | 0 => if V_dec v c then Done V else Put V 0 c (fun _ => Done V)
  | _ => Put V 1 v (fun _ => Done V)
  end.
Definition two (k : nat) : list nat := match k with 0 => [0; 1] | _ => [] end.
Definition any (k : nat) (v : V) : res V := Ok v.
Lemma note v s : does V any two keeper (keeper 1 0 v) s [Stored V 1 v] (put V s 1 v) Ret.
Proof. change [Stored V 1 v] with ([Stored V 1 v] ++ []). eapply d_put; [|apply d_done]. eapply s_done; [reflexivity|]. apply c_none. Qed.
Lemma kept s : exists s1, sends V any two keeper [0; 1] 0 c s [Called V 0 0 c; Called V 1 0 c; Stored V 1 c] s1 Ret.
Proof.
  eexists. eapply (c_next V any two keeper 0 [1] 0 c s [] s [Called V 1 0 c; Stored V 1 c]).
  - cbn [keeper]. destruct (V_dec c c); [apply d_done|contradiction].
  - eapply (c_next V any two keeper 1 [] 0 c s [Stored V 1 c] _ []); [apply note|apply c_none].
Qed.
Lemma kept_run v s : v <> c -> exists s1,
  sets V any two keeper 0 v s [Stored V 0 v; Called V 0 0 v; Stored V 0 c; Called V 0 0 c; Called V 1 0 c; Stored V 1 c; Called V 1 0 v; Stored V 1 v] s1 Ret.
Proof.
  intros N. destruct (kept (put V (put V s 0 v) 0 c)) as (s1 & K). eexists. eapply s_done; [reflexivity|].
  eapply (c_next V any two keeper 0 [1] 0 v _ [Stored V 0 c; Called V 0 0 c; Called V 1 0 c; Stored V 1 c] s1 [Called V 1 0 v; Stored V 1 v]).
  - cbn [keeper]. destruct (V_dec v c); [contradiction|].
    change [Stored V 0 c; Called V 0 0 c; Called V 1 0 c; Stored V 1 c] with ([Stored V 0 c; Called V 0 0 c; Called V 1 0 c; Stored V 1 c] ++ []).
    eapply d_put; [|apply d_done]. eapply s_done; [reflexivity|]. exact K.
  - eapply (c_next V any two keeper 1 [] 0 v s1 [Stored V 1 v] _ []); [apply note|apply c_none].
Qed.
End Keeper.
Theorem C99_later_watchers_refuted :
  forall V (V_dec : forall a b : V, {a = b} + {a <> b}) c v s, v <> c ->
  exists t s', sets V (any V) two (keeper V V_dec c) 0 v s t s' Ret /\ smooth V t /\
    given V 0 t = [v; c] /\ heard V 1 0 t = [c; v] /\ s' 0 = c /\ s' 1 = v.
Proof.
  intros V V_dec c v s N. destruct (kept_run V V_dec c v s N) as (s1 & H). eexists. exists s1. split; [exact H|].
  pose proof (proj1 (store_all V _ _ _) _ _ _ _ _ _ H) as S.
  split; [split; [|intros w k]; cbn; intuition discriminate|]. split; [reflexivity|]. split; [reflexivity|]. split; rewrite S; reflexivity.
Qed.
Print Assumptions C99_later_watchers_refuted.

(** a network without cycles: field 0 is copied to field 1 by watcher 0, field 1
    to field 2 by watcher 1; watcher 2 raises *)
Definition chain (w k : nat) (v : nat) : prog nat := match w with 2 => Raise nat OtherError | _ => Put nat (S k) v (fun _ => Done nat) end.
Definition links (k : nat) : list nat := match k with 0 => [0] | 1 => [1] | 3 => [2] | _ => [] end.
Example C99_chain_ex : acyclic nat links chain (fun k => k) /\ (forall k, NoDup (links k)) /\
  exists s', does nat (any nat) links chain (Put nat 0 7 (fun _ => Put nat 3 8 (fun _ => Done nat))) (fun _ => 0)
    [Stored nat 0 7; Called nat 0 0 7; Stored nat 1 7; Called nat 1 1 7; Stored nat 2 7; Stored nat 3 8; Called nat 2 3 8; Threw nat 2 3] s' Ret.
Proof.
  split; [|split].
  - intros w k v W. destruct k as [|[|[|[|k]]]]; cbn in W; try tauto; destruct W as [<-|[]]; cbn; auto.
  - intros [|[|[|[|k]]]]; cbn; repeat constructor; cbn; tauto.
  - eexists. eapply (d_put nat (any nat) links chain 0 7 _ _ [Stored nat 0 7; Called nat 0 0 7; Stored nat 1 7; Called nat 1 1 7; Stored nat 2 7] _ Ret [Stored nat 3 8; Called nat 2 3 8; Threw nat 2 3]).
    + eapply s_done; [reflexivity|]. eapply (c_next nat (any nat) links chain 0 [] 0 7 _ [Stored nat 1 7; Called nat 1 1 7; Stored nat 2 7] _ []); [|apply c_none].
      eapply (d_put nat (any nat) links chain 1 7 _ _ [Stored nat 1 7; Called nat 1 1 7; Stored nat 2 7] _ Ret []); [|apply d_done].
      eapply s_done; [reflexivity|]. eapply (c_next nat (any nat) links chain 1 [] 1 7 _ [Stored nat 2 7] _ []); [|apply c_none].
      eapply (d_put nat (any nat) links chain 2 7 _ _ [Stored nat 2 7] _ Ret []); [|apply d_done]. eapply s_done; [reflexivity|]. apply c_none.
    + eapply (d_put nat (any nat) links chain 3 8 _ _ [Stored nat 3 8; Called nat 2 3 8; Threw nat 2 3] _ (Raised OtherError) []); [|apply d_done].
      eapply s_done; [reflexivity|]. eapply (c_threw nat (any nat) links chain 2 [] 3 8 _ []). apply d_raise.
Qed.
