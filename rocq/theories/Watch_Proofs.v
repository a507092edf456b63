(** Lemmas about Watch_Model. *)
From Verif Require Import Base PyList OList_Model OList_Spec OList_Proofs Watch_Model.
Local Open Scope Z_scope.

Section Watched.
Context {A : Type}.
Variable eqb : A -> A -> bool.
Variable isb : A -> A -> bool.
Variable hashable : A -> bool.
Variable alive : nat -> nat -> bool.
Variable boom : list (message (A:=A)) -> message (A:=A) -> bool.
Notation state := (OList_Model.state (A:=A)).
Notation step := (OList_Model.step eqb isb hashable alive).
Notation w_step := (w_step eqb isb hashable alive boom).
Notation sends := (Watch_Model.sends boom).

(** [s'] is what is left of a call that would have come to [q]: its messages
    were cut after one on which a receiver raised *)
Definition cut (s' q : state) : Prop :=
  sender s' = sender q /\ (exists b, log q = log s' ++ b) /\ exists a m, log s' = a ++ [m] /\ boom a m = true.
Lemma emit_emit (s : state) a b : emit (emit s a) b = emit s (a ++ b).
Proof. unfold emit. cbn. rewrite app_assoc. reflexivity. Qed.
Lemma emit_nil (s : state) : emit s [] = s.
Proof. destruct s. unfold emit. cbn. rewrite app_nil_r. reflexivity. Qed.
Lemma sends_cases ms : forall s, match sends s ms with
  | (s', Ok _) => s' = emit s ms
  | (s', Exc e) => e = OtherError /\ items s' = items s /\ cut s' (emit s ms)
  end.
Proof.
  induction ms as [|m ms IH]; intros s; cbn [Watch_Model.sends]; [symmetry; apply emit_nil|].
  destruct (boom (log s) m) eqn:B.
  - split; [reflexivity|]. split; [reflexivity|]. split; [reflexivity|]. split; [exists ms; cbn; rewrite <- app_assoc; reflexivity|]. exists (log s), m. auto.
  - specialize (IH (emit s [m])). rewrite emit_emit in IH. exact IH.
Qed.
Lemma added_cases s v : match w_added alive boom s v with
  | (s', Ok _) => s' = send_added alive s v
  | (s', Exc e) => e = OtherError /\ items s' = items s /\ cut s' (send_added alive s v)
  end.
Proof. apply sends_cases. Qed.
Lemma removed_cases s v : match w_removed alive boom s v with
  | (s', Ok _) => s' = send_removed alive s v
  | (s', Exc e) => e = OtherError /\ items s' = items s /\ cut s' (send_removed alive s v)
  end.
Proof. apply sends_cases. Qed.
(** going on only adds messages *)
Definition after (s q : state) : Prop := sender q = sender s /\ exists b, log q = log s ++ b.
Lemma after_refl s : after s s. Proof. split; [reflexivity|]. exists []. symmetry. apply app_nil_r. Qed.
Lemma after_trans s t u : after s t -> after t u -> after s u.
Proof. intros (E1 & b1 & L1) (E2 & b2 & L2). split; [congruence|]. exists (b1 ++ b2). rewrite L2, L1, app_assoc. reflexivity. Qed.
Lemma after_emit s ms : after s (emit s ms). Proof. split; [reflexivity|]. exists ms. reflexivity. Qed.
Lemma after_items s l : after s (with_items s l). Proof. split; [reflexivity|]. exists []. symmetry. apply app_nil_r. Qed.
Lemma cut_after s q r : cut s q -> after q r -> cut s r.
Proof. intros (E1 & (b & L) & M) (E2 & c & L2). split; [congruence|]. split; [|exact M]. exists (b ++ c). rewrite L2, L, app_assoc. reflexivity. Qed.
Lemma after_removeds vs : forall s, after s (fold_left (send_removed alive) vs s).
Proof. induction vs as [|v vs IH]; intros s; cbn; [apply after_refl|]. eapply after_trans; [|apply IH]. apply after_emit. Qed.
Lemma after_loop cur vs : forall s prev, after s (fst (set_slice_loop eqb hashable alive cur vs s prev)).
Proof.
  induction vs as [|v vs IH]; intros s prev; cbn [set_slice_loop]; [apply after_refl|]. destruct (negb (hashable v)); [apply after_refl|].
  destruct (negb (py_in eqb v cur)); [eapply after_trans; [|apply IH]; apply after_emit|apply IH].
Qed.
Lemma removeds_cases vs : forall s, match w_removeds alive boom s vs with
  | (s', Ok _) => s' = fold_left (send_removed alive) vs s
  | (s', Exc e) => e = OtherError /\ items s' = items s /\ cut s' (fold_left (send_removed alive) vs s)
  end.
Proof.
  induction vs as [|v vs IH]; intros s; cbn [w_removeds fold_left]; [reflexivity|]. pose proof (removed_cases s v) as H.
  destruct (w_removed alive boom s v) as [s1 [u|e]].
  - subst s1. specialize (IH (send_removed alive s v)). exact IH.
  - destruct H as (-> & I & C). split; [reflexivity|]. split; [exact I|]. eapply cut_after; [exact C|apply after_removeds].
Qed.
Lemma loop_cases cur vs : forall s prev, match w_loop eqb hashable alive boom cur vs s prev with
  | (s', Ok p) => set_slice_loop eqb hashable alive cur vs s prev = (s', Ok p)
  | (s', Exc e) => set_slice_loop eqb hashable alive cur vs s prev = (s', Exc e) \/
                   (e = OtherError /\ items s' = items s /\ cut s' (fst (set_slice_loop eqb hashable alive cur vs s prev)))
  end.
Proof.
  induction vs as [|v vs IH]; intros s prev; cbn [w_loop set_slice_loop]; [reflexivity|]. destruct (negb (hashable v)); [left; reflexivity|].
  destruct (negb (py_in eqb v cur)); [|apply IH]. pose proof (added_cases s v) as H. destruct (w_added alive boom s v) as [s1 [u|e]].
  - subst s1. specialize (IH (send_added alive s v) prev). destruct (w_loop eqb hashable alive boom cur vs (send_added alive s v) prev) as [s2 [p|e]]; [exact IH|exact IH].
  - destruct H as (-> & I & C). right. split; [reflexivity|]. split; [exact I|]. eapply cut_after; [exact C|apply after_loop].
Qed.

(** a call either goes as if nothing raised, or is cut *)
Definition interrupted (s s' q : state) : Prop := (items s' = items s \/ items s' = items q) /\ cut s' q.
Lemma set_slice_cases s sl vs : match w_set_slice eqb hashable alive boom s sl vs with (s', r) =>
  o_set_slice eqb hashable alive s sl vs = (s', r) \/ (r = Exc OtherError /\ items s' = items (fst (o_set_slice eqb hashable alive s sl vs)) /\ cut s' (fst (o_set_slice eqb hashable alive s sl vs))) end.
Proof.
  unfold w_set_slice, o_set_slice. destruct (py_get_slice (items s) sl) as [prev|e]; [|left; reflexivity].
  destruct (negb (forallb hashable prev)); [left; reflexivity|]. destruct (py_set_slice (items s) sl vs) as [l|e]; [|left; reflexivity].
  pose proof (loop_cases prev vs (with_items s l) prev) as H. pose proof (loop_items eqb hashable alive prev vs (with_items s l) prev) as HI.
  destruct (w_loop eqb hashable alive boom prev vs (with_items s l) prev) as [s1 [p|e]].
  - rewrite H in *. cbn [fst] in HI. pose proof (removeds_cases p s1) as R. destruct (w_removeds alive boom s1 p) as [s2 [u|e]]; cbn [giving].
    + subst s2. left. reflexivity.
    + destruct R as (-> & I & C). right. cbn [fst]. split; [reflexivity|]. split; [|exact C]. rewrite I. rewrite fold_removed_items. reflexivity.
  - destruct H as [H|(-> & I & C)].
    + rewrite H. left. reflexivity.
    + right. split; [reflexivity|]. destruct (set_slice_loop eqb hashable alive prev vs (with_items s l) prev) as [q [p|e]]; cbn [fst] in *.
      * split; [rewrite fold_removed_items; congruence|]. eapply cut_after; [exact C|apply after_removeds].
      * split; [congruence|exact C].
Qed.
Ltac sent H := match goal with
  | |- context [w_added alive boom ?a ?b] => pose proof (added_cases a b) as H; destruct (w_added alive boom a b) as [?s1 [?u|?e]]
  | |- context [w_removed alive boom ?a ?b] => pose proof (removed_cases a b) as H; destruct (w_removed alive boom a b) as [?s1 [?u|?e]] end.
Lemma step_cases s o : match w_step s o with (s', r) =>
  step s o = (s', r) \/ (r = Exc OtherError /\ interrupted s s' (fst (step s o))) end.
Proof.
  unfold interrupted. destruct o as [v|i v|i|v|sl|i|sl vs|i v|vs|n|]; cbn [Watch_Model.w_step OList_Model.step].
  - unfold w_append, o_append. sent H; cbn [giving]; [subst s1; left; reflexivity|]. destruct H as (-> & I & C). right. cbn [fst]. auto.
  - unfold w_insert, o_insert. sent H; cbn [giving]; [subst s1; left; reflexivity|]. destruct H as (-> & I & C). right. cbn [fst]. auto.
  - unfold w_pop, o_pop. destruct (py_pop (items s) _) as [[v l]|e]; [|left; reflexivity]. sent H; cbn [giving]; [subst s1; left; reflexivity|].
    destruct H as (-> & I & C). right. cbn [fst]. auto.
  - unfold w_remove, o_remove. destruct (py_remove eqb (items s) v) as [l|]; [|left; reflexivity]. sent H; cbn [giving]; [subst s1; left; reflexivity|].
    destruct H as (-> & I & C). right. cbn [fst]. auto.
  - unfold w_del_slice, o_del_slice. destruct (py_get_slice (items s) sl) as [cur|e]; [|left; reflexivity].
    pose proof (removeds_cases cur s) as H. destruct (w_removeds alive boom s cur) as [s1 [u|e]].
    + subst s1. destruct (py_del_slice _ _); left; reflexivity.
    + destruct H as (-> & I & C). right. split; [reflexivity|]. split; [left; exact I|].
      destruct (py_del_slice _ _); cbn [fst]; [|exact C]. eapply cut_after; [exact C|apply after_items].
  - unfold w_del_int, o_del_int. destruct (py_get (items s) i) as [v|e]; [|left; reflexivity]. sent H; cbn [giving]; [subst s1; left; reflexivity|].
    destruct H as (-> & I & C). right. cbn [fst]. auto.
  - pose proof (set_slice_cases s sl vs) as H. destruct (w_set_slice eqb hashable alive boom s sl vs) as [s' r]. destruct H as [H|(-> & I & C)]; [left; exact H|right; auto].
  - unfold w_set_int, o_set_int. destruct (py_get (items s) i) as [cur|e]; [|left; reflexivity]. destruct (negb (isb cur v)) eqn:E.
    + sent H.
      * subst s1. destruct (py_set (items (send_removed alive s cur)) i v) as [l|e]; [|left; reflexivity]. sent H; cbn [giving]; [subst; left; reflexivity|].
        destruct H as (-> & I & C). right. cbn [fst]. auto.
      * destruct H as (-> & I & C). right. split; [reflexivity|]. split; [left; exact I|].
        destruct (py_set _ i v) as [l|]; cbn [fst]; [|exact C]. eapply cut_after; [exact C|]. eapply after_trans; [apply after_items|apply after_emit].
    + destruct (py_set (items s) i v) as [l|e]; left; reflexivity.
  - unfold w_extend, o_extend. pose proof (set_slice_cases s (slice2 (lenZ (items s)) (lenZ (items s))) vs) as H.
    destruct (w_set_slice eqb hashable alive boom s (slice2 (lenZ (items s)) (lenZ (items s))) vs) as [s' r]. destruct H as [H|(-> & I & C)]; [left; exact H|right; auto].
  - left. reflexivity.
  - left. reflexivity.
Qed.
(** without receivers that raise, contents are the old ones or the plain list's *)
Lemma set_slice_quiet s sl vs : items (fst (o_set_slice eqb hashable alive s sl vs)) = items s \/
  exists l, py_set_slice (items s) sl vs = Ok l /\ items (fst (o_set_slice eqb hashable alive s sl vs)) = l.
Proof.
  unfold o_set_slice. destruct (py_get_slice (items s) sl) as [prev|e]; [|left; reflexivity].
  destruct (negb (forallb hashable prev)); [left; reflexivity|]. destruct (py_set_slice (items s) sl vs) as [l|e]; [|left; reflexivity].
  right. exists l. split; [reflexivity|]. pose proof (loop_items eqb hashable alive prev vs (with_items s l) prev) as HI.
  destruct (set_slice_loop eqb hashable alive prev vs (with_items s l) prev) as [q [p|e]]; cbn [fst] in *; [rewrite fold_removed_items|]; exact HI.
Qed.
Lemma step_quiet s o : items (fst (step s o)) = items s \/ items (fst (step s o)) = fst (plain_step eqb (items s) o).
Proof.
  destruct o as [v|i v|i|v|sl|i|sl vs|i v|vs|n|]; cbn [OList_Model.step plain_step]; try (right; reflexivity).
  - right. unfold o_pop. destruct i as [i|].
    + destruct (py_pop (items s) i) as [[v l]|e]; reflexivity.
    + rewrite (py_pop_last eqb isb hashable). destruct (py_pop (items s) (-1)) as [[v l]|e]; reflexivity.
  - right. unfold o_remove. destruct (py_remove eqb (items s) v); reflexivity.
  - unfold o_del_slice. destruct (py_get_slice (items s) sl) as [cur|e]; [|left; reflexivity]. rewrite fold_removed_items.
    destruct (py_del_slice (items s) sl) as [l|e]; [right; reflexivity|left; cbn [fst]; apply fold_removed_items].
  - left. unfold o_del_int. destruct (py_get (items s) i); reflexivity.
  - destruct (set_slice_quiet s sl vs) as [H|(l & E & H)]; [left; exact H|right]. rewrite H, E. reflexivity.
  - unfold o_set_int. destruct (py_get (items s) i) as [cur|e]; [|left; reflexivity].
    destruct (negb (isb cur v)); cbn [items send_removed emit]; (destruct (py_set (items s) i v) as [l|e]; [right; reflexivity|left; reflexivity]).
  - unfold o_extend. destruct (set_slice_quiet s (slice2 (lenZ (items s)) (lenZ (items s))) vs) as [H|(l & E & H)]; [left; exact H|right].
    rewrite H. erewrite extend_plain in E. injection E as <-. reflexivity.
Qed.
End Watched.

From Verif Require Import Watch_Spec.
Section Histories.
Context {A : Type}.
Variable eqb : A -> A -> bool.
Variable isb : A -> A -> bool.
Variable hashable : A -> bool.
Variable alive : nat -> nat -> bool.
Variable boom : list (message (A:=A)) -> message (A:=A) -> bool.
Notation state := (OList_Model.state (A:=A)).
Notation step := (OList_Model.step eqb isb hashable alive).
Notation w_step := (w_step eqb isb hashable alive boom).
Notation w_run := (w_run eqb isb hashable alive boom).

Lemma step_contents s o : items (fst (w_step s o)) = items s \/ items (fst (w_step s o)) = fst (plain_step eqb (items s) o).
Proof.
  pose proof (step_cases eqb isb hashable alive boom s o) as H. pose proof (step_quiet eqb isb hashable alive s o) as Q.
  destruct (w_step s o) as [s' r]; cbn [fst]. destruct H as [H|(-> & [I|I] & _)]; [rewrite H in Q; exact Q|left; exact I|]. rewrite I. exact Q.
Qed.
Lemma run_contents os : forall s, exists taken, some_of taken os /\ items (fst (w_run s os)) = fst (plain_run eqb (items s) taken).
Proof.
  induction os as [|o os IH]; intros s; cbn [Watch_Model.w_run]; [exists []; split; [constructor|reflexivity]|].
  pose proof (step_contents s o) as H. destruct (w_step s o) as [s1 r]; cbn [fst] in *. destruct (IH s1) as (k & K & E).
  destruct (w_run s1 os) as [s2 rs]; cbn [fst] in *. destruct H as [H|H].
  - exists k. split; [constructor; exact K|]. rewrite E, H. reflexivity.
  - exists (o :: k). split; [constructor; exact K|]. cbn [plain_run]. destruct (plain_step eqb (items s) o) as [l1 r1]; cbn [fst] in *.
    rewrite E, H. destruct (plain_run eqb l1 k). reflexivity.
Qed.
Lemma set_slice_first s sl vs : items (fst (w_set_slice eqb hashable alive boom s sl vs)) = items (fst (o_set_slice eqb hashable alive s sl vs)).
Proof.
  pose proof (set_slice_cases eqb hashable alive boom s sl vs) as H. destruct (w_set_slice eqb hashable alive boom s sl vs) as [s' r]; cbn [fst].
  destruct H as [H|(_ & H & _)]; [rewrite H; reflexivity|exact H].
Qed.
Lemma changes_first_items s o : changes_first o -> items (fst (w_step s o)) = items (fst (step s o)).
Proof.
  intros C. destruct o as [v|i v|i|v|sl|i|sl vs|i v|vs|n|]; try contradiction; cbn [Watch_Model.w_step OList_Model.step].
  - unfold w_append, o_append. pose proof (added_cases alive boom (with_items s (py_append (items s) v)) v) as H.
    destruct (w_added _ _ _ _) as [s1 [u|e]]; cbn [giving fst]; [subst; reflexivity|]. exact (proj1 (proj2 H)).
  - unfold w_insert, o_insert. pose proof (added_cases alive boom (with_items s (py_insert (items s) i v)) v) as H.
    destruct (w_added _ _ _ _) as [s1 [u|e]]; cbn [giving fst]; [subst; reflexivity|]. exact (proj1 (proj2 H)).
  - unfold w_pop, o_pop. destruct (py_pop _ _) as [[v l]|e]; [|reflexivity]. pose proof (removed_cases alive boom (with_items s l) v) as H.
    destruct (w_removed _ _ _ _) as [s1 [u|e]]; cbn [giving fst]; [subst; reflexivity|]. exact (proj1 (proj2 H)).
  - unfold w_remove, o_remove. destruct (py_remove _ _ _) as [l|]; [|reflexivity]. pose proof (removed_cases alive boom (with_items s l) v) as H.
    destruct (w_removed _ _ _ _) as [s1 [u|e]]; cbn [giving fst]; [subst; reflexivity|]. exact (proj1 (proj2 H)).
  - apply set_slice_first.
  - apply set_slice_first.
Qed.
Lemma changes_first_plain s o : changes_first o ->
  Forall (fun v => hashable v = true) (items s) -> Forall (fun v => hashable v = true) (op_values o) ->
  items (fst (w_step s o)) = fst (plain_step eqb (items s) o).
Proof. intros C H1 H2. rewrite (changes_first_items s o C). apply step_plain; [|exact H1|exact H2]. destruct o; solve [exact Logic.I | contradiction]. Qed.
Lemma del_slice_all s sl : match snd (w_step s (DelSlice sl)) with
  | Ok _ => items (fst (w_step s (DelSlice sl))) = fst (plain_step eqb (items s) (DelSlice sl))
  | Exc _ => items (fst (w_step s (DelSlice sl))) = items s
  end.
Proof.
  cbn [Watch_Model.w_step plain_step]. unfold w_del_slice. destruct (py_get_slice (items s) sl) as [cur|e]; [|reflexivity].
  pose proof (removeds_cases alive boom cur s) as H. destruct (w_removeds alive boom s cur) as [s1 [u|e]]; cbn [fst snd].
  - subst s1. rewrite fold_removed_items. destruct (py_del_slice (items s) sl) as [l|e]; cbn [fst snd]; [reflexivity|apply fold_removed_items].
  - exact (proj1 (proj2 H)).
Qed.
Lemma interrupted_all s o s' r : w_step s o = (s', r) ->
  step s o = (s', r) \/
  (r = Exc OtherError /\ raised_on_last boom (log s') /\ exists rest, log (fst (step s o)) = log s' ++ rest).
Proof.
  intros E. pose proof (step_cases eqb isb hashable alive boom s o) as H. rewrite E in H. destruct H as [H|(-> & _ & _ & B & a & m & L & M)]; [left; exact H|right].
  split; [reflexivity|]. split; [exists a, m; auto|exact B].
Qed.
End Histories.
Section Quiet.
Context {A : Type}.
Variable eqb : A -> A -> bool.
Variable isb : A -> A -> bool.
Variable hashable : A -> bool.
Variable alive : nat -> nat -> bool.
Lemma quiet_all s o : w_step eqb isb hashable alive (fun _ _ => false) s o = OList_Model.step eqb isb hashable alive s o.
Proof.
  pose proof (step_cases eqb isb hashable alive (fun _ _ => false) s o) as H. destruct (w_step _ _ _ _ _ s o) as [s' r].
  destruct H as [H|(_ & _ & _ & _ & a & m & _ & B)]; [symmetry; exact H|discriminate B].
Qed.
End Quiet.

Section Fields.
Context {V : Type}.
Variable fname : nat -> nat.
Variable coerce : nat -> V -> res V.
Variable deflt : nat -> res V.
Variable fboom : list (Field_Model.msg (V:=V)) -> Field_Model.msg (V:=V) -> bool.
Import Field_Model.
Notation f_step := (f_step fname coerce deflt fboom).
Lemma f_step_state i s o : fst (f_step i s o) = fst (Field_Model.step fname coerce deflt i s o).
Proof.
  destruct o as [n f|n f v|n f v b|n f|n f b|f|n f]; cbn [Watch_Model.f_step Field_Model.step]; try reflexivity.
  - unfold f_attr_set, attr_set, f_fset, fset. destruct (set_ fname coerce s n f v) as [s1 [w|e]]; [|reflexivity]. unfold f_send. destruct (fboom _ _); reflexivity.
  - unfold f_fset, fset. destruct (set_ fname coerce s n f v) as [s1 [w|e]]; [|reflexivity]. destruct b; reflexivity.
  - destruct i; [reflexivity|]. unfold f_ac_delete, ac_delete, f_ac_del, ac_del. destruct (dict s n (fname f)) as [v|]; [|reflexivity]. unfold f_send. destruct (fboom _ _); reflexivity.
  - destruct i.
    + unfold f_py_fdel, py_fdel. destruct (py_delete fname s n f) as [s1 [w|e]]; [|reflexivity]. destruct b; reflexivity.
    + unfold f_ac_del, ac_del. destruct (dict s n (fname f)) as [v|]; [|reflexivity]. destruct b; reflexivity.
Qed.
Lemma f_run_state i os : forall s, fst (f_run fname coerce deflt fboom i s os) = fst (Field_Model.run fname coerce deflt i s os).
Proof.
  induction os as [|o os IH]; intros s; cbn [Watch_Model.f_run Field_Model.run]; [reflexivity|]. pose proof (f_step_state i s o) as H.
  destruct (f_step i s o) as [s1 r]. destruct (Field_Model.step fname coerce deflt i s o) as [s2 r2]. cbn [fst] in H. subst s2.
  specialize (IH s1). destruct (f_run fname coerce deflt fboom i s1 os). destruct (Field_Model.run fname coerce deflt i s1 os). exact IH.
Qed.
Lemma f_step_result i s o :
  snd (f_step i s o) = snd (Field_Model.step fname coerce deflt i s o) \/
  (snd (f_step i s o) = Exc OtherError /\ (exists x, snd (Field_Model.step fname coerce deflt i s o) = Ok x) /\
   exists m, Field_Model.log (fst (f_step i s o)) = Field_Model.log s ++ [m] /\ fboom (Field_Model.log s) m = true).
Proof.
  assert (L : forall s n f v s1 w, set_ fname coerce s n f v = (s1, Ok w) -> Field_Model.log s1 = Field_Model.log s).
  { intros ? ? ? ? ? ? E. unfold set_ in E. destruct (coerce _ _); [|discriminate]. injection E as <- _. reflexivity. }
  destruct o as [n f|n f v|n f v b|n f|n f b|f|n f]; cbn [Watch_Model.f_step Field_Model.step]; try (left; reflexivity).
  - unfold f_attr_set, attr_set, f_fset, fset. destruct (set_ fname coerce s n f v) as [s1 [w|e]] eqn:E; [|left; reflexivity]. rewrite <- (L _ _ _ _ _ _ E). unfold f_send.
    destruct (fboom _ _) eqn:B; [right|left; reflexivity]. cbn. split; [reflexivity|]. split; [eexists; reflexivity|]. eexists. split; [reflexivity|exact B].
  - unfold f_fset, fset. destruct (set_ fname coerce s n f v) as [s1 [w|e]] eqn:E; [|left; reflexivity]. rewrite <- (L _ _ _ _ _ _ E). destruct b; [|left; reflexivity]. unfold f_send. cbn.
    destruct (fboom _ _) eqn:B; [right|left; reflexivity]. split; [reflexivity|]. split; [eexists; reflexivity|]. eexists. split; [reflexivity|exact B].
  - destruct i; [left; reflexivity|]. unfold f_ac_delete, ac_delete, f_ac_del, ac_del. destruct (dict s n (fname f)) as [v|]; [|left; reflexivity]. unfold f_send.
    destruct (fboom _ _) eqn:B; [right|left; reflexivity]. cbn. split; [reflexivity|]. split; [eexists; reflexivity|]. eexists. split; [reflexivity|exact B].
  - destruct i.
    + unfold f_py_fdel, py_fdel, py_delete. destruct (dict s n (fname f)) as [v|]; [|left; reflexivity]. destruct b; [|left; reflexivity]. unfold f_send. cbn.
      destruct (fboom _ _) eqn:B; [right|left; reflexivity]. split; [reflexivity|]. split; [eexists; reflexivity|]. eexists. split; [reflexivity|exact B].
    + unfold f_ac_del, ac_del. destruct (dict s n (fname f)) as [v|]; [|left; reflexivity]. destruct b; [|left; reflexivity]. unfold f_send. cbn.
      destruct (fboom _ _) eqn:B; [right|left; reflexivity]. split; [reflexivity|]. split; [eexists; reflexivity|]. eexists. split; [reflexivity|exact B].
Qed.
End Fields.

Lemma whole_slice {A : Type} (v : A) l : exists cur, py_get_slice (v :: l) {| sl_start := None; sl_stop := None; sl_step := None |} = Ok (v :: cur).
Proof.
  unfold py_get_slice, slice_indices. cbn [sl_start sl_stop sl_step].
  replace (1 =? 0)%Z with false by reflexivity. replace (1 <? 0)%Z with false by reflexivity.
  unfold slice_positions, slice_count. replace (1 <? 0)%Z with false by reflexivity.
  assert (0 <? lenZ (v :: l) = true)%Z as -> by (unfold lenZ; cbn [length]; lia).
  replace (Z.to_nat ((lenZ (v :: l) - 0 - 1) / 1 + 1)) with (S (length l)) by (rewrite Z.div_1_r; unfold lenZ; cbn [length]; lia).
  cbn [seq map pick flat_map nth_error Z.of_nat Z.mul Z.add Z.to_nat app]. eexists. reflexivity.
Qed.
