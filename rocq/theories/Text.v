(** Strings as lists of code points, with decimal rendering of naturals
    (Python's "%s" % n for n >= 0). *)
From Verif Require Import Base.
From Coq Require Import Decimal DecimalNat DecimalN Ascii.
From Coq Require Export NArith String.
From Coq Require Export List.
Export ListNotations.
Local Open Scope N_scope.

Definition text := list N.
Definition text_eqb (a b : text) : bool := if list_eq_dec N.eq_dec a b then true else false.
Lemma text_eqb_spec a b : text_eqb a b = true <-> a = b.
Proof. unfold text_eqb. destruct (list_eq_dec N.eq_dec a b); intuition discriminate. Qed.

(** literal strings of the source *)
Fixpoint lit (s : string) : text :=
  match s with
  | EmptyString => []
  | String.String c s' => N_of_ascii c :: lit s'
  end.

Fixpoint uint_text (d : uint) : text :=
  match d with
  | Nil => []
  | D0 d => 48 :: uint_text d | D1 d => 49 :: uint_text d | D2 d => 50 :: uint_text d
  | D3 d => 51 :: uint_text d | D4 d => 52 :: uint_text d | D5 d => 53 :: uint_text d
  | D6 d => 54 :: uint_text d | D7 d => 55 :: uint_text d | D8 d => 56 :: uint_text d
  | D9 d => 57 :: uint_text d
  end.
Definition dec (n : nat) : text := uint_text (Nat.to_uint n).
Definition decN (n : N) : text := uint_text (N.to_uint n).

Lemma uint_text_inj a b : uint_text a = uint_text b -> a = b.
Proof.
  revert b. induction a; intros b; destruct b; cbn; intros H; try discriminate; try reflexivity;
    injection H as H; f_equal; auto.
Qed.
Lemma dec_inj a b : dec a = dec b -> a = b.
Proof.
  unfold dec. intros H. apply uint_text_inj in H.
  rewrite <- (DecimalNat.Unsigned.of_to a), <- (DecimalNat.Unsigned.of_to b). rewrite H. reflexivity.
Qed.

Definition starts_with (p s : text) : bool := text_eqb (firstn (List.length p) s) p.
Definition ends_with (p s : text) : bool :=
  starts_with (List.rev p) (List.rev s).
Lemma starts_with_spec p s : starts_with p s = true <-> exists t, s = (p ++ t)%list.
Proof.
  unfold starts_with. rewrite text_eqb_spec. split.
  - intros H. exists (skipn (List.length p) s). rewrite <- H at 1. symmetry. apply firstn_skipn.
  - intros [t ->]. rewrite firstn_app, Nat.sub_diag, firstn_all. cbn. apply app_nil_r.
Qed.
Lemma ends_with_spec p s : ends_with p s = true <-> exists t, s = (t ++ p)%list.
Proof.
  unfold ends_with. rewrite starts_with_spec. split.
  - intros [t H]. exists (List.rev t). apply (f_equal (@List.rev N)) in H.
    rewrite rev_involutive, rev_app_distr, rev_involutive in H. exact H.
  - intros [t ->]. exists (List.rev t). apply rev_app_distr.
Qed.
