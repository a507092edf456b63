(** Products of matrices over the reals, and their size. *)
From Coq Require Import Reals ZArith List.
From Flocq Require Import Core.Core IEEE754.BinarySingleNaN.
From Verif Require Import Rounded_Model Turn_Model Combined_Model.
Import ListNotations.
Local Open Scope list_scope.
Local Open Scope R_scope.

Definition rmat : Set := nat -> nat -> R.
(** the numbers in an array *)
Definition val (x : fmat) : rmat := fun i j => match x with F32 m => B2R (m i j) | F64 m => B2R (m i j) end.
Definition finite (x : fmat) : Prop :=
  forall i j, (i < 4)%nat -> (j < 4)%nat -> match x with F32 m => is_finite (m i j) | F64 m => is_finite (m i j) end = true.
Definition all_finite (ms : list (option fmat)) : Prop := forall m, In (Some m) ms -> finite m.

Definition sum4 (f : nat -> R) : R := f 0%nat + f 1%nat + f 2%nat + f 3%nat.
Definition times (a b : rmat) : rmat := fun i j => sum4 (fun k => a i k * b k j).
Definition unit4 : rmat := fun i j => if Nat.eqb i j then 1 else 0.
(** the exact product, the last matrix leftmost: the first to meet a row vector.
    None is the identity *)
Fixpoint exact (ms : list (option fmat)) : rmat :=
  match ms with
  | [] => unit4
  | None :: ms => exact ms
  | Some m :: ms => times (exact ms) (val m)
  end.

(** the largest sum of a row *)
Definition row (a : rmat) (i : nat) : R := sum4 (fun j => Rabs (a i j)).
Definition norm (a : rmat) : R := Rmax (Rmax (row a 0) (row a 1)) (Rmax (row a 2) (row a 3)).
(** the product of the sizes, those below 1 counted as 1 *)
Fixpoint bound (ms : list (option fmat)) : R :=
  match ms with
  | [] => 1
  | None :: ms => bound ms
  | Some m :: ms => Rmax 1 (norm (val m)) * bound ms
  end.
(** (1 + 2^-20)^n *)
Definition growth (n : nat) : R := (1 + bpow radix2 (-20)) ^ n.
