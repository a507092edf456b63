(** Vocabulary for statements about colour strings. *)
From Verif Require Import Base Text Float Color_Model.
From Coq Require Import Reals.
From Flocq Require Import Core.Core IEEE754.BinarySingleNaN.
Local Open Scope Z_scope.

(** two spellings that differ only in the case of ASCII letters *)
Definition same_letter (x y : N) : Prop :=
  x = y \/ (65 <= x <= 90 /\ y = x + 32)%N \/ (65 <= y <= 90 /\ x = y + 32)%N.
Definition same_but_case (a b : text) : Prop := Forall2 same_letter a b.

(** [hex c v]: character [c] is the hexadecimal digit of value [v], in either case *)
Inductive hex : N -> Z -> Prop :=
| hex_dec v : 0 <= v <= 9 -> hex (Z.to_N (48 + v)) v
| hex_low v : 10 <= v <= 15 -> hex (Z.to_N (97 + (v - 10))) v
| hex_up v : 10 <= v <= 15 -> hex (Z.to_N (65 + (v - 10))) v.

(** the double nearest to the real number x (round to nearest, ties to even) *)
Definition is_double_nearest (x : R) (f : fl) : Prop :=
  valid_binary 53 1024 f = true /\ is_finite_SF f = true /\
  SF2R radix2 f = round radix2 (FLT_exp (-1074) 53) ZnearestE x.
