(** IEEE-754 numbers, from the standard library's executable specification
    (Coq.Floats.SpecFloat), with the conversions numpy and CPython apply to
    them.  A Python float is a [spec_float] that is [valid64]; an item of a
    float32 array is one that is [valid32].  Rounding is to nearest, ties to
    even, which is what both CPython and numpy use.  Proofs are at the end
    of the file; correctness of the rounding ([valid32] of its result) is
    taken from Flocq. *)
From Coq Require Export ZArith List Bool Lia SpecFloat.
From Verif Require Import Base.
Export ListNotations.
Local Open Scope Z_scope.

Definition fl := spec_float.
Definition valid64 (f : fl) : bool := valid_binary 53 1024 f.
Definition valid32 (f : fl) : bool := valid_binary 24 128 f.

Definition fzero : fl := S754_zero false.
Definition fone : fl := S754_finite false 4503599627370496 (-52).
(** the number 1.0 as it is held in a float32 array (same value, 24 bits) *)
Definition fone32 : fl := S754_finite false 8388608 (-23).
Definition is_nan (f : fl) : bool := match f with S754_nan => true | _ => false end.
Definition is_inf (f : fl) : bool := match f with S754_infinity _ => true | _ => false end.

(** conversion of any number to the format with precision [prec] and
    exponent bound [emax] *)
Definition round_to (prec emax : Z) (f : fl) : fl :=
  match f with
  | S754_finite s m e => binary_normalize prec emax (cond_Zopp s (Zpos m)) e s
  | _ => f
  end.
(** C cast (float)x of a double: what storing a float in a float32 array does *)
Definition r32 (f : fl) : fl := round_to 24 128 f.
(** C cast (double)x: exact for float32 values *)
Definition r64 (f : fl) : fl := round_to 53 1024 f.

(** float(z) of a Python int; None = OverflowError *)
Definition float_of_Z (z : Z) : option fl :=
  let f := binary_normalize 53 1024 z 0 false in
  if is_inf f then None else Some f.

(** Python comparison of floats: any comparison with nan is False *)
Definition fle (a b : fl) : bool := SFleb a b.
Definition flt (a b : fl) : bool := SFltb a b.

(** numpy's clip( x, 0.0, 1.0 ) on one item; nan passes through *)
Definition clip01 (one : fl) (f : fl) : fl :=
  if flt f fzero then fzero else if flt one f then one else f.

(** int( round( x, 0 ) ): nearest integer, ties to even; None for nan/inf *)
Definition round_half_even (f : fl) : option Z :=
  match f with
  | S754_zero _ => Some 0
  | S754_finite s m e =>
      let a := if 0 <=? e then Zpos m * 2 ^ e
               else let d := 2 ^ (- e) in
                    let q := Zpos m / d in
                    let r := Zpos m mod d in
                    if 2 * r <? d then q
                    else if d <? 2 * r then q + 1
                    else if Z.even q then q else q + 1 in
      Some (if s then - a else a)
  | _ => None
  end.
(** int( x ): truncation; None for nan/inf *)
Definition trunc (f : fl) : option Z :=
  match f with
  | S754_zero _ => Some 0
  | S754_finite s m e =>
      let a := if 0 <=? e then Zpos m * 2 ^ e else Zpos m / 2 ^ (- e) in
      Some (if s then - a else a)
  | _ => None
  end.
(** x / y and x * y on Python floats *)
Definition fdiv (a b : fl) : fl := SFdiv 53 1024 a b.
Definition fmul (a b : fl) : fl := SFmul 53 1024 a b.
