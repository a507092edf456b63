(** float( text ) and int( text, 0 ) of CPython, for the characters that can
    occur in a number token of the grammar (signs, digits, full stop, e, x,
    hexadecimal digits).  Texts with blanks, underscores, inf, nan or other
    digits, which Python accepts too, cannot occur there and are rejected. *)
From Verif Require Import Base Text Float Lex_Spec.
From Coq Require Import SpecFloat.
Local Open Scope Z_scope.
Local Open Scope list_scope.

Fixpoint span (f : N -> bool) (l : text) : text * text :=
  match l with
  | [] => ([], [])
  | c :: r => if f c then let (a, b) := span f r in (c :: a, b) else ([], l)
  end.
Definition take_sign (l : text) : bool * text :=
  match l with
  | c :: r => if (c =? 45)%N then (true, r) else if (c =? 43)%N then (false, r) else (false, l)
  | [] => (false, [])
  end.
Definition digits_val (l : text) : Z := fold_left (fun a c => a * 10 + (Z.of_N c - 48)) l 0.

(** the parts of a decimal literal: sign, digits as one integer, power of ten.
    None = ValueError *)
Definition dec_parts (l : text) : option (bool * Z * Z) :=
  let (s, r) := take_sign l in
  let (ip, r1) := span digit r in
  let (fp, r2) := match r1 with
                  | c :: r' => if (c =? 46)%N then span digit r' else ([], r1)
                  | [] => ([], [])
                  end in
  if negb (nonempty (ip ++ fp)) then None else
  let m := digits_val (ip ++ fp) in
  let sc := Z.of_nat (List.length fp) in
  match r2 with
  | [] => Some (s, m, - sc)
  | c :: r3 =>
      if (c =? 101)%N || (c =? 69)%N then
        let (es, r4) := take_sign r3 in
        let (x, r5) := span digit r4 in
        if nonempty x && negb (nonempty r5)
        then Some (s, m, (if es then - digits_val x else digits_val x) - sc) else None
      else None
  end.

(** the double nearest to n / d, ties to even (infinity beyond the range) *)
Definition rat2fl (s : bool) (n d : positive) : fl :=
  let k := Z.max 0 (Z.pos (digits2_pos d) + 53 - Z.pos (digits2_pos n)) in
  let (q, r) := Z.div_eucl (Zpos n * 2 ^ k) (Zpos d) in
  binary_round_aux 53 1024 s q (- k) (new_location (Zpos d) r).
Definition dec2fl (s : bool) (m e : Z) : fl :=
  match m with
  | Zpos p => if 0 <=? e then rat2fl s (p * Z.to_pos (10 ^ e)) 1 else rat2fl s p (Z.to_pos (10 ^ (- e)))
  | _ => S754_zero s
  end.
(** float( text ); None = ValueError *)
Definition read_float (l : text) : option fl :=
  match dec_parts l with Some (s, m, e) => Some (dec2fl s m e) | None => None end.

(** int( text, 0 ): decimal without leading zeros, or 0x...; None = ValueError *)
Definition hex_val (c : N) : Z :=
  if digit c then Z.of_N c - 48 else if (c <=? 70)%N then Z.of_N c - 55 else Z.of_N c - 87.
Definition read_int (l : text) : option Z :=
  let (s, r) := take_sign l in
  let sg z := if (s : bool) then - z else z in
  match r with
  | [] => None
  | c :: r' =>
      if (c =? 48)%N then
        match r' with
        | x :: h =>
            if (x =? 120)%N || (x =? 88)%N
            then if nonempty h && forallb hexdigit h
                 then Some (sg (fold_left (fun a c => a * 16 + hex_val c) h 0)) else None
            else if forallb (fun c => (c =? 48)%N) r' then Some 0 else None
        | [] => Some 0
        end
      else if forallb digit r then Some (sg (digits_val r)) else None
  end.
