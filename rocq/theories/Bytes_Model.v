(** Text and bytes: vrml/_bytes.py on Python 3 (the [except NameError] branch).
    A str is its list of code points, bytes the list of their values.  The
    codecs are CPython's: utf-8 with errors='strict', and latin-1. *)
From Verif Require Import Base Text Coerce_Model.
Local Open Scope N_scope.
Local Open Scope list_scope.

(** str.encode('utf-8') on one code point; None = UnicodeEncodeError, for surrogates *)
Definition encode_char (c : N) : option (list N) :=
  if c <? 128 then Some [c]
  else if c <? 2048 then Some [192 + c / 64; 128 + c mod 64]
  else if c <? 65536 then
    if (55296 <=? c) && (c <=? 57343) then None
    else Some [224 + c / 4096; 128 + (c / 64) mod 64; 128 + c mod 64]
  else Some [240 + c / 262144; 128 + (c / 4096) mod 64; 128 + (c / 64) mod 64; 128 + c mod 64].
Fixpoint encode (s : text) : option (list N) :=
  match s with
  | [] => Some []
  | c :: r => match encode_char c, encode r with Some b, Some bs => Some (b ++ bs) | _, _ => None end
  end.

(** bytes.decode('utf-8'); None = UnicodeDecodeError *)
Definition cont (b : N) : bool := (128 <=? b) && (b <=? 191).
Definition more (c : N) (r : option text) : option text := match r with Some t => Some (c :: t) | None => None end.
Fixpoint decode (l : list N) : option text :=
  match l with
  | [] => Some []
  | a :: r =>
      if a <? 128 then more a (decode r)
      else if (194 <=? a) && (a <=? 223) then
        match r with
        | b :: r => if cont b then more ((a - 192) * 64 + (b - 128)) (decode r) else None
        | _ => None
        end
      else if (224 <=? a) && (a <=? 239) then
        match r with
        | b :: c :: r =>
            if cont b && cont c && negb ((a =? 224) && (b <? 160)) && negb ((a =? 237) && (159 <? b))
            then more ((a - 224) * 4096 + (b - 128) * 64 + (c - 128)) (decode r) else None
        | _ => None
        end
      else if (240 <=? a) && (a <=? 244) then
        match r with
        | b :: c :: d :: r =>
            if cont b && cont c && cont d && negb ((a =? 240) && (b <? 144)) && negb ((a =? 244) && (143 <? b))
            then more ((a - 240) * 262144 + (b - 128) * 4096 + (c - 128) * 64 + (d - 128)) (decode r) else None
        | _ => None
        end
      else None
  end.

Section Bytes.
Variable P : prims.
(** _bytes.py 51-59 *)
Definition as_8_bit (x : pv) : res (list N) :=
  match x with
  | PStr t => of_option ValueError (encode t)
  | PBytes b => Ok b
  | _ => of_option ValueError (encode (p_str P x))
  end.
(** 60-67 *)
Definition as_str (x : pv) : res text :=
  match x with
  | PStr t => Ok t
  | PBytes b => of_option ValueError (decode b)
  | _ => Ok (p_str P x)
  end.
(** 74-84 *)
Definition as_unicode (x : pv) : res text :=
  match x with
  | PStr t => Ok t
  | PBytes b => match decode b with Some t => Ok t | None => Ok b end   (* latin-1: code points are the bytes *)
  | _ => Ok (p_str P x)
  end.
End Bytes.
