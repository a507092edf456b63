(** Shared vocabulary: Python exceptions as values. *)
From Coq Require Export List Arith ZArith Lia Bool.
Export ListNotations.

(** Exception classes that the modelled code raises or lets escape. *)
Inductive exn :=
| IndexError | ValueError | TypeError | AttributeError | NameError | KeyError
| RecursionError | ZeroDivisionError | SyntaxError_ | OtherError.

Definition exn_eqb (a b : exn) : bool :=
  match a, b with
  | IndexError, IndexError | ValueError, ValueError | TypeError, TypeError
  | AttributeError, AttributeError | NameError, NameError | KeyError, KeyError
  | RecursionError, RecursionError | ZeroDivisionError, ZeroDivisionError
  | SyntaxError_, SyntaxError_ | OtherError, OtherError => true
  | _, _ => false
  end.

(** Result of a Python call: a value or a raised exception. *)
Inductive res (A : Type) :=
| Ok (a : A)
| Exc (e : exn).
Arguments Ok {A} a.
Arguments Exc {A} e.

Definition bind {A B} (r : res A) (f : A -> res B) : res B :=
  match r with Ok a => f a | Exc e => Exc e end.

Definition is_ok {A} (r : res A) : bool :=
  match r with Ok _ => true | Exc _ => false end.
