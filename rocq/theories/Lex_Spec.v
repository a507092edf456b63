(** What the tokens of a VRML97 text are, independently of the grammar. *)
From Verif Require Import Base Text.
Local Open Scope N_scope.
Local Open Scope list_scope.

(** *** separators: blanks, commas, comments ended by a newline *)
Definition blank (c : N) : bool := (c =? 32) || ((9 <=? c) && (c <=? 13)) || (c =? 44).
Inductive sep_text : text -> Prop :=
| sep_nil : sep_text []
| sep_blank c w : blank c = true -> sep_text w -> sep_text (c :: w)
| sep_comment body w : ~ In 10 body -> sep_text w -> sep_text (35 :: body ++ 10 :: w).
(** no separator starts here *)
Definition no_sep (k : text) : Prop := forall w r, k = w ++ r -> sep_text w -> w = [].

(** *** names *)
Definition name_char (c : N) : bool :=
  negb ((c <=? 16) || (c =? 32) || (c =? 34) || (c =? 35) || (c =? 39) || (c =? 44) || (c =? 46)
        || (c =? 91) || (c =? 92) || (c =? 93) || (c =? 123) || (c =? 125)).
Definition digit (c : N) : bool := (48 <=? c) && (c <=? 57).
Definition is_name (n : text) : bool :=
  match n with
  | [] => false
  | c :: r => negb (digit c) && name_char c && forallb name_char r
  end.
(** what follows does not continue a name *)
Definition ends_name (k : text) : bool :=
  match k with [] => true | c :: _ => negb (name_char c) end.
(** what follows does not continue a name or a number *)
Definition stop (k : text) : bool :=
  match k with [] => true | c :: _ => negb (name_char c) && negb (c =? 46) end.

(** *** numbers *)
Definition sign (c : N) : bool := (c =? 45) || (c =? 43).
Definition hexdigit (c : N) : bool :=
  digit c || ((65 <=? c) && (c <=? 70)) || ((97 <=? c) && (c <=? 102)).
Definition digit_or_dot (c : N) : bool := digit c || (c =? 46).
Definition nonempty {A} (l : list A) : bool := match l with [] => false | _ => true end.
Inductive is_number : text -> Prop :=
| num_hex sg x h : forallb sign sg = true -> x = 120 \/ x = 88 ->
    forallb hexdigit h = true -> nonempty h = true -> is_number (sg ++ 48 :: x :: h)
| num_plain sg d : forallb sign sg = true -> forallb digit_or_dot d = true -> nonempty d = true ->
    is_number (sg ++ d)
| num_exp sg d e x : forallb sign sg = true -> forallb digit_or_dot d = true -> nonempty d = true ->
    e = 101 \/ e = 69 -> forallb (fun c => sign c || digit_or_dot c) x = true -> nonempty x = true ->
    is_number (sg ++ d ++ e :: x).

(** a text without its leading signs *)
Fixpoint unsigned (k : text) : text :=
  match k with [] => [] | c :: r => if sign c then unsigned r else k end.

(** *** what is between the quotes of a string token, and what it denotes *)
Inductive string_body : text -> text -> Prop :=
| sb_nil : string_body [] []
| sb_char c b s : c <> 92 -> c <> 34 -> string_body b s -> string_body (c :: b) (c :: s)
| sb_quote b s : string_body b s -> string_body (92 :: 34 :: b) (34 :: s)
| sb_back b s : string_body b s -> string_body (92 :: 92 :: b) (92 :: s)
| sb_lone b s : (exists c r, b = c :: r /\ c <> 92 /\ c <> 34) ->
    string_body b s -> string_body (92 :: b) (92 :: s).
