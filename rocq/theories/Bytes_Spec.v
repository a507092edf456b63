(** UTF-8 as RFC 3629 defines it, by arithmetic on the code point.  For P_Bytes. *)
From Coq Require Import NArith List.
Import ListNotations.
Local Open Scope N_scope.
(** one character: the shortest form, no surrogates, nothing beyond 10FFFF *)
Inductive utf8_char : N -> list N -> Prop :=
| u1 c : c < 128 -> utf8_char c [c]
| u2 x y : x < 32 -> y < 64 -> 128 <= x * 64 + y -> utf8_char (x * 64 + y) [192 + x; 128 + y]
| u3 x y z : x < 16 -> y < 64 -> z < 64 -> 2048 <= x * 4096 + y * 64 + z ->
    ~ (55296 <= x * 4096 + y * 64 + z <= 57343) ->
    utf8_char (x * 4096 + y * 64 + z) [224 + x; 128 + y; 128 + z]
| u4 w x y z : w < 8 -> x < 64 -> y < 64 -> z < 64 ->
    65536 <= w * 262144 + x * 4096 + y * 64 + z <= 1114111 ->
    utf8_char (w * 262144 + x * 4096 + y * 64 + z) [240 + w; 128 + x; 128 + y; 128 + z].
Inductive utf8 : list N -> list N -> Prop :=
| utf8_nil : utf8 [] []
| utf8_cons c b s bs : utf8_char c b -> utf8 s bs -> utf8 (c :: s) (b ++ bs).
(** what a Python str may contain; surrogates *)
Definition is_str (s : list N) : Prop := Forall (fun c => c <= 1114111) s.
Definition surrogate (c : N) : Prop := 55296 <= c <= 57343.
Definition is_bytes (b : list N) : Prop := Forall (fun x => x < 256) b.
