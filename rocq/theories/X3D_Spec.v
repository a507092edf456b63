(** X3D files, independently of the grammar. *)
From Verif Require Import Base Text Lex_Spec Grammar_Model.
Local Open Scope list_scope.

(** the words of X3D for the kinds of fields and events of an interface *)
Definition x3d_words : list text := [lit "inputOutput"; lit "initializeOnly"; lit "inputOnly"; lit "outputOnly"].
(** none of them is anywhere in the text *)
Definition no_words (s : text) : Prop := forall w a b, In w x3d_words -> s <> a ++ w ++ b.
(** the text begins with w *)
Definition begins (w s : text) : Prop := exists r, s = w ++ r.

(** the ends of a line, and what may follow: after a lone CR there is no LF *)
Inductive line_end : text -> text -> Prop :=
| le_lf k : line_end [10%N] k
| le_crlf k : line_end [13%N; 10%N] k
| le_cr k : ~ begins [10%N] k -> line_end [13%N] k.
(** a header: a line "#X3D V...", then a line with the profile; k follows *)
Inductive x3d_header : text -> text -> Prop :=
| xh (v profile e1 e2 k : text) :
    (forall c, In c v -> c <> 10%N /\ c <> 13%N) -> is_name profile = true ->
    line_end e1 (lit "PROFILE " ++ profile ++ e2 ++ k) -> line_end e2 k ->
    x3d_header (lit "#X3D V" ++ v ++ e1 ++ lit "PROFILE " ++ profile ++ e2) k.
(** a META statement: a key and a value, as the text between their quotes *)
Definition meta_text (key value : text) : text :=
  lit "META " ++ 34%N :: key ++ 34%N :: lit " " ++ 34%N :: value ++ [34%N].
(** the tree has a vector: a list of numbers directly in the list of a field *)
Fixpoint has_vector (t : tree) : bool :=
  match t with
  | T n _ l => match n with G_vector => true | _ => false end || existsb has_vector l
  end.
(** what precedes the body of a file: a header, and one META statement if there is one *)
Inductive x3d_start : text -> text -> Prop :=
| xs_plain h k : x3d_header h k -> ~ begins (lit "COMPONENT") k -> ~ begins (lit "META") k -> x3d_start h k
| xs_meta h key value s1 s2 k : x3d_header h (meta_text key value ++ k) -> string_body key s1 -> string_body value s2 ->
    ~ begins (lit "META") k -> x3d_start (h ++ meta_text key value) k.

(** the kinds of fields and events of X3D *)
Inductive access := InputOutput | InitializeOnly | InputOnly | OutputOnly.
Definition x3d_word (a : access) : text :=
  lit match a with InputOutput => "inputOutput" | InitializeOnly => "initializeOnly"
             | InputOnly => "inputOnly" | OutputOnly => "outputOnly" end.
(** an EXTERNPROTO; every declaration has a word, a type and a name *)
Definition extern_text (word : access -> text) (gi : text) (ds : list (access * text * text)) (url : text) : text :=
  lit "EXTERNPROTO " ++ gi ++ lit " [ " ++
  List.concat (map (fun d => word (fst (fst d)) ++ lit " " ++ snd (fst d) ++ lit " " ++ snd d ++ lit " ") ds) ++
  lit "] " ++ 34%N :: url ++ [34%N].
