(** vrml/vrml97/parser.py: the VRML97 grammar, as SimpleParse runs it.

    SimpleParse is not part of the repository; its semantics is modelled here:
    ordered choice without backtracking into a matched element, greedy
    repetition, and "!" turning a failure of the element (or of every later
    element of its sequence) into a ParserSyntaxError.  A text is a list of
    code points. *)
From Verif Require Import Base Text.
Local Open Scope nat_scope.
Local Open Scope list_scope.

(** the productions of the grammar (parser.py 20-61); [G_EOF] is SimpleParse's *)
Inductive nt :=
| G_header | G_vrmlFile | G_rootItem | G_vrmlScene | G_Proto | G_fieldDecl | G_fieldExposure
| G_dataType | G_eventDecl | G_eventDirection | G_ExternProto | G_extFieldDecl | G_ExtProtoURL
| G_ROUTE | G_Node | G_Script | G_ScriptEventDecl | G_ScriptFieldDecl | G_SFNull | G_USE | G_IS
| G_nodegi | G_Attr | G_Field | G_vector | G_name | G_SFNumber | G_SFBool | G_SFString
| G_CHARNODBLQUOTE | G_SIMPLEBACKSLASH | G_ESCAPEDCHAR | G_ts | G_EOF.

Inductive expr :=
| Lit (l : text)                              (** 'literal' *)
| Cls (neg : bool) (rs : list (N * N))        (** [a-b...] or -[a-b...] *)
| Seq (a b : expr)
| Alt (a b : expr)
| Star (a : expr)
| Opt (a : expr)
| Cut (a : expr)                              (** element after "!" *)
| NT (n : nt)
| Eof.
Definition Plus (a : expr) : expr := Seq a (Star a).
(** x1, x2, ..., xn *)
Fixpoint sq (e : expr) (l : list expr) : expr :=
  match l with [] => e | x :: r => Seq e (sq x r) end.
(** x1 / x2 / ... / xn *)
Fixpoint al (e : expr) (l : list expr) : expr :=
  match l with [] => e | x :: r => Alt e (al x r) end.
(** the elements after "!" of a sequence *)
Definition cuts (l : list expr) : list expr := map Cut l.

Definition tk (s : string) : expr := Lit (lit s).
Definition chr (n : N) : expr := Lit [n].
Definition TS := NT G_ts.
Definition quote : N := 34%N.
Definition backslash : N := 92%N.

(** parser.py 53: the characters a name does not contain (brackets, braces,
    codes 0-16, both quotes, hash, comma, full stop, backslash, space) and
    those it does not start with (digits too) *)
Definition notname : list (N * N) :=
  [(93,93); (91,91); (123,123); (125,125); (0,16); (34,34); (39,39); (35,35); (44,44);
   (46,46); (92,92); (32,32)]%N.
Definition notname1 : list (N * N) := (48,57)%N :: notname.

(** parser.py 20-61 *)
Definition rule (n : nt) : expr :=
  match n with
  | G_header => Star (Cls true [(10,10)]%N)
  | G_vrmlFile => sq (NT G_header) [NT G_vrmlScene; Cut (NT G_EOF)]
  | G_rootItem => sq TS [al (NT G_Proto) [NT G_ExternProto; NT G_ROUTE;
                                      sq (tk "USE") [TS; NT G_USE; TS]; NT G_Script; NT G_Node]; TS]
  | G_vrmlScene => Star (NT G_rootItem)
  | G_Proto => sq (tk "PROTO") (TS :: cuts [NT G_nodegi; TS; tk "["; TS;
               Star (Alt (NT G_fieldDecl) (NT G_eventDecl)); tk "]"; TS; tk "{"; TS;
               NT G_vrmlScene; TS; tk "}"; TS])
  | G_fieldDecl => sq (NT G_fieldExposure) (TS :: cuts [NT G_dataType; TS; NT G_name; TS; NT G_Field; TS])
  | G_fieldExposure => Alt (tk "field") (tk "exposedField")
  | G_dataType => Seq (Opt (Alt (tk "SF") (tk "MF"))) (NT G_name)
  | G_eventDecl => sq (NT G_eventDirection) (TS :: cuts [NT G_dataType; TS; NT G_name; TS])
  | G_eventDirection => Alt (tk "eventIn") (tk "eventOut")
  | G_ExternProto => sq (tk "EXTERNPROTO") (TS :: cuts [NT G_nodegi; TS; tk "["; TS;
               Star (Alt (NT G_extFieldDecl) (NT G_eventDecl)); tk "]"; TS; NT G_ExtProtoURL])
  | G_extFieldDecl => sq (NT G_fieldExposure) (TS :: cuts [NT G_dataType; TS; NT G_name; TS])
  | G_ExtProtoURL => sq (Opt (tk "[")) [Star (Seq TS (NT G_SFString)); TS; Opt (tk "]"); TS]
  | G_ROUTE => sq (tk "ROUTE") (TS :: cuts [NT G_name; tk "."; NT G_name; TS; tk "TO"; TS;
               NT G_name; tk "."; NT G_name; TS])
  | G_Node => sq (Opt (sq (tk "DEF") (TS :: cuts [NT G_name; TS])))
               [NT G_nodegi; TS; tk "{"; TS;
                Star (al (NT G_Proto) [NT G_ExternProto; NT G_ROUTE; NT G_Attr]); TS;
                Cut (tk "}"); Cut TS]
  | G_Script => sq (Opt (sq (tk "DEF") (TS :: cuts [NT G_name; TS])))
               (tk "Script" :: TS :: cuts [tk "{"; TS;
                Star (al (NT G_ScriptFieldDecl) [NT G_ScriptEventDecl; NT G_Proto; NT G_ExternProto;
                                               NT G_ROUTE; NT G_Attr]); TS; tk "}"; TS])
  | G_ScriptEventDecl => sq (NT G_eventDirection) (TS :: cuts [NT G_dataType; TS; NT G_name; TS;
               Opt (sq (tk "IS") (TS :: cuts [NT G_IS; TS]))])
  | G_ScriptFieldDecl => sq (NT G_fieldExposure) (TS :: cuts [NT G_dataType; TS; NT G_name; TS;
               Alt (sq (tk "IS") (TS :: cuts [NT G_IS; TS])) (NT G_Field); TS])
  | G_SFNull => Seq (tk "NULL") TS
  | G_USE | G_IS | G_nodegi => NT G_name
  | G_Attr => sq (NT G_name) [TS; Alt (sq (tk "IS") [TS; NT G_IS; TS]) (NT G_Field); TS]
  | G_Field =>
      Alt (sq (tk "[") [TS;
             Star (Seq (al (NT G_vector) [NT G_SFNumber; NT G_SFBool; NT G_SFString;
                                        sq (tk "USE") [TS; NT G_USE; TS]; NT G_Script; NT G_Node]) TS);
             Cut (tk "]"); TS])
          (Plus (Seq (al (NT G_SFNumber) [NT G_SFBool; NT G_SFNull; NT G_SFString;
                                        sq (tk "USE") [TS; NT G_USE; TS]; NT G_Script; NT G_Node]) TS))
  | G_vector => sq (tk "[") [TS; Star (Seq (Alt (NT G_vector) (NT G_SFNumber)) TS); tk "]"]
  | G_name => Seq (Cls true notname1) (Star (Cls true notname))
  | G_SFNumber =>
      Seq (Star (Cls false [(45,45); (43,43)]%N))
          (Alt (sq (tk "0") [Cls false [(120,120); (88,88)]%N;
                            Plus (Cls false [(48,57); (65,70); (97,102)]%N)])
               (Seq (Plus (Cls false [(48,57); (46,46)]%N))
                    (Opt (Seq (Cls false [(101,101); (69,69)]%N)
                              (Plus (Cls false [(45,45); (43,43); (48,57); (46,46)]%N))))))
  | G_SFBool => Alt (tk "TRUE") (tk "FALSE")
  | G_SFString => sq (chr quote) [Star (al (NT G_CHARNODBLQUOTE) [NT G_ESCAPEDCHAR; NT G_SIMPLEBACKSLASH]);
                                Cut (chr quote)]
  | G_CHARNODBLQUOTE => Plus (Cls true [(backslash, backslash); (quote, quote)])
  | G_SIMPLEBACKSLASH => chr backslash
  | G_ESCAPEDCHAR => Alt (Lit [backslash; quote]) (Lit [backslash; backslash])
  | G_ts => Star (Alt (Plus (Cls false [(32,32); (9,13); (44,44)]%N))
                    (Plus (sq (tk "#") [Star (Cls true [(10,10)]%N); chr 10%N])))
  | G_EOF => Eof
  end.

(** a production written <ts> is not reported in the tag list *)
Definition reported (n : nt) : bool := match n with G_ts => false | _ => true end.

(** one entry of a SimpleParse tag list: (tag, start, stop, children), with
    the text between start and stop in place of the offsets *)
Inductive tree := T (n : nt) (span : text) (children : list tree).

(** [POk c r l]: matched c, r is left, l reported; [PErr]: ParserSyntaxError *)
Inductive pres := POk (c r : text) (l : list tree) | PFail | PErr.

Fixpoint strip (l s : text) : option text :=
  match l, s with
  | [], _ => Some s
  | a :: l', b :: s' => if N.eqb a b then strip l' s' else None
  | _, [] => None
  end.
Definition inr (c : N) (rs : list (N * N)) : bool :=
  existsb (fun p => N.leb (fst p) c && N.leb c (snd p)) rs.

(** the parser; [fuel] bounds the depth of calls, None = out of fuel.
    [Grammar_Proofs.v] shows that every text has enough. *)
Fixpoint run (fuel : nat) (e : expr) (s : text) : option pres :=
  match fuel with
  | O => None
  | S k =>
      match e with
      | Lit l => Some (match strip l s with Some r => POk l r [] | None => PFail end)
      | Cls neg rs =>
          Some (match s with
                | c :: r => if xorb neg (inr c rs) then POk [c] r [] else PFail
                | [] => PFail
                end)
      | Seq a b =>
          match run k a s with
          | Some (POk c1 r1 l1) =>
              match run k b r1 with
              | Some (POk c2 r2 l2) => Some (POk (c1 ++ c2) r2 (l1 ++ l2))
              | o => o
              end
          | o => o
          end
      | Alt a b => match run k a s with Some PFail => run k b s | o => o end
      | Star a =>
          match run k a s with
          | Some PFail => Some (POk [] s [])
          | Some (POk c1 r1 l1) =>
              match run k (Star a) r1 with
              | Some (POk c2 r2 l2) => Some (POk (c1 ++ c2) r2 (l1 ++ l2))
              | o => o
              end
          | o => o
          end
      | Opt a => match run k a s with Some PFail => Some (POk [] s []) | o => o end
      | Cut a => match run k a s with Some PFail => Some PErr | o => o end
      | NT n =>
          match run k (rule n) s with
          | Some (POk c r l) => Some (POk c r (if reported n then [T n c l] else l))
          | o => o
          end
      | Eof => Some (match s with [] => POk [] [] [] | _ => PFail end)
      end
  end.

(** the parser, started on production e and text s, gives r *)
Definition parses (e : expr) (s : text) (r : pres) : Prop := exists fuel, run fuel e s = Some r.
