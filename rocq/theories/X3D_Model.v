(** The second grammar of the package: X3D files in the "classic VRML" encoding
    (vrml/vrml200x/parser.py).  The tag list goes to the same ParseProcessor as
    that of the VRML97 grammar (75-79), so [Build_Model.build_file] is used for
    it unchanged. *)
From Verif Require Import Base Text Grammar_Model.
Local Open Scope list_scope.

Definition CR : N := 13%N.
Definition LF : N := 10%N.
(** parser.py 18: newLine, not reported *)
Definition newline_e : expr := al (Lit [CR; LF]) [Lit [CR]; Lit [LF]].
(** 15: headerComment := -newLine+.  Simplified: one step of -newLine takes one
    character where newLine does not match, which is a character that is neither
    CR nor LF. *)
Definition comment_line : expr := Plus (Cls true [(LF, LF); (CR, CR)]).
(** 14: headerStatement *)
Definition header_statement : expr :=
  Alt (sq (tk "#X3D") [TS; NT G_SFNumber; TS; tk "utf8"; TS; Opt comment_line; newline_e])
      (sq (tk "#") [Opt comment_line; newline_e]).
(** 16-17: profileStatement *)
Definition profile_statement : expr := sq (tk "PROFILE") [TS; NT G_name; newline_e].
(** 20-22: componentStatement *)
Definition component_statement : expr :=
  sq (tk "COMPONENT") [TS; NT G_name; TS; tk ":"; TS; NT G_SFNumber].
(** 24-26: metaStatement *)
Definition meta_statement : expr := sq (tk "META") [TS; NT G_SFString; TS; NT G_SFString].

(** parser.py 13-70.  Simplified: the productions of the header are written into
    [G_header], so what they report is among the children of the header, which
    ParseProcessor.header (parseprocessor.py 60-61) does not look at.
    IMPORT, EXPORT and AS (28-31) are used by no other production. *)
Definition xrule (n : nt) : expr :=
  match n with
  | G_header => sq header_statement [profile_statement; Star component_statement; Star meta_statement]
  | G_fieldExposure => al (tk "inputOutput") [tk "initializeOnly"; tk "field"; tk "exposedField"]
  | G_eventDirection => al (tk "inputOnly") [tk "outputOnly"; tk "eventIn"; tk "eventOut"]
  | G_Field =>
      Alt (sq (tk "[") [TS;
             Star (Seq (al (NT G_SFNumber) [NT G_SFBool; NT G_SFString;
                                        sq (tk "USE") [TS; NT G_USE; TS]; NT G_Script; NT G_Node]) TS);
             Cut (tk "]"); TS])
          (Plus (Seq (al (NT G_SFNumber) [NT G_SFBool; NT G_SFNull; NT G_SFString;
                                        sq (tk "USE") [TS; NT G_USE; TS]; NT G_Script; NT G_Node]) TS))
  | _ => rule n      (* the remaining lines of the grammar are those of vrml97/parser.py *)
  end.

(** the parser [Grammar_Model.run] with these rules *)
Fixpoint xrun (fuel : nat) (e : expr) (s : text) : option pres :=
  match fuel with
  | O => None
  | S k =>
      match e with
      | Lit l => Some (match strip l s with Some r => POk l r [] | None => PFail end)
      | Cls neg rs =>
          Some (match s with
                | c :: r => if xorb neg (inr c rs) then POk [c] r [] else PFail
                | [] => PFail
                end)
      | Seq a b =>
          match xrun k a s with
          | Some (POk c1 r1 l1) =>
              match xrun k b r1 with
              | Some (POk c2 r2 l2) => Some (POk (c1 ++ c2) r2 (l1 ++ l2))
              | o => o
              end
          | o => o
          end
      | Alt a b => match xrun k a s with Some PFail => xrun k b s | o => o end
      | Star a =>
          match xrun k a s with
          | Some PFail => Some (POk [] s [])
          | Some (POk c1 r1 l1) =>
              match xrun k (Star a) r1 with
              | Some (POk c2 r2 l2) => Some (POk (c1 ++ c2) r2 (l1 ++ l2))
              | o => o
              end
          | o => o
          end
      | Opt a => match xrun k a s with Some PFail => Some (POk [] s []) | o => o end
      | Cut a => match xrun k a s with Some PFail => Some PErr | o => o end
      | NT n =>
          match xrun k (xrule n) s with
          | Some (POk c r l) => Some (POk c r (if reported n then [T n c l] else l))
          | o => o
          end
      | Eof => Some (match s with [] => POk [] [] [] | _ => PFail end)
      end
  end.
Definition xparses (e : expr) (s : text) (r : pres) : Prop := exists fuel, xrun fuel e s = Some r.
