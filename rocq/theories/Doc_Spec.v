(** VRML97 documents made of nodes, field values, DEF/USE, ROUTEs, PROTOs and
    IS, Scripts and EXTERNPROTOs, with the text between the tokens kept as part
    of the document, and what such a document means once that text is
    forgotten.  Documents with nested vectors, and PROTOs or ROUTEs between the
    attributes of a node are not covered here. *)
From Verif Require Import Base Text Lex_Spec.
Local Open Scope list_scope.

(** [w] is always separator text *)
Inductive item :=
| INum (n : text) | IBool (b : bool) | INull
| IStr (b : text)                         (** the text between the quotes *)
| IUse (w nm : text)                      (** USE w nm *)
| INode (n : node)
with node :=
| Nd (d : option (text * text * text))    (** DEF w nm w' *)
     (gi w1 w2 : text) (l : attrs)        (** gi w1 { w2 l } *)
| Sc (d : option (text * text * text))
     (w1 w2 : text) (l : selems)          (** Script w1 { w2 l } *)
with attrs :=
| ANil | ACons (nm w : text) (f : fieldv) (l : attrs)
| AIs (nm w w1 pn w2 : text) (l : attrs)  (** nm w IS w1 pn w2 *)
with fieldv :=
| FBr (w : text) (l : items) (w' : text)  (** [ w l ] w' *)
| FPl (l : items)
with items :=
| SNil | SCons (i : item) (w : text) (l : items)
(** between the braces of a Script *)
with selems :=
| ENil
| EField (ex : bool) (w ty w1 nm w2 : text) (f : fieldv) (l : selems)            (** field w ty w1 nm w2 f *)
| EFieldIs (ex : bool) (w ty w1 nm w2 w3 pn w4 : text) (l : selems)              (** field w ty w1 nm w2 IS w3 pn w4 *)
| EEvent (out : bool) (w ty w1 nm w2 : text) (l : selems)                        (** eventIn w ty w1 nm w2 *)
| EEventIs (out : bool) (w ty w1 nm w2 w3 pn w4 : text) (l : selems)
| EAttr (nm w : text) (f : fieldv) (l : selems)
| EAttrIs (nm w w1 pn w2 : text) (l : selems).

(** what a PROTO declares *)
Inductive decl :=
| DField (ex : bool) (w ty w1 nm w2 : text) (f : fieldv)   (** field w ty w1 nm w2 f *)
| DEvent (out : bool) (w ty w1 nm w2 : text).              (** eventIn w ty w1 nm w2 *)
(** what an EXTERNPROTO declares: fields without values *)
Inductive xdecl :=
| XField (ex : bool) (w ty w1 nm w2 : text)
| XEvent (out : bool) (w ty w1 nm w2 : text).
(** the URLs: "b", or [ w "b" w ... ] *)
Inductive xurl := UOne (b : text) | UList (w : text) (l : list (text * text)).

Inductive root :=
| RNode (n : node)
| RUse (w nm : text)
| RRoute (w1 a af w2 w3 b bf : text)      (** ROUTE w1 a.af w2 TO w3 b.bf *)
| RProto (w1 gi w2 w3 : text) (ds : list decl) (w4 w5 : text) (l : roots)
                                          (** PROTO w1 gi w2 [ w3 ds ] w4 { w5 l } *)
| RExtern (w1 gi w2 w3 : text) (ds : list xdecl) (w4 : text) (u : xurl)
                                          (** EXTERNPROTO w1 gi w2 [ w3 ds ] w4 u *)
with roots := RNil | RCons (r : root) (w : text) (l : roots).
(** first line, separators, contents *)
Inductive doc := Doc (h w : text) (l : roots).

(** *** the text of a document *)
Definition show_def (d : option (text * text * text)) : text :=
  match d with None => [] | Some (w, nm, w') => lit "DEF" ++ w ++ nm ++ w' end.
Definition exposure (ex : bool) : text := lit (if ex then "exposedField" else "field").
Definition direction (out : bool) : text := lit (if out then "eventOut" else "eventIn").
Fixpoint show_item (i : item) : text :=
  match i with
  | INum n => n
  | IBool true => lit "TRUE"
  | IBool false => lit "FALSE"
  | INull => lit "NULL"
  | IStr b => 34%N :: b ++ [34%N]
  | IUse w nm => lit "USE" ++ w ++ nm
  | INode n => show_node n
  end
with show_node (n : node) : text :=
  match n with
  | Nd d gi w1 w2 l => show_def d ++ gi ++ w1 ++ lit "{" ++ w2 ++ show_attrs l ++ lit "}"
  | Sc d w1 w2 l => show_def d ++ lit "Script" ++ w1 ++ lit "{" ++ w2 ++ show_selems l ++ lit "}"
  end
with show_attrs (l : attrs) : text :=
  match l with
  | ANil => []
  | ACons nm w f r => nm ++ w ++ show_field f ++ show_attrs r
  | AIs nm w w1 pn w2 r => nm ++ w ++ lit "IS" ++ w1 ++ pn ++ w2 ++ show_attrs r
  end
with show_field (f : fieldv) : text :=
  match f with
  | FBr w l w' => lit "[" ++ w ++ show_items l ++ lit "]" ++ w'
  | FPl l => show_items l
  end
with show_items (l : items) : text :=
  match l with
  | SNil => []
  | SCons i w r => show_item i ++ w ++ show_items r
  end
with show_selems (l : selems) : text :=
  match l with
  | ENil => []
  | EField ex w ty w1 nm w2 f r => exposure ex ++ w ++ ty ++ w1 ++ nm ++ w2 ++ show_field f ++ show_selems r
  | EFieldIs ex w ty w1 nm w2 w3 pn w4 r =>
      exposure ex ++ w ++ ty ++ w1 ++ nm ++ w2 ++ lit "IS" ++ w3 ++ pn ++ w4 ++ show_selems r
  | EEvent out w ty w1 nm w2 r => direction out ++ w ++ ty ++ w1 ++ nm ++ w2 ++ show_selems r
  | EEventIs out w ty w1 nm w2 w3 pn w4 r =>
      direction out ++ w ++ ty ++ w1 ++ nm ++ w2 ++ lit "IS" ++ w3 ++ pn ++ w4 ++ show_selems r
  | EAttr nm w f r => nm ++ w ++ show_field f ++ show_selems r
  | EAttrIs nm w w1 pn w2 r => nm ++ w ++ lit "IS" ++ w1 ++ pn ++ w2 ++ show_selems r
  end.
Definition show_decl (d : decl) : text :=
  match d with
  | DField ex w ty w1 nm w2 f => exposure ex ++ w ++ ty ++ w1 ++ nm ++ w2 ++ show_field f
  | DEvent out w ty w1 nm w2 => direction out ++ w ++ ty ++ w1 ++ nm ++ w2
  end.
Definition show_decls (l : list decl) : text := List.concat (map show_decl l).
Definition show_xdecl (d : xdecl) : text :=
  match d with
  | XField ex w ty w1 nm w2 => exposure ex ++ w ++ ty ++ w1 ++ nm ++ w2
  | XEvent out w ty w1 nm w2 => direction out ++ w ++ ty ++ w1 ++ nm ++ w2
  end.
Definition show_xdecls (l : list xdecl) : text := List.concat (map show_xdecl l).
Definition show_str (b : text) : text := 34%N :: b ++ [34%N].
Definition show_url (u : xurl) : text :=
  match u with
  | UOne b => show_str b
  | UList w l => lit "[" ++ w ++ List.concat (map (fun x => show_str (fst x) ++ snd x) l) ++ lit "]"
  end.
Fixpoint show_root (r : root) : text :=
  match r with
  | RNode n => show_node n
  | RUse w nm => lit "USE" ++ w ++ nm
  | RRoute w1 a af w2 w3 b bf =>
      lit "ROUTE" ++ w1 ++ a ++ lit "." ++ af ++ w2 ++ lit "TO" ++ w3 ++ b ++ lit "." ++ bf
  | RProto w1 gi w2 w3 ds w4 w5 l =>
      lit "PROTO" ++ w1 ++ gi ++ w2 ++ lit "[" ++ w3 ++ show_decls ds ++ lit "]" ++ w4 ++
      lit "{" ++ w5 ++ show_roots l ++ lit "}"
  | RExtern w1 gi w2 w3 ds w4 u =>
      lit "EXTERNPROTO" ++ w1 ++ gi ++ w2 ++ lit "[" ++ w3 ++ show_xdecls ds ++ lit "]" ++ w4 ++ show_url u
  end
with show_roots (l : roots) : text :=
  match l with
  | RNil => []
  | RCons r w l' => show_root r ++ w ++ show_roots l'
  end.
Definition show_doc (d : doc) : text := let (h, w, l) := d in h ++ w ++ show_roots l.

(** *** names that cannot be taken for something else *)
Definition keywords : list text :=
  map lit ["PROTO"; "EXTERNPROTO"; "ROUTE"; "USE"; "Script"; "DEF"; "IS"; "TRUE"; "FALSE"; "NULL"]%string.
(** signs followed by a digit *)
Definition like_number (nm : text) : bool :=
  match unsigned nm with [] => false | c :: _ => digit c end.
Definition safe_name (nm : text) : bool :=
  is_name nm && forallb (fun p => negb (starts_with p nm)) keywords && negb (like_number nm).

(** what a Script declares starts with one of these *)
Definition decl_like (nm : text) : bool :=
  existsb (fun p => starts_with p nm) (map lit ["field"; "exposedField"; "eventIn"; "eventOut"]%string).
(** names of field types start with SF or MF *)
Definition ok_type (ty : text) : Prop :=
  (exists b, ty = lit "SF" ++ b /\ is_name b = true) \/ (exists b, ty = lit "MF" ++ b /\ is_name b = true).
Definition ok_decl_head (w ty w1 nm w2 : text) : Prop :=
  sep_text w /\ w <> [] /\ ok_type ty /\ sep_text w1 /\ w1 <> [] /\ is_name nm = true /\ sep_text w2.

(** *** well-formed documents; [k] is the text that follows.  Separators may
    be empty as long as the tokens on both sides stay apart. *)
Fixpoint ok_item (i : item) (k : text) : Prop :=
  match i with
  | INum n => is_number n /\ stop k = true
  | IBool _ | INull => True
  | IStr b => exists s, string_body b s
  | IUse w nm => sep_text w /\ is_name nm = true /\ ends_name k = true
  | INode n => ok_node n
  end
with ok_node (n : node) : Prop :=
  match n with
  | Nd d gi w1 w2 l =>
      match d with
      | None => safe_name gi = true
      | Some (w, nm, w') =>
          sep_text w /\ is_name nm = true /\ sep_text w' /\ w' <> [] /\
          is_name gi = true /\ starts_with (lit "Script") gi = false
      end /\ sep_text w1 /\ sep_text w2 /\ ok_attrs l (lit "}")
  | Sc d w1 w2 l =>
      match d with
      | None => True
      | Some (w, nm, w') => sep_text w /\ is_name nm = true /\ sep_text w' /\ w' <> []
      end /\ sep_text w1 /\ sep_text w2 /\ ok_selems l (lit "}")
  end
with ok_attrs (l : attrs) (k : text) : Prop :=
  match l with
  | ANil => True
  | ACons nm w f r =>
      safe_name nm = true /\ sep_text w /\ stop (w ++ show_field f ++ show_attrs r ++ k) = true /\
      ok_field f (show_attrs r ++ k) /\ ok_attrs r k
  | AIs nm w w1 pn w2 r =>
      safe_name nm = true /\ sep_text w /\ w <> [] /\ sep_text w1 /\ is_name pn = true /\ sep_text w2 /\
      ends_name (w2 ++ show_attrs r ++ k) = true /\ ok_attrs r k
  end
with ok_field (f : fieldv) (k : text) : Prop :=
  match f with
  | FBr w l w' => sep_text w /\ sep_text w' /\ ok_items true l (lit "]")
  | FPl l => l <> SNil /\ ok_items false l k
  end
(** NULL does not occur between brackets *)
with ok_items (br : bool) (l : items) (k : text) : Prop :=
  match l with
  | SNil => True
  | SCons i w r =>
      (br = true -> i <> INull) /\
      ok_item i (w ++ show_items r ++ k) /\ sep_text w /\ ok_items br r k
  end
with ok_selems (l : selems) (k : text) : Prop :=
  match l with
  | ENil => True
  | EField ex w ty w1 nm w2 f r =>
      ok_decl_head w ty w1 nm w2 /\ ends_name (w2 ++ show_field f ++ show_selems r ++ k) = true /\
      ok_field f (show_selems r ++ k) /\ ok_selems r k
  | EFieldIs ex w ty w1 nm w2 w3 pn w4 r | EEventIs ex w ty w1 nm w2 w3 pn w4 r =>
      ok_decl_head w ty w1 nm w2 /\ w2 <> [] /\ sep_text w3 /\ is_name pn = true /\ sep_text w4 /\
      ends_name (w4 ++ show_selems r ++ k) = true /\ ok_selems r k
  | EEvent out w ty w1 nm w2 r =>
      ok_decl_head w ty w1 nm w2 /\ ends_name (w2 ++ show_selems r ++ k) = true /\ ok_selems r k
  | EAttr nm w f r =>
      safe_name nm = true /\ decl_like nm = false /\ sep_text w /\ stop (w ++ show_field f ++ show_selems r ++ k) = true /\
      ok_field f (show_selems r ++ k) /\ ok_selems r k
  | EAttrIs nm w w1 pn w2 r =>
      safe_name nm = true /\ decl_like nm = false /\ sep_text w /\ w <> [] /\ sep_text w1 /\ is_name pn = true /\ sep_text w2 /\
      ends_name (w2 ++ show_selems r ++ k) = true /\ ok_selems r k
  end.
Fixpoint ok_decls (l : list decl) (k : text) : Prop :=
  match l with
  | [] => True
  | DField ex w ty w1 nm w2 f :: r =>
      ok_decl_head w ty w1 nm w2 /\ ends_name (w2 ++ show_field f ++ show_decls r ++ k) = true /\
      ok_field f (show_decls r ++ k) /\ ok_decls r k
  | DEvent out w ty w1 nm w2 :: r =>
      ok_decl_head w ty w1 nm w2 /\ ends_name (w2 ++ show_decls r ++ k) = true /\ ok_decls r k
  end.
Fixpoint ok_xdecls (l : list xdecl) (k : text) : Prop :=
  match l with
  | [] => True
  | (XField _ w ty w1 nm w2 | XEvent _ w ty w1 nm w2) :: r =>
      ok_decl_head w ty w1 nm w2 /\ ends_name (w2 ++ show_xdecls r ++ k) = true /\ ok_xdecls r k
  end.
Definition ok_url (u : xurl) : Prop :=
  match u with
  | UOne b => exists s, string_body b s
  | UList w l => sep_text w /\ Forall (fun x => (exists s, string_body (fst x) s) /\ sep_text (snd x)) l
  end.
Fixpoint ok_root (r : root) (k : text) : Prop :=
  match r with
  | RNode n => ok_node n
  | RUse w nm => sep_text w /\ is_name nm = true /\ ends_name k = true
  | RRoute w1 a af w2 w3 b bf =>
      Forall (fun n => is_name n = true) [a; af; b; bf] /\ Forall sep_text [w1; w2; w3] /\
      w2 <> [] /\ ends_name k = true
  | RProto w1 gi w2 w3 ds w4 w5 l =>
      is_name gi = true /\ Forall sep_text [w1; w2; w3; w4; w5] /\ ok_decls ds (lit "]") /\ ok_roots l (lit "}")
  | RExtern w1 gi w2 w3 ds w4 u =>
      is_name gi = true /\ Forall sep_text [w1; w2; w3; w4] /\ ok_xdecls ds (lit "]") /\ ok_url u
  end
with ok_roots (l : roots) (k : text) : Prop :=
  match l with
  | RNil => True
  | RCons r w l' => ok_root r (w ++ show_roots l' ++ k) /\ sep_text w /\ ok_roots l' k
  end.
(** the first line ends where the separators start; a document without
    contents is its first line alone *)
Definition ok_doc (d : doc) : Prop :=
  let (h, w, l) := d in
  ~ In 10%N h /\ sep_text w /\ ok_roots l [] /\
  match l with RNil => w = [] | _ => exists w', w = 10%N :: w' end.

(** *** the document without its layout *)
Inductive sitem := SNum (n : text) | SBool (b : bool) | SNull | SStr (b : text) | SUse (nm : text)
| SNode (d : option text) (gi : text) (l : list (text * sval))
| SScript (d : option text) (l : list ssel)
(** the value of an attribute: entries, or IS *)
with sval := SVal (l : list sitem) | SIs (pn : text)
(** declarations and attributes of a Script *)
with ssel := SSField (ex : bool) (ty nm : text) (v : sval)
| SSEvent (out : bool) (ty nm : text) (pn : option text)
| SSAttr (nm : text) (v : sval).
Inductive sxdecl := SXField (ex : bool) (ty nm : text) | SXEvent (out : bool) (ty nm : text).
Inductive sdecl := SDField (ex : bool) (ty nm : text) (l : list sitem) | SDEvent (out : bool) (ty nm : text).
Inductive sroot := SRItem (i : sitem) | SRRoute (a af b bf : text)
| SRProto (gi : text) (ds : list sdecl) (l : list sroot)
| SRExtern (gi : text) (ds : list sxdecl) (url : list text).
Fixpoint sk_item (i : item) : sitem :=
  match i with
  | INum n => SNum n | IBool b => SBool b | INull => SNull | IStr b => SStr b
  | IUse _ nm => SUse nm | INode n => sk_node n
  end
with sk_node (n : node) : sitem :=
  match n with
  | Nd d gi _ _ l =>
      SNode (match d with None => None | Some (_, nm, _) => Some nm end) gi (sk_attrs l)
  | Sc d _ _ l => SScript (match d with None => None | Some (_, nm, _) => Some nm end) (sk_selems l)
  end
with sk_attrs (l : attrs) : list (text * sval) :=
  match l with
  | ANil => []
  | ACons nm _ f r => (nm, SVal (sk_field f)) :: sk_attrs r
  | AIs nm _ _ pn _ r => (nm, SIs pn) :: sk_attrs r
  end
with sk_field (f : fieldv) : list sitem :=
  match f with FBr _ l _ | FPl l => sk_items l end
with sk_items (l : items) : list sitem :=
  match l with SNil => [] | SCons i _ r => sk_item i :: sk_items r end
with sk_selems (l : selems) : list ssel :=
  match l with
  | ENil => []
  | EField ex _ ty _ nm _ f r => SSField ex ty nm (SVal (sk_field f)) :: sk_selems r
  | EFieldIs ex _ ty _ nm _ _ pn _ r => SSField ex ty nm (SIs pn) :: sk_selems r
  | EEvent out _ ty _ nm _ r => SSEvent out ty nm None :: sk_selems r
  | EEventIs out _ ty _ nm _ _ pn _ r => SSEvent out ty nm (Some pn) :: sk_selems r
  | EAttr nm _ f r => SSAttr nm (SVal (sk_field f)) :: sk_selems r
  | EAttrIs nm _ _ pn _ r => SSAttr nm (SIs pn) :: sk_selems r
  end.
Definition sk_decl (d : decl) : sdecl :=
  match d with
  | DField ex _ ty _ nm _ f => SDField ex ty nm (sk_field f)
  | DEvent out _ ty _ nm _ => SDEvent out ty nm
  end.
Definition sk_xdecl (d : xdecl) : sxdecl :=
  match d with XField ex _ ty _ nm _ => SXField ex ty nm | XEvent out _ ty _ nm _ => SXEvent out ty nm end.
Definition sk_url (u : xurl) : list text := match u with UOne b => [b] | UList _ l => map fst l end.
Fixpoint sk_root (r : root) : sroot :=
  match r with
  | RNode n => SRItem (sk_node n)
  | RUse _ nm => SRItem (SUse nm)
  | RRoute _ a af _ _ b bf => SRRoute a af b bf
  | RProto _ gi _ _ ds _ _ l => SRProto gi (map sk_decl ds) (sk_roots l)
  | RExtern _ gi _ _ ds _ u => SRExtern gi (map sk_xdecl ds) (sk_url u)
  end
with sk_roots (l : roots) : list sroot :=
  match l with RNil => [] | RCons r _ l' => sk_root r :: sk_roots l' end.
Definition sk_doc (d : doc) : list sroot := let (_, _, l) := d in sk_roots l.
