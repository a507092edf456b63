(** vrml/vrml97/linearise.py: writing a scene as VRML97 text.

    Not modelled: prototypes (the scenes have none, so nothing but the header
    goes to the protobuffer), scenegraphs inside scenegraphs; Scripts that
    declare url, directOutput or mustEvaluate again as a field of nodes; an
    exception inside the writing of a value ends the model's run, while
    _sffield catches AttributeErrors (503-519) and writes the value once more. *)
From Verif Require Import Base Text PyDict Float Coerce_Model SceneGraph_Model VrmlStr_Model Scene_Model.
Local Open Scope nat_scope.
Local Open Scope list_scope.

(** the settings (linearise.py 14-37) *)
Record settings := mkset {
  l_lv : linvalues;                (** numsep, subelspacer, indent *)
  l_fes : text;                    (** full_element_separator *)
  l_courtesy : text;               (** courtesyspace *)
  l_end : option nat               (** EndComments *)
}.
Definition set_defaults : settings := mkset lv_defaults [10%N] (lit " ") (Some 10).
Definition set_minimal1 : settings := mkset lv_minimal1 [10%N] [] None.

(** self.buffer (its contents; tell() is the length), self.alreadydone (start,
    and stop when done) and self.indentationlevel *)
Record lst := mklst { l_buf : text; l_done : list (nat * (nat * option nat)); l_level : nat }.
(** LFuel: not finished within the given depth; LExc: an exception *)
Inductive lres := LOk (s : lst) | LFuel | LExc.
Definition lbind (r : lres) (f : lst -> lres) : lres :=
  match r with LOk s => f s | LFuel => LFuel | LExc => LExc end.

Definition times (n : nat) (t : text) : text := List.concat (repeat t n).
Definition tell (s : lst) : nat := List.length (l_buf s).
Definition emit (t : text) (s : lst) : lst := mklst (l_buf s ++ t) (l_done s) (l_level s).
(** 522-531 _indent, _dedent *)
Definition more (s : lst) : lst := mklst (l_buf s) (l_done s) (S (l_level s)).
Definition less (s : lst) : lst := mklst (l_buf s) (l_done s) (pred (l_level s)).
Definition mark (n : nat) (x : nat * option nat) (s : lst) : lst :=
  mklst (l_buf s) (dset Nat.eqb (l_done s) n x) (l_level s).

(** < on strings *)
Fixpoint text_lt (a b : text) : bool :=
  match a, b with
  | [], _ :: _ => true
  | x :: r, y :: r' => (x <? y)%N || ((x =? y)%N && text_lt r r')
  | _, [] => false
  end.
Definition field_lt (f g : fdecl) : bool :=
  let a := class_name (f_kind f) in
  let b := class_name (f_kind g) in
  text_lt a b || (text_eqb a b && text_lt (f_name f) (f_name g)).
(** items.sort() *)
Fixpoint insert (f : fdecl) (l : list fdecl) : list fdecl :=
  match l with
  | [] => [f]
  | g :: r => if field_lt g f then g :: insert f r else f :: l
  end.
Definition sort (l : list fdecl) : list fdecl := fold_right insert [] l.
(** sorted( ..., key=namekey ), 38-39, 402, 411-418 *)
Fixpoint insert_by {A} (x : text * A) (l : list (text * A)) : list (text * A) :=
  match l with
  | [] => [x]
  | y :: r => if text_lt (fst y) (fst x) then y :: insert_by x r else x :: l
  end.
Definition sort_by {A} (l : list (text * A)) : list (text * A) := fold_right insert_by [] l.

(** protofunctions.py 149-175 getFields of a Script's class: its events; its
    fields except those that are written as attributes (331-335) *)
Definition script_attrs : list text := map lit ["url"; "directOutput"; "mustEvaluate"]%string.
Definition script_events (mem : list (text * smember)) : list (text * (bool * text)) :=
  flat_map (fun x => match snd x with SMEvent o ty => [(fst x, (o, ty))] | SMField _ _ _ => [] end) mem.
Definition script_decls (mem : list (text * smember)) : list (text * (bool * kind * list nref)) :=
  filter (fun x => negb (existsb (text_eqb (fst x)) script_attrs))
    (flat_map (fun x => match snd x with SMField ex k l => [(fst x, (ex, k, l))] | SMEvent _ _ => [] end) mem ++
     (if existsb (fun x => text_eqb (fst x) (lit "externalURL")) mem then [] else [(lit "externalURL", (true, f_kind url_field, []))])).

Section Lin.
Variable P : prims.
Variable fstr : tcode -> fl -> text.
Variable protos : list (text * list fdecl).
Variable st : settings.
Variable S : scene.
(** 350-362: the IS maps of the PROTO whose body is written, by node and field;
    none outside of a PROTO *)
Variable ism : nat -> text -> option text.

(** linvalues['curindent'] at a level; what the vrmlstr methods see *)
Definition cur (s : lst) : text := times (l_level s) (indent (l_lv st)).
Definition lv_at (s : lst) : linvalues :=
  mklv (numsep (l_lv st)) (subelspacer (l_lv st)) (cur s) (indent (l_lv st)).
(** full_element_separator, curindent, indent *)
Definition lead (s : lst) : text := l_fes st ++ cur s ++ indent (l_lv st).

(** 533-556 _canUse: the text to write instead, or the start *)
Definition can_use (n : nat) (s : lst) : text + lst :=
  match dget Nat.eqb (l_done s) n with
  | Some x =>
      match node_def S n with
      | [] => match x with
              | (start, Some stop) =>
                  inl (lit "#WARNING HERE -- USE of node with no DEF name, Node duplicated" ++ [10%N] ++
                       firstn (stop - start) (skipn start (l_buf s)))
              | (_, None) => inl (lit "#ERROR HERE -- USE of a parent node that has no DEF name USE ignored")
              end
      | d => inl (lit "USE " ++ d)
      end
  | None => inr (mark n (tell s, None) s)
  end.

Section Rec.
(** _linear of a node of less depth *)
Variable rec : nref -> lst -> lres.

Fixpoint each {A} (f : A -> lst -> lres) (l : list A) (s : lst) : lres :=
  match l with
  | [] => LOk s
  | x :: r => lbind (f x s) (each f r)
  end.
(** 576-607 _mfnode *)
Definition mfnode (l : list nref) (s : lst) : lres :=
  match l with
  | [] => LOk (emit (lit " [" ++ l_courtesy st ++ lit "]") s)
  | _ =>
      let s1 := emit (lit "[ ") (more s) in
      lbind (each (fun el s => rec el (emit (lead s) s)) l s1) (fun s2 =>
      LOk (less (emit (l_fes st ++ cur s2 ++ lit "]") s2)))
  end.
(** 486-519 _sffield.  A value that is a list is taken for a list of nodes; a
    list of strings then fails in its first element, after the bracket has been
    written and the indentation increased, and is written by vrmlstr behind
    that.  Other values fail in protoName, before anything is written. *)
Definition sffield (f : fdecl) (v : val) (s : lst) : lres :=
  match f_kind f, v with
  | KVal t _, VPv (PSeq KList []) => mfnode [] s
  | KVal t _, VPv (PSeq KList (x :: l)) =>
      let s1 := emit (lit "[ ") (more s) in
      let s2 := emit (lead s1) s1 in
      match vrmlstr fstr (lv_at s2) t (PSeq KList (x :: l)) with
      | Some tx => LOk (emit tx s2)
      | None => LExc
      end
  | KVal t _, VPv v =>
      match vrmlstr fstr (lv_at s) t v with
      | Some tx => LOk (emit tx s)
      | None => LExc
      end
  | KNode, VRef r => rec r s
  | KNodes _, VRefs l => mfnode l s
  | _, _ => LExc
  end.
(** 346-392 _attrDict, one field *)
Definition attr (n : nat) (f : fdecl) (s : lst) : lres :=
  match fget P S n f with
  | Exc _ => LExc
  | Ok v =>
      match ism n (f_name f) with
      | Some pn => LOk (emit (lead s ++ f_name f ++ lit " IS " ++ pn ++ [9%N]) s)
      | None =>
          match dropped f v with
          | Exc _ => LExc
          | Ok true => LOk s
          | Ok false => sffield f v (emit (lead s ++ f_name f ++ [9%N]) s)
          end
      end
  end.
(** 558-563 _defName *)
Definition def_text (n : nat) : text :=
  match node_def S n with [] => [] | d => lit "DEF " ++ d ++ lit " " end.
(** 261-305 _Node *)
Definition node_body (n : nat) (gi : text) (fs : list fdecl) (s : lst) : lres :=
  match can_use n s with
  | inl t => LOk (emit t s)
  | inr s1 =>
      let startind := tell s in
      let s2 := emit (def_text n ++ gi ++ lit " {") s1 in
      let position := tell s2 in
      lbind (each (attr n) (sort fs) (more s2)) (fun s3 =>
      let s4 :=
        if tell s3 =? position then emit (l_courtesy st ++ lit "}") s3
        else
          let plain := l_fes st ++ cur s3 ++ lit "}" in
          match l_end st with
          | Some c => if c * 60 <? tell s3 - startind
                      then emit (plain ++ lit " #EndNode " ++
                                 (match node_def S n with [] => gi | d => d end)) s3
                      else emit plain s3
          | None => emit plain s3
          end in
      let s5 := less s4 in
      LOk (mark n (startind, Some (tell s5)) s5))
  end.
(** 394-407 _eventDict, one event; field.py 444-461 *)
Definition script_event (x : text * (bool * text)) (s : lst) : lres :=
  LOk (emit (l_fes st ++ cur s ++ lit (if fst (snd x) then "eventOut " else "eventIn ") ++ snd (snd x) ++ lit " " ++ fst x) s).
(** 409-421 _fieldDict, one field: its default (field.py 286-314; node.py
    368-370, 529-531) *)
Definition script_default (k : kind) (l : list nref) (s : lst) : lres :=
  match k, l with
  | KVal t d, _ => match coerce P t d with
                   | Ok v => match vrmlstr fstr (lv_at s) t v with Some tx => LOk (emit tx s) | None => LExc end
                   | Exc _ => LExc
                   end
  | KNode, [r] => rec r s
  | KNode, _ => LExc
  | KNodes _, _ => mfnode l s
  end.
Definition script_field (x : text * (bool * kind * list nref)) (s : lst) : lres :=
  let '(nm, (ex, k, l)) := x in
  script_default k l (emit (l_fes st ++ cur s ++ lit (if ex then "exposedField " else "field ") ++ class_name k ++ lit " " ++ nm ++ lit " ") s).
(** 363-392 _attrDict of a Script, one field *)
Definition script_attr (n : nat) (f : fdecl) (s : lst) : lres :=
  match f_kind f with KVal _ _ => attr n f s | _ => LExc end.
(** 307-344 _Script *)
Definition script_body (n : nat) (mem : list (text * smember)) (s : lst) : lres :=
  match can_use n s with
  | inl t => LOk (emit t s)
  | inr s1 =>
      let startind := tell s in
      let s2 := more (more (emit (def_text n ++ lit " Script {") s1)) in
      lbind (each script_event (sort_by (script_events mem)) s2) (fun s3 =>
      lbind (each script_field (sort_by (script_decls mem)) s3) (fun s4 =>
      lbind (each (script_attr n) (sort (filter (fun f => existsb (text_eqb (f_name f)) script_attrs) (script_fields mem))) (less s4)) (fun s5 =>
      let s6 := less (emit (l_fes st ++ cur s5 ++ lit "}#" ++ (match def_text n with [] => script_gi | d => d end)) s5) in
      LOk (mark n (startind, Some (tell s6)) s6))))
  end.
(** 565-574 _linear: by the type of the node *)
Definition linear (r : nref) (s : lst) : lres :=
  match r with
  | RNull => LOk (emit (lit "NULL") s)
  | RNode n =>
      match s_node S n with
      | None => LExc
      | Some nd =>
          if text_eqb (n_gi nd) script_gi then script_body n (n_mem nd) s
          else if text_eqb (n_gi nd) (lit "sceneGraph") || text_eqb (n_gi nd) (lit "NULL") then LExc
          else match proto protos (n_gi nd) with
               | None => LExc
               | Some fs => node_body n (n_gi nd) fs s
               end
      end
  end.
End Rec.

Fixpoint lin (fuel : nat) (r : nref) (s : lst) : lres :=
  match fuel with
  | O => LFuel
  | Datatypes.S k => linear (lin k) r s
  end.
(** 441-460 _route *)
Definition route_text (r : nat * text * (nat * text)) : text :=
  let '((a, af), (b, bf)) := r in
  l_fes st ++ lit "ROUTE " ++ node_def S a ++ lit "." ++ af ++ lit " TO " ++ node_def S b ++ lit "." ++ bf.
(** 152-162: the children, then the routes, after what is in the buffer *)
Definition scene_body (pre : text) (fuel : nat) : lres :=
  lbind (each (fun c s => lbind (lin fuel c s) (fun s => LOk (emit (l_fes st) s))) (s_kids S)
              (mklst pre [] 0)) (fun s =>
  LOk (emit (List.concat (map route_text (s_routes S))) s)).
End Lin.

Definition no_maps : nat -> text -> option text := fun _ _ => None.

(** 84, 112: header and buffer *)
Definition header : text := lit "#VRML V2.0 utf8".
Definition finish (r : lres) : option text :=
  match r with LOk s => Some (header ++ [10%N] ++ l_buf s) | _ => None end.

(** 121-176 linearise( sceneGraph ): routed nodes get names first.
    None: an exception, or not finished within [fuel] *)
Definition gi_of (S : scene) (n : nat) : text :=
  match s_node S n with Some nd => n_gi nd | None => [] end.
Definition with_defs (S : scene) (d : dstate) : scene :=
  mkscene (s_next S) (s_node S) d (s_kids S) (s_routes S) (s_is S).
Definition named (S : scene) : option scene :=
  match preroutes (gi_of S) (s_defs S) (map (fun r => (fst (fst r), fst (snd r))) (s_routes S)) with
  | Some d => Some (with_defs S d)
  | None => None
  end.
(** no node's body is entered twice, so this depth suffices *)
Definition depth (S : scene) : nat := Datatypes.S (s_next S).
Definition lin_scene P fstr protos st (S : scene) : lres :=
  match named S with
  | Some S' => scene_body P fstr protos st S' no_maps [] (depth S)
  | None => LFuel
  end.
Definition linearise P fstr protos st (S : scene) : option text := finish (lin_scene P fstr protos st S).
(** 107-110 linearise( node ) *)
Definition linearise_node P fstr protos st (S : scene) (n : nat) : option text :=
  finish (lin P fstr protos st S no_maps (depth S) (RNode n) (mklst [] [] 0)).
