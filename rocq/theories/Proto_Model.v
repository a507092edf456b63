(** vrml/vrml97/linearise.py: writing a scene together with the PROTOs declared
    in it (field.py 262-288, 444-461).

    The PROTOs are written before the scene, those declared inside another one
    before that one, all at the top level.  Not modelled (None): a body with
    nodes of a type that is not among the PROTOs visible there (a type declared
    later is written at that point, 248); the class attribute externalURL that the
    writer leaves behind (201-203, field.py 131-132). *)
From Verif Require Import Base Text PyDict Float Coerce_Model SceneGraph_Model VrmlStr_Model Scene_Model Linearise_Model Build_Model.
Local Open Scope nat_scope.
Local Open Scope list_scope.

(** protofunctions.py 149-175 getFields: the events, and the fields with the one
    inherited from Node (node.py 51) *)
Definition owns_url (p : pdef) : bool := existsb (fun x => text_eqb (fst x) (lit "externalURL")) (p_mem p).
Definition p_events (p : pdef) : list (text * (bool * text)) :=
  flat_map (fun x => match snd x with MEvent o ty => [(fst x, (o, ty))] | MField _ _ => [] end) (p_mem p).
Definition p_fields (p : pdef) : list (text * (bool * kind)) :=
  flat_map (fun x => match snd x with MField e k => [(fst x, (e, k))] | MEvent _ _ => [] end) (p_mem p) ++
  (if owns_url p then [] else [(lit "externalURL", (true, f_kind url_field))]).

Section Protos.
Variable P : prims.
Variable fstr : tcode -> fl -> text.
Variable base : list (text * list fdecl).
Variable st : settings.

(** full_element_separator and curindent, after one _indent() *)
Definition decl_lead : text := l_fes st ++ times 1 (indent (l_lv st)).
Definition decl_lv : linvalues :=
  mklv (numsep (l_lv st)) (subelspacer (l_lv st)) (times 1 (indent (l_lv st))) (indent (l_lv st)).
(** 400-407, field.py 444-461 *)
Definition event_text (x : text * (bool * text)) : text :=
  decl_lead ++ lit (if fst (snd x) then "eventOut " else "eventIn ") ++ snd (snd x) ++ lit " " ++ fst x.
(** 409-421, field.py 262-288; node.py 368-370, 529-531 *)
Definition default_text (k : kind) : option text :=
  match k with
  | KVal t d => match coerce P t d with Ok v => vrmlstr fstr decl_lv t v | Exc _ => None end
  | KNode => Some (lit "NULL")
  | KNodes _ => Some (lit " [" ++ l_courtesy st ++ lit "]")
  end.
Definition field_text (x : text * (bool * kind)) : option text :=
  match default_text (snd (snd x)) with
  | Some t => Some (decl_lead ++ lit (if fst (snd x) then "exposedField " else "field ") ++ class_name (snd (snd x)) ++
                    lit " " ++ fst x ++ lit " " ++ t)
  | None => None
  end.
Fixpoint all_text {A} (f : A -> option text) (l : list A) : option text :=
  match l with
  | [] => Some []
  | x :: r => match f x, all_text f r with Some a, Some b => Some (a ++ b) | _, _ => None end
  end.
(** 205-217 up to the body *)
Definition proto_head (nm : text) (p : pdef) : option text :=
  match all_text field_text (sort_by (p_fields p)) with
  | Some t => Some (lit "PROTO " ++ nm ++ lit " [" ++ List.concat (map event_text (sort_by (p_events p))) ++ t ++
                    10%N :: lit "] {" ++ [10%N])
  | None => None
  end.
(** 226-231 *)
Definition proto_tail (nm : text) (len : nat) : text :=
  match l_end st with
  | Some c => if c * 60 <? len then 10%N :: lit "}#End PROTO " ++ nm ++ [10%N] else 10%N :: lit "}" ++ [10%N]
  | None => 10%N :: lit "}" ++ [10%N]
  end.
(** 215-222: an EXTERNPROTO -- its fields with their defaults, as in a PROTO --
    when it has URLs *)
Definition extern_text (nm : text) (p : pdef) (u : pv) : option text :=
  match all_text field_text (sort_by (p_fields p)),
        vrmlstr fstr (mklv (numsep (l_lv st)) (subelspacer (l_lv st)) [] (indent (l_lv st))) MFString u with
  | Some t, Some v => Some (lit "EXTERNPROTO " ++ nm ++ lit " [" ++ List.concat (map event_text (sort_by (p_events p))) ++ t ++
                            10%N :: lit "] " ++ v ++ [10%N])
  | _, _ => None
  end.
(** what a PROTO is written as, when the PROTOs [env] are visible in its body.
    A PROTO with a field of its own called externalURL has that field object as
    its URL (200-206): writing the URL of an EXTERNPROTO then fails (217-221).
    An EXTERNPROTO without URLs is taken for a PROTO, and has no body (229-231) *)
Definition proto_text (env : list (text * pdef)) (nm : text) (p : pdef) : option text :=
  if owns_url p then None
  else match p_url p with
  | Some (PSeq _ []) => None
  | Some u => extern_text nm p u
  | None => match proto_head nm p, named (p_body p) with
       | Some h, Some N =>
           match scene_body P fstr (types base env) st N (is_of (p_body p)) h (depth (p_body p)) with
           | LOk s => Some (l_buf s ++ proto_tail nm (tell s))
           | _ => None
           end
       | _, _ => None
       end end.
(** self.protoalreadydone (by name) and self.protobuffer *)
Definition pstate : Type := list text * text.
(** 178-243 _proto, with the PROTOs declared in its body (147-151) *)
Fixpoint write_proto (env : list (text * pdef)) (nm : text) (p : pdef) (s : pstate) {struct p} : option pstate :=
  let fix table (before l : list (text * pdef)) (s : pstate) {struct l} : option pstate :=
    match l with
    | [] => Some s
    | x :: r => match write_proto (before ++ env) (fst x) (snd x) s with
                | Some s' => table (before ++ [x]) r s'
                | None => None
                end
    end in
  if among nm (fst s) then Some s
  else match (match p with
              | PDef _ inner _ => table [] inner (nm :: fst s, snd s)
              | PExt _ _ => Some (nm :: fst s, snd s)
              end) with
       | Some s1 => match proto_text (p_inner p ++ env) nm p with
                    | Some t => Some (fst s1, snd s1 ++ t)
                    | None => None
                    end
       | None => None
       end.
Fixpoint write_table (before l : list (text * pdef)) (s : pstate) : option pstate :=
  match l with
  | [] => Some s
  | x :: r => match write_proto before (fst x) (snd x) s with
              | Some s' => write_table (before ++ [x]) r s'
              | None => None
              end
  end.
(** 121-176, 84-118: header, PROTOs, scene *)
Definition write_file (F : file) : option text :=
  match write_table [] (fst F) ([], header ++ [10%N]) with
  | Some s => match named (snd F) with
              | Some N => match scene_body P fstr (types base (fst F)) st N no_maps [] (depth (snd F)) with
                          | LOk b => Some (snd s ++ l_buf b)
                          | _ => None
                          end
              | None => None
              end
  | None => None
  end.
End Protos.
