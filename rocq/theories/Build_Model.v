(** vrml/vrml97/parseprocessor.py: building a scene from the tag list of a
    VRML97 text.

    Not modelled (OtherError): PROTOs between the attributes of a node or in a
    Script; Scripts that declare an event of the name of a field of all Scripts; PROTO fields whose default is a node or a list of
    nodes; the set_/_changed forms of field names (protofunctions.py 139-142)
    and attributes of the Python classes used as field names; PROTOs that take
    the name of a node type already known; EXTERNPROTOs that declare externalURL; IS maps between fields of different
    types, or leading to fields of PROTO instances or to fields with a ROUTE in
    the body, once such a field is set.

    Simplifications: putting a node into a field that already has the scene as
    its root changes nothing else (node.py 334-341, 505-511), and the scene's
    own entry in its DEF table is left out; the nodes of a PROTO's body are
    entered with DEF name '' in the body's table, not in that of the outermost
    scene; the values that fields mapped by IS have in the body are not
    tracked (node.py 206-217 sets them); copying the body for an instance
    (node.py 193-194) succeeds. *)
From Verif Require Import Base Text PyDict Float Coerce_Model SceneGraph_Model Grammar_Model VrmlStr_Model Scene_Model.
Local Open Scope nat_scope.
Local Open Scope list_scope.

(** prototype(), root( newNode, ... ): node.py 54, 401-431; the node's DEF is ''
    at that time *)
Definition new_node (gi : text) (b : scene) : scene :=
  let n := s_next b in
  mkscene (S n) (fun m => if m =? n then Some (mksn gi [] []) else s_node b m)
          (regDefName (s_defs b) (ndef (s_defs b) n) n) (s_kids b) (s_routes b) (s_is b).
(** 143-144 *)
Definition name_node (d : option text) (n : nat) (b : scene) : scene :=
  match d with
  | None => b
  | Some nm => mkscene (s_next b) (s_node b) (regDefName (s_defs b) nm n) (s_kids b) (s_routes b) (s_is b)
  end.
(** field.fset( clientNode, value, notify=0 ), field.py 118-144 *)
Definition set_field (n : nat) (nm : text) (v : val) (b : scene) : scene :=
  mkscene (s_next b)
          (fun m => if m =? n then option_map (fun nd => mksn (n_gi nd) (dset text_eqb (n_vals nd) nm v) (n_mem nd)) (s_node b m)
                    else s_node b m)
          (s_defs b) (s_kids b) (s_routes b) (s_is b).
(** 173 setattr( vProto, f.name, f ) *)
Definition set_member (n : nat) (nm : text) (m : smember) (b : scene) : scene :=
  mkscene (s_next b)
          (fun k => if k =? n then option_map (fun nd => mksn (n_gi nd) (n_vals nd) (dset text_eqb (n_mem nd) nm m)) (s_node b k)
                    else s_node b k)
          (s_defs b) (s_kids b) (s_routes b) (s_is b).
Definition add_kid (r : nref) (b : scene) : scene :=
  mkscene (s_next b) (s_node b) (s_defs b) (s_kids b ++ [r]) (s_routes b) (s_is b).
Definition add_route (r : nat * text * (nat * text)) (b : scene) : scene :=
  mkscene (s_next b) (s_node b) (s_defs b) (s_kids b) (s_routes b ++ [r]) (s_is b).

(** 335-337: set.setdefault( mapName, []).append( (clientNode, name) ) *)
Definition add_is (pn : text) (n : nat) (nm : text) (b : scene) : scene :=
  mkscene (s_next b) (s_node b) (s_defs b) (s_kids b) (s_routes b)
          (dset text_eqb (s_is b) pn (match dget text_eqb (s_is b) pn with Some l => l ++ [(n, nm)] | None => [(n, nm)] end)).
(** the node and all nodes of type [gi] *)
Definition set_all (gi : text) (n : nat) (nm : text) (v : val) (b : scene) : scene :=
  mkscene (s_next b)
          (fun m => option_map (fun nd => if (m =? n) || text_eqb (n_gi nd) gi then mksn (n_gi nd) (dset text_eqb (n_vals nd) nm v) (n_mem nd) else nd)
                               (s_node b m))
          (s_defs b) (s_kids b) (s_routes b) (s_is b).

Fixpoint find_field (fs : list fdecl) (nm : text) : option fdecl :=
  match fs with
  | [] => None
  | f :: r => if text_eqb (f_name f) nm then Some f else find_field r nm
  end.
(** getField on a Script (protofunctions.py 99-142): its own declaration comes
    before the fields of all Scripts *)
Definition script_find (mem : list (text * smember)) (nm : text) : option fdecl :=
  match dget text_eqb mem nm with
  | Some (SMField _ k _) => Some (mkfd nm k)
  | Some (SMEvent _ _) => None
  | None => find_field script_base nm
  end.
Definition node_field (tys : list (text * list fdecl)) (nd : snode) (nm : text) : option fdecl :=
  if text_eqb (n_gi nd) script_gi then script_find (n_mem nd) nm
  else match proto tys (n_gi nd) with Some fs => find_field fs nm | None => None end.
Definition among (nm : text) (l : list text) : bool := existsb (text_eqb nm) l.
(** the end of a text *)
Definition ends_with (p t : text) : bool := starts_with (List.rev p) (List.rev t).
(** attributes of the node classes that are not fields (node.py 15-230) *)
Definition reserved : list text :=
  map lit ["DEF"; "PROTO"; "scenegraph"; "rootSceneGraph"; "copy"; "toString"; "instantiate"; "renderedChildren"]%string.
(** names that getField may find although no field has that name *)
Definition odd_name (nm : text) : bool :=
  starts_with (lit "set_") nm || ends_with (lit "_changed") nm || starts_with (lit "__") nm || among nm reserved.
(** names of the base namespace that are not node types (basenamespaces.py 13-19) *)
Definition not_types : list text := map lit ["PROTO"; "sceneGraph"; "ROUTE"; "NULL"; "Script"]%string.
(** is the first entry one of USE, Script, Node, SFNull? (349) *)
Definition node_entry (t : tree) : bool :=
  match t with T (G_USE | G_Script | G_Node | G_SFNull) _ _ => true | _ => false end.

(** inside a PROTO?  the PROTOs that can be seen, and the types of the nodes of
    the enclosing scenes *)
Record ctx := mkctx { c_in : bool; c_env : list (text * pdef); c_outer : list text }.
Definition ctx0 : ctx := mkctx false [] [].
(** the types of the nodes of a scene, and of all nodes inside a PROTO *)
Definition uses (b : scene) : list text :=
  flat_map (fun n => match s_node b n with Some nd => [n_gi nd] | None => [] end) (seq 0 (s_next b)).
Fixpoint p_uses (p : pdef) : list text :=
  match p with PDef _ inner b => uses b ++ flat_map (fun x => p_uses (snd x)) inner | PExt _ _ => [] end.
Definition others (c : ctx) : list text := c_outer c ++ flat_map (fun x => p_uses (snd x)) (c_env c).

Section Build.
Variable P : prims.
Variable base : list (text * list fdecl).
Definition known (c : ctx) : list (text * list fdecl) := types base (c_env c).

(** 207-228 ROUTE *)
Definition build_route (l : list tree) (b : scene) : res scene :=
  match l with
  | [T _ s _; T _ sf _; T _ d _; T _ df _] =>
      match getDEF (s_defs b) s, getDEF (s_defs b) d with
      | Some sn, Some dn => Ok (add_route ((sn, sf), (dn, df)) b)
      | _, _ => Exc NameError
      end
  | _ => Exc ValueError
  end.

(** 346-359 Field with 337-342: what is stored in field [f], given the entries
    [l] and how to build the nodes among them *)
Definition build_value (nodes : list tree -> scene -> res (scene * list nref))
           (f : fdecl) (l : list tree) (b : scene) : res (scene * val) :=
  match l with
  | x :: _ =>
      if node_entry x then
        match f_kind f with
        | KNode => bind (nodes [x] b) (fun p => match p with
                                          | (b', [r]) => Ok (b', VRef r)
                                          | _ => Exc OtherError
                                          end)
        | KNodes _ => bind (nodes l b) (fun p => Ok (fst p, VRefs (snd p)))
        | KVal _ _ => Exc OtherError
        end
      else match f_kind f with
           | KNode => Exc AttributeError
           | KNodes _ => Ok (b, VRefs [])
           | KVal t _ => bind (read_value P t l) (fun v => Ok (b, VPv v))
           end
  | [] => match f_kind f with
          | KNode => Exc AttributeError
          | KNodes _ => Ok (b, VRefs [])
          | KVal t _ => bind (read_value P t l) (fun v => Ok (b, VPv v))
          end
  end.

(** *** instances of PROTOs *)
(** node.py 171-218 instantiate: every name used in an IS map of the body is
    declared; the declared default is put into the field it is mapped to *)
Definition mem_kind (p : pdef) (nm : text) : option member :=
  match dget text_eqb (p_mem p) nm with
  | Some m => Some m
  | None => if text_eqb nm (lit "externalURL") then Some (MField true (f_kind url_field)) else None
  end.
Definition body_field (c : ctx) (p : pdef) (x : nat * text) : option fdecl :=
  match s_node (p_body p) (fst x) with
  | Some nd => node_field (types base (p_inner p ++ c_env c)) nd (snd x)
  | None => None
  end.
Fixpoint maps_ok (c : ctx) (p : pdef) (l : list (text * list (nat * text))) : res unit :=
  match l with
  | [] => Ok tt
  | (pn, xs) :: r =>
      match mem_kind p pn with
      | None => if odd_name pn then Exc OtherError else Exc AttributeError
      | Some (MEvent _ _) => maps_ok c p r
      | Some (MField _ k) =>
          if forallb (fun x => match body_field c p x with
                               | Some f => text_eqb (class_name (f_kind f)) (class_name k)
                               | None => true
                               end) xs
          then maps_ok c p r else Exc OtherError
      end
  end.
Definition inst_ok (c : ctx) (gi : text) : res unit :=
  match dget text_eqb (c_env c) gi with
  | Some p => maps_ok c p (s_is (p_body p))
  | None => Ok tt
  end.
(** the field leads, by IS, to fields of built-in nodes that lead nowhere else *)
Definition plain_map (p : pdef) (nm : text) (xs : list (nat * text)) : bool :=
  forallb (fun x =>
    match s_node (p_body p) (fst x) with
    | Some nd => match dget text_eqb base (n_gi nd) with Some _ => true | None => false end
    | None => false
    end &&
    forallb (fun e => text_eqb (fst e) nm ||
                      forallb (fun y => negb ((fst x =? fst y) && text_eqb (snd x) (snd y))) (snd e)) (s_is (p_body p)) &&
    forallb (fun r => negb ((fst (fst r) =? fst x) &&
                            among (snd (fst r)) [snd x; lit "set_" ++ snd x; snd x ++ lit "_changed"])) (s_routes (p_body p))) xs.
(** 343-348 field.fset: fields of PROTO instances announce the change.  The IS
    map of the instance puts the value into the body of the PROTO (route.py
    72-104, 151-170), which is the same for all instances (node.py 195-204):
    their IS maps put it into the same field of all other instances.  A list
    of nodes is not announced. *)
Definition assign (c : ctx) (n : nat) (gi nm : text) (f : fdecl) (v : val) (b : scene) : res scene :=
  match dget text_eqb (c_env c) gi with
  | None => Ok (set_field n nm v b)
  | Some p =>
      if existsb (fun r => match s_node b (fst (fst r)) with Some nd => text_eqb (n_gi nd) gi | None => false end) (s_routes b)
      then Exc OtherError
      else match f_kind f, dget text_eqb (s_is (p_body p)) nm with
           | KNodes _, _ | _, None => Ok (set_field n nm v b)
           | _, Some xs => if among gi (others c) || negb (plain_map p nm xs) then Exc OtherError
                           else Ok (set_all gi n nm v b)
           end
  end.
(** 335-337: an attribute that IS a field of the PROTO.  Its name may be that of
    an event of the node, if that is an instance of a PROTO. *)
Definition is_attr (c : ctx) (gi : text) (fs : list fdecl) (nm : text) : bool :=
  match find_field fs nm with
  | Some _ => true
  | None => match dget text_eqb (c_env c) gi with
            | Some p => match dget text_eqb (p_mem p) nm with Some _ => true | None => false end
            | None => false
            end
  end.

(** *** Scripts *)
(** names that are attributes of the node classes, or may be *)
Definition bad_member (nm : text) : bool := starts_with (lit "__") nm || among nm reserved.
Definition is_type (ty : text) : bool := match kind_of ty with Some _ => true | None => false end.
(** 285-312 ScriptFieldDecl with a value: the declared field *)
Definition script_kind (nodes : list tree -> scene -> res (scene * list nref)) (ex : bool)
           (ty : text) (l : list tree) (b : scene) : res (scene * smember) :=
  let first := match l with x :: _ => node_entry x | [] => false end in
  if text_eqb ty (lit "SFNode") then
    match l with
    | x :: _ => if node_entry x then bind (nodes [x] b) (fun p => Ok (fst p, SMField ex KNode (snd p))) else Exc AttributeError
    | [] => Exc AttributeError
    end
  else if text_eqb ty (lit "MFNode") then
    if first then bind (nodes l b) (fun p => Ok (fst p, SMField ex (KNodes false) (snd p)))
    else Ok (b, SMField ex (KNodes false) [])
  else match fty_of ty with
       | None => Exc OtherError
       | Some t => if first then Exc OtherError else bind (handler t l) (fun v => Ok (b, SMField ex (KVal t v) []))
       end.
(** 178-180 *)
Definition add_maps (n : nat) (ms : list (text * text)) (b : scene) : scene :=
  fold_left (fun b m => add_is (fst m) n (snd m) b) ms b.
(** getField( clientNode, name ) finds a field or an event (protofunctions.py 99-142) *)
Definition is_script_attr (mem : list (text * smember)) (nm : text) : bool :=
  match script_find mem nm, dget text_eqb mem nm with None, None => false | _, _ => true end.
Definition members_of (b : scene) (n : nat) : list (text * smember) :=
  match s_node b n with Some nd => n_mem nd | None => [] end.

(** 120-147 Node, 149-187 Script, 189-191 SFNull, 193-205 USE; 273-312
    ScriptEventDecl and ScriptFieldDecl; 314-344 Attr *)
Fixpoint build_item (c : ctx) (t : tree) (b : scene) {struct t} : res (scene * nref) :=
  let fix items (l : list tree) (b : scene) {struct l} : res (scene * list nref) :=
    match l with
    | [] => Ok (b, [])
    | x :: r => bind (build_item c x b) (fun p =>
                bind (items r (fst p)) (fun q => Ok (fst q, snd p :: snd q)))
    end in
  let fix body (n : nat) (gi : text) (fs : list fdecl) (l : list tree) (b : scene) {struct l} : res scene :=
    match l with
    | [] => Ok b
    | T tag _ ch :: r =>
        bind (match tag with
              | G_Attr =>
                  match ch with
                  | [T _ nm _; T vtag pn vs] =>
                      match vtag with
                      | G_IS => if is_attr c gi fs nm
                                then if c_in c then Ok (add_is pn n nm b) else Exc IndexError
                                else Exc OtherError
                      | G_Field =>
                          match find_field fs nm with
                          | None => if odd_name nm then Exc OtherError else Exc AttributeError
                          | Some f => bind (build_value items f vs b) (fun p => assign c n gi nm f (snd p) (fst p))
                          end
                      | _ => Exc OtherError
                      end
                  | _ => Exc ValueError
                  end
              | G_ROUTE => build_route ch b
              | _ => Exc OtherError
              end) (body n gi fs r)
    end in
  (* declarations, and what is neither declaration nor attribute; the IS maps
     are put aside *)
  let fix decls (n : nat) (l : list tree) (b : scene) (ms : list (text * text)) {struct l} : res (scene * list (text * text)) :=
    match l with
    | [] => Ok (b, ms)
    | T tag _ ch :: r =>
        bind (match tag with
              | G_ScriptFieldDecl =>
                  match ch with
                  | [T _ ex _; T _ ty _; T _ nm _; T vtag pn vs] =>
                      match vtag with
                      | G_IS =>
                          match kind_of ty with
                          | None => Exc OtherError
                          | Some k => if bad_member nm then Exc OtherError
                                      else Ok (set_member n nm (SMField (text_eqb ex (lit "exposedField")) k (match k with KNode => [RNull] | _ => [] end)) b,
                                               ms ++ [(pn, nm)])
                          end
                      | G_Field =>
                          bind (script_kind items (text_eqb ex (lit "exposedField")) ty vs b) (fun p =>
                          if bad_member nm then Exc OtherError else Ok (set_member n nm (snd p) (fst p), ms))
                      | _ => Exc OtherError
                      end
                  | _ => Exc ValueError
                  end
              | G_ScriptEventDecl =>
                  match ch with
                  | T _ out _ :: T _ ty _ :: T _ nm _ :: im =>
                      if bad_member nm || existsb (fun f => text_eqb (f_name f) nm) script_base || negb (is_type ty) then Exc OtherError
                      else Ok (set_member n nm (SMEvent (text_eqb out (lit "eventOut")) ty) b,
                               ms ++ match im with T _ pn _ :: _ => [(pn, nm)] | [] => [] end)
                  | _ => Exc ValueError
                  end
              | G_Attr => Ok (b, ms)
              | G_ROUTE => bind (build_route ch b) (fun b => Ok (b, ms))
              | _ => Exc OtherError
              end) (fun p => decls n r (fst p) (snd p))
    end in
  let fix sattrs (n : nat) (l : list tree) (b : scene) {struct l} : res scene :=
    match l with
    | [] => Ok b
    | T tag _ ch :: r =>
        bind (match tag with
              | G_Attr =>
                  match ch with
                  | [T _ nm _; T vtag pn vs] =>
                      match vtag with
                      | G_IS => if is_script_attr (members_of b n) nm
                                then if c_in c then Ok (add_is pn n nm b) else Exc IndexError
                                else Exc OtherError
                      | G_Field =>
                          match script_find (members_of b n) nm with
                          | None => if odd_name nm then Exc OtherError else Exc AttributeError
                          | Some f => bind (build_value items f vs b) (fun p => Ok (set_field n nm (snd p) (fst p)))
                          end
                      | _ => Exc OtherError
                      end
                  | _ => Exc ValueError
                  end
              | _ => Ok b
              end) (sattrs n r)
    end in
  match t with
  | T tag s ch =>
      match tag with
      | G_SFNull => Ok (b, RNull)
      | G_USE => match getDEF (s_defs b) s with
                 | Some n => Ok (b, RNode n)
                 | None => Exc NameError
                 end
      | G_Node =>
          let node d gi rest :=
            if among gi not_types then Exc OtherError
            else match proto (known c) gi with
                 | None => Exc NameError
                 | Some fs =>
                     let n := s_next b in
                     bind (inst_ok c gi) (fun _ =>
                     bind (body n gi fs rest (name_node d n (new_node gi b))) (fun b' => Ok (b', RNode n)))
                 end in
          match ch with
          | T tag1 s1 _ :: rest1 =>
              match tag1 with
              | G_name => match rest1 with
                          | T _ gi _ :: rest => node (Some s1) gi rest
                          | [] => Exc IndexError
                          end
              | _ => node None s1 rest1
              end
          | [] => Exc IndexError
          end
      | G_Script =>
          let script d rest :=
            let n := s_next b in
            bind (decls n rest (name_node d n (new_node script_gi b)) []) (fun p =>
            bind (match snd p with
                  | [] => Ok (fst p)
                  | _ => if c_in c then Ok (add_maps n (snd p) (fst p)) else Exc IndexError
                  end) (fun b1 =>
            bind (sattrs n rest b1) (fun b' => Ok (b', RNode n)))) in
          match ch with
          | T G_name s1 _ :: rest => script (Some s1) rest
          | _ => script None ch
          end
      | _ => Exc OtherError
      end
  end.

(** *** PROTO declarations *)
(** 231-247 fieldDecl: the field declared with the given type and entries *)
Definition decl_kind (ty : text) (l : list tree) : res kind :=
  if text_eqb ty (lit "SFNode") then
    match l with
    | T G_SFNull _ _ :: _ => Ok KNode
    | x :: _ => if node_entry x then Exc OtherError else Exc AttributeError
    | [] => Exc AttributeError
    end
  else if text_eqb ty (lit "MFNode") then
    match l with
    | x :: _ => if node_entry x then Exc OtherError else Ok (KNodes false)
    | [] => Ok (KNodes false)
    end
  else match fty_of ty with
       | None => Exc OtherError
       | Some t => match l with
                   | x :: _ => if node_entry x then Exc OtherError else bind (handler t l) (fun v => Ok (KVal t v))
                   | [] => bind (handler t l) (fun v => Ok (KVal t v))
                   end
       end.
(** 231-272 fieldDecl, extFieldDecl, eventDecl; addField puts it into the class *)
Definition decl (t : tree) (mem : list (text * member)) : res (list (text * member)) :=
  match t with
  | T G_fieldDecl _ [T _ ex _; T _ ty _; T _ nm _; T _ _ l] =>
      bind (decl_kind ty l) (fun k =>
      if starts_with (lit "__") nm || among nm reserved then Exc OtherError
      else Ok (dset text_eqb mem nm (MField (text_eqb ex (lit "exposedField")) k)))
  | T G_extFieldDecl _ [T _ ex _; T _ ty _; T _ nm _] =>
      match kind_of ty with
      | None => Exc OtherError
      | Some k => if starts_with (lit "__") nm || among nm reserved || text_eqb nm (lit "externalURL") then Exc OtherError
                  else Ok (dset text_eqb mem nm (MField (text_eqb ex (lit "exposedField")) k))
      end
  | T G_eventDecl _ [T _ out _; T _ ty _; T _ nm _] =>
      if starts_with (lit "__") nm || among nm reserved || text_eqb nm (lit "externalURL") then Exc OtherError
      else if text_eqb ty (lit "SFNode") || text_eqb ty (lit "MFNode") || (match fty_of ty with Some _ => true | None => false end)
           then Ok (dset text_eqb mem nm (MEvent (text_eqb out (lit "eventOut")) ty))
           else Exc OtherError
  | _ => Exc OtherError
  end.

(** the declarations of an EXTERNPROTO, and its URLs *)
Fixpoint xdecls (l : list tree) (mem : list (text * member)) : res pdef :=
  match l with
  | [] => Exc OtherError
  | T tag sp ch :: r =>
      match tag with
      | G_ExtProtoURL => bind (read_value P MFString ch) (fun u => Ok (PExt mem u))
      | _ => bind (decl (T tag sp ch) mem) (xdecls r)
      end
  end.

(** a scene under construction: the PROTOs declared in it, and its contents *)
Definition file : Type := list (text * pdef) * scene.
Definition file0 : file := ([], scene0).
(** the context inside the scene *)
Definition inside (c : ctx) (s : file) : ctx := mkctx (c_in c) (fst s ++ c_env c) (c_outer c).
(** 65-72 rootItem, 74-92 vrmlScene, 95-105 Proto: a PROTO gets a scene of its
    own, and is entered into the enclosing one when it is complete; 107-118
    ExternProto, 449-452 ExtProtoURL *)
Fixpoint build_root (c : ctx) (t : tree) (s : file) {struct t} : res file :=
  let fix roots (c : ctx) (l : list tree) (s : file) {struct l} : res file :=
    match l with
    | [] => Ok s
    | x :: r => bind (build_root c x s) (roots c r)
    end in
  let fix declared (c : ctx) (l : list tree) (mem : list (text * member)) {struct l} : res pdef :=
    match l with
    | [] => Exc OtherError
    | T tag sp ch :: r =>
        match tag with
        | G_vrmlScene => bind (roots c ch file0) (fun q => Ok (PDef mem (fst q) (snd q)))
        | _ => bind (decl (T tag sp ch) mem) (declared c r)
        end
    end in
  match t with
  | T tag sp ch =>
      match tag with
      | G_rootItem => roots c ch s
      | G_ROUTE => bind (build_route ch (snd s)) (fun b => Ok (fst s, b))
      | G_Proto =>
          match ch with
          | T _ gi _ :: r =>
              if among gi not_types then Exc OtherError
              else match proto (known (inside c s)) gi with
                   | Some _ => Exc OtherError
                   | None =>
                       bind (declared (mkctx true (fst s ++ c_env c) (c_outer c ++ uses (snd s))) r []) (fun p =>
                       Ok (fst s ++ [(gi, p)], snd s))
                   end
          | [] => Exc IndexError
          end
      | G_ExternProto =>
          match ch with
          | T _ gi _ :: r =>
              if among gi not_types then Exc OtherError
              else match proto (known (inside c s)) gi with
                   | Some _ => Exc OtherError
                   | None => bind (xdecls r []) (fun p => Ok (fst s ++ [(gi, p)], snd s))
                   end
          | [] => Exc IndexError
          end
      | _ => bind (build_item (inside c s) t (snd s)) (fun p => Ok (fst s, add_kid (snd p) (fst p)))
      end
  end.
Fixpoint build_scene (c : ctx) (l : list tree) (s : file) : res file :=
  match l with
  | [] => Ok s
  | x :: r => bind (build_root c x s) (build_scene c r)
  end.
(** the vrmlFile production: header, scene, end of file (60-63).  The result:
    the PROTOs declared and the scene *)
Definition build_file (l : list tree) : res file :=
  match l with
  | [_; T _ _ ch; _] => build_scene ctx0 ch file0
  | _ => Exc OtherError
  end.
End Build.
