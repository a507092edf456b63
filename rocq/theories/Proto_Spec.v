(** Files with PROTOs that can be written and read, and when two are the same. *)
From Coq Require Import Reals SpecFloat.
From Flocq Require Import Core.Core IEEE754.BinarySingleNaN.
From Verif Require Import Base Text PyDict Float Coerce_Model Coerce_Spec Lex_Spec Doc_Spec SceneGraph_Model VrmlStr_Model
  VrmlStr_Spec Scene_Model Linearise_Model Build_Model Scene_Spec.
Local Open Scope nat_scope.
Local Open Scope list_scope.

(** all PROTOs of a file, those declared inside another one before that one *)
Fixpoint flat_proto (nm : text) (p : pdef) : list (text * pdef) :=
  match p with PDef _ inner _ => flat_map (fun x => flat_proto (fst x) (snd x)) inner ++ [(nm, p)] | PExt _ _ => [(nm, p)] end.
Definition flat (tab : list (text * pdef)) : list (text * pdef) := flat_map (fun x => flat_proto (fst x) (snd x)) tab.

(** PROTO [p] is declared as [nm] in the table, or deeper; in its body the PROTOs
    [e] are visible: those declared inside it, and those declared before it, in
    the same scene or in one around it *)
Inductive sees : list (text * pdef) -> list (text * pdef) -> text -> pdef -> list (text * pdef) -> Prop :=
| sees_here env pre nm p post : sees env (pre ++ (nm, p) :: post) nm p (p_inner p ++ pre ++ env)
| sees_inside env pre nm p post nm' p' e : sees (pre ++ env) (p_inner p) nm' p' e ->
    sees env (pre ++ (nm, p) :: post) nm' p' e.

(** *** when two files are the same *)
(** the same fields and events, except externalURL *)
Definition same_interface (P : prims) (p p' : pdef) : Prop :=
  forall nm, nm <> lit "externalURL" ->
  match dget text_eqb (p_mem p) nm, dget text_eqb (p_mem p') nm with
  | None, None => True
  | Some (MField e k), Some (MField e' k') => e = e' /\ alike_kind P k k'
  | Some (MEvent o ty), Some (MEvent o' ty') => o = o' /\ ty = ty'
  | _, _ => False
  end.
(** bodies are the same when they are so as scenes -- except for the values of
    fields mapped by IS -- and their IS maps agree *)
Definition same_body (P : prims) (protos : list (text * list fdecl)) (S S' : scene) : Prop :=
  exists R : nat -> nat -> Prop,
    (forall a b b', R a b -> R a b' -> b = b') /\
    (forall a a' b, R a b -> R a' b -> a = a') /\
    Forall2 (same_ref R) (s_kids S) (s_kids S') /\
    Forall2 (same_route R) (s_routes S) (s_routes S') /\
    (forall b y pn, imap S' b y pn -> exists a, R a b) /\
    forall a b, R a b -> exists nd nd' fs,
      s_node S a = Some nd /\ s_node S' b = Some nd' /\ n_gi nd' = n_gi nd /\
      (node_def S' b = node_def S a \/ (node_def S a = [] /\ routed S a)) /\
      (node_def S' b <> [] -> getDEF (s_defs S') (node_def S' b) = Some b) /\
      proto protos (n_gi nd) = Some fs /\
      (forall f, In f fs -> (exists pn, imap S a (f_name f) pn) \/
         exists v v', fget P S a f = Ok v /\ fget P S' b f = Ok v' /\ same_val R v v') /\
      (forall f pn, In f fs -> (imap S a (f_name f) pn <-> imap S' b (f_name f) pn)) /\
      (forall y pn, imap S' b y pn -> imap S a y pn).
Definition same_proto (P : prims) (protos : list (text * list fdecl)) (x x' : text * pdef) : Prop :=
  fst x' = fst x /\ p_inner (snd x') = [] /\ same_interface P (snd x) (snd x') /\
  same_body P protos (p_body (snd x)) (p_body (snd x')).
(** all PROTOs are declared in the file itself *)
Definition same_file (P : prims) (base : list (text * list fdecl)) (F F' : file) : Prop :=
  Forall2 (same_proto P (types base (flat (fst F)))) (flat (fst F)) (fst F') /\
  same_scene P (types base (flat (fst F))) (snd F) (snd F').

(** *** files that can be written and read *)
Section Ok.
Variable P : prims.
Variable base : list (text * list fdecl).

(** fields and events can be written and read, and do not take the names of
    attributes of the Python classes *)
Definition ok_member (x : text * member) : Prop :=
  starts_with (lit "__") (fst x) = false /\ among (fst x) reserved = false /\ fst x <> lit "externalURL" /\
  match snd x with
  | MField _ k => ok_decl P (mkfd (fst x) k) /\
                  match k with KVal t d => forall v, coerce P t d = Ok v -> stored t v | _ => True end
  | MEvent _ ty => is_name (fst x) = true /\ (ty = lit "SFNode" \/ ty = lit "MFNode" \/ exists t, ty = fty_name t)
  end.
(** no nodes, or as in C27 *)
Definition ok_body (protos : list (text * list fdecl)) (S : scene) : Prop :=
  (s_kids S = [] /\ s_routes S = []) \/ wf_scene P protos S.
(** a field is mapped to one field or event of the PROTO, of the same type, and
    holds no nodes itself *)
Definition ok_maps (p : pdef) (e : list (text * pdef)) : Prop :=
  (forall n y pn pn', imap (p_body p) n y pn -> imap (p_body p) n y pn' -> pn = pn') /\
  forall n y pn, imap (p_body p) n y pn -> is_name pn = true /\
    (forall nd v, s_node (p_body p) n = Some nd -> dget text_eqb (n_vals nd) y = Some v -> ref_ids v = []) /\
    forall nd fs f, s_node (p_body p) n = Some nd -> proto (types base e) (n_gi nd) = Some fs -> In f fs -> f_name f = y ->
      exists m, dget text_eqb (p_mem p) pn = Some m /\
        match m with MField _ k => class_name k = class_name (f_kind f) | MEvent _ _ => True end.
(** a field of the PROTO that leads, by IS, into its body: to fields of built-in
    nodes that are not routed on *)
Definition leads (p : pdef) (fn : text) : Prop := exists x y, imap (p_body p) x y fn.
Definition plain_leads (p : pdef) (fn : text) : Prop := forall x y, imap (p_body p) x y fn ->
  (exists nd fs, s_node (p_body p) x = Some nd /\ dget text_eqb base (n_gi nd) = Some fs) /\
  forall r, In r (s_routes (p_body p)) -> fst (fst r) = x -> ~ In (snd (fst r)) [y; lit "set_" ++ y; y ++ lit "_changed"].
(** the node is the only one of its type *)
Definition alone (all : list (text * pdef)) (S : scene) (n : nat) (gi : text) : Prop :=
  (forall x m nd, In x all -> s_node (p_body (snd x)) m = Some nd -> n_gi nd <> gi) /\
  forall m nd, s_node S m = Some nd -> n_gi nd = gi -> m = n.
(** an instance of a PROTO with a value in such a field has no other instance
    beside it (C70) *)
Definition ok_instances (e all : list (text * pdef)) (S : scene) : Prop :=
  forall n nd p f v, s_node S n = Some nd -> dget text_eqb e (n_gi nd) = Some p -> In f (pfields p) ->
    fget P S n f = Ok v -> dropped f v = Ok false -> (forall pn, ~ imap S n (f_name f) pn) -> (forall o, f_kind f <> KNodes o) ->
    leads p (f_name f) -> alone all S n (n_gi nd) /\ plain_leads p (f_name f).

Record ok_proto (all : list (text * pdef)) (nm : text) (p : pdef) (e : list (text * pdef)) : Prop := {
  op_name : safe_name nm = true /\ nm <> lit "sceneGraph" /\ dget text_eqb base nm = None;
  op_mem : NoDup (map fst (p_mem p)) /\ Forall ok_member (p_mem p);
  op_url : p_url p = None;                      (** not an EXTERNPROTO *)
  op_body : ok_body (types base e) (p_body p);
  op_maps : ok_maps p e;
  op_inst : ok_instances e (filter (fun x => negb (text_eqb (fst x) nm)) all) (p_body p)
}.
Record ok_file (F : file) : Prop := {
  of_some : fst F <> [] \/ s_kids (snd F) <> [];
  of_names : NoDup (map fst (flat (fst F)));
  of_protos : forall nm p e, sees [] (fst F) nm p e -> ok_proto (flat (fst F)) nm p e;
  of_scene : ok_body (types base (fst F)) (snd F);
  of_is : s_is (snd F) = [];
  of_inst : ok_instances (fst F) (flat (fst F)) (snd F)
}.
End Ok.
