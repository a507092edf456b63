(** The scene as a mirror of the document: which node stands for an entry of the
    document, with which values. *)
From Verif Require Import Base Text PyDict Float Coerce_Model Doc_Spec Doc_Proofs SceneGraph_Model VrmlStr_Model VrmlStr_Values Scene_Model Build_Model Scene_Spec
  Reading_Spec Script_Spec.
Local Open Scope nat_scope.
Local Open Scope list_scope.

(** the last value given for the name; what stands for a field of a PROTO (IS) is not
    a value *)
Fixpoint last_value (l : list (text * sval)) (x : text) : option (list sitem) :=
  match l with
  | [] => None
  | (nm, v) :: r => match last_value r x with
                    | Some its => Some its
                    | None => match v with SVal its => if text_eqb nm x then Some its else None | SIs _ => None end
                    end
  end.
Definition script_attributes (l : list ssel) : list (text * sval) :=
  flat_map (fun s => match s with SSAttr nm v => [(nm, v)] | _ => [] end) l.
Definition is_is (v : sval) : bool := match v with SIs _ => true | SVal _ => false end.
(** the field of a PROTO stands for fields in its body, which its instances share *)
Definition shared (tab : list (text * pdef)) (gi x : text) : Prop :=
  exists p xs, dget text_eqb tab gi = Some p /\ dget text_eqb (s_is (p_body p)) x = Some xs.
Definition name_of (d : option text) : text := match d with Some nm => nm | None => [] end.

Section Placed.
Variable P : prims.
Variable base : list (text * list fdecl).     (** the node types known from the start *)
Variable tab : list (text * pdef).            (** the PROTOs that can be seen *)
Variable inp : bool.                          (** the scene is the body of a PROTO *)
Variable S : scene.
Inductive placed : sitem -> nref -> Prop :=
| pl_null : placed SNull RNull
(** USE: a node so named *)
| pl_use nm n nd : s_node S n = Some nd -> node_def S n = nm -> placed (SUse nm) (RNode n)
(** a node: its type, its name, the last value given for each of its fields, no
    other values; all its attributes are fields of the type *)
| pl_node d gi l n nd fs : s_node S n = Some nd -> n_gi nd = gi -> node_def S n = name_of d ->
    proto (types base tab) gi = Some fs ->
    (forall x its, In (x, SVal its) l -> In x (map f_name fs)) ->
    (inp = false -> forall x v, In (x, v) l -> is_is v = false) ->
    (forall x, ~ shared tab gi x -> last_value l x = None -> dget text_eqb (n_vals nd) x = None) ->
    (forall x its, ~ shared tab gi x -> last_value l x = Some its ->
       exists f v, In f fs /\ f_name f = x /\ dget text_eqb (n_vals nd) x = Some v /\ given (f_kind f) its v) ->
    placed (SNode d gi l) (RNode n)
(** a Script: what it declares last for each name, and the last value given *)
| pl_script d l n nd : s_node S n = Some nd -> n_gi nd = lit "Script" -> node_def S n = name_of d ->
    (forall x, last_decl l x = None -> dget text_eqb (n_mem nd) x = None) ->
    (forall x out ty nm pn, last_decl l x = Some (SSEvent out ty nm pn) -> dget text_eqb (n_mem nd) x = Some (SMEvent out ty)) ->
    (forall x ex ty nm v, last_decl l x = Some (SSField ex ty nm v) ->
       exists k dn, dget text_eqb (n_mem nd) x = Some (SMField ex k dn) /\ class_name k = ty) ->
    (forall x ex ty nm its k dn, last_decl l x = Some (SSField ex ty nm (SVal its)) -> dget text_eqb (n_mem nd) x = Some (SMField ex k dn) ->
       declared_as k dn its) ->
    (forall x, last_value (script_attributes l) x = None -> dget text_eqb (n_vals nd) x = None) ->
    (forall x its, last_value (script_attributes l) x = Some its ->
       exists k v, ((exists ex dn, dget text_eqb (n_mem nd) x = Some (SMField ex k dn)) \/
                    (dget text_eqb (n_mem nd) x = None /\ In (mkfd x k) standard_fields)) /\
                   dget text_eqb (n_vals nd) x = Some v /\ given k its v) ->
    (inp = false -> forall s, In s l -> has_is s = false) ->
    placed (SScript d l) (RNode n)
(** the value of an attribute: of the entries in a field for one node the first
    is the node, the others are not looked at; entries that are not nodes are ignored in a field
    for nodes *)
with given : kind -> list sitem -> val -> Prop :=
| gv_value t d its v : forallb plain its = true -> read_value P t (map et_item its) = Ok v -> given (KVal t d) its (VPv v)
| gv_node i its r : placed i r -> given KNode (i :: its) (VRef r)
| gv_nodes o its rs : placed_all its rs -> given (KNodes o) its (VRefs rs)
| gv_ignored o its : forallb plain its = true -> given (KNodes o) its (VRefs [])
(** the same for the declaration of a field of a Script *)
with declared_as : kind -> list nref -> list sitem -> Prop :=
| de_value t v its : forallb plain its = true -> handler t (map et_item its) = Ok v -> declared_as (KVal t v) [] its
| de_node i its r : placed i r -> declared_as KNode [r] (i :: its)
| de_nodes its rs : placed_all its rs -> declared_as (KNodes false) rs its
| de_ignored its : forallb plain its = true -> declared_as (KNodes false) [] its
with placed_all : list sitem -> list nref -> Prop :=
| pa_nil : placed_all [] []
| pa_cons i r l rs : placed i r -> placed_all l rs -> placed_all (i :: l) (r :: rs).
End Placed.

(** the nodes of a scene, in the order of the text *)
Definition top_items (l : list sroot) : list sitem := flat_map (fun r => match r with SRItem i => [i] | _ => [] end) l.
(** the PROTOs, in the order of the text *)
Definition top_protos (l : list sroot) : list (text * list sroot) :=
  flat_map (fun r => match r with SRProto gi _ b => [(gi, b)] | _ => [] end) l.
(** the scene [S] and the PROTOs [tab] mirror the entries [l]; [e] and [inp] for the scenes around *)
Inductive mirrors (P : prims) (base : list (text * list fdecl)) : bool -> list (text * pdef) -> list sroot -> list (text * pdef) -> scene -> Prop :=
| mirror inp e l tab S : placed_all P base (tab ++ e) inp S (top_items l) (s_kids S) ->
    (forall gi b, In (gi, b) (top_protos l) -> exists mem inner body pre post, tab = pre ++ (gi, PDef mem inner body) :: post /\
       mirrors P base true (pre ++ e) b inner body) ->
    mirrors P base inp e l tab S.
