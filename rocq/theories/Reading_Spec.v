(** What a document means: the nodes in the order of the text, the names they
    are given, the values their attributes set; USE takes the last node so
    named before; PROTOs have names and nodes of their own. *)
From Coq Require Import Reals SpecFloat.
From Flocq Require Import Core.Core IEEE754.BinarySingleNaN.
From Verif Require Import Base Text PyDict Float Coerce_Model Grammar_Model Doc_Spec Doc_Proofs SceneGraph_Model
  VrmlStr_Model VrmlStr_Values Scene_Model Build_Model Scene_Spec.
Local Open Scope nat_scope.
Local Open Scope list_scope.
Notation RNode := Scene_Model.RNode.

(** what has been read so far.  Names and values: the last one first. *)
Record rstate := mkrs {
  r_nodes : list (text * text);              (** type and DEF name of node 0, 1, ... *)
  r_names : list (text * nat);
  r_sets : list (nat * text * val);
  r_kids : list nref;
  r_routes : list (nat * text * (nat * text));
  r_is : list (text * (nat * text));         (** name of the PROTO's field, node and field it stands for *)
  r_mems : list (nat * text * smember)       (** what Scripts declare *)
}.
Definition rs0 : rstate := mkrs [] [] [] [] [] [] [].
Definition r_next (st : rstate) : nat := List.length (r_nodes st).
Definition named_node (st : rstate) (nm : text) : option nat := dget text_eqb (r_names st) nm.
Definition value_set (st : rstate) (n : nat) (nm : text) : option val :=
  option_map snd (find (fun x => (fst (fst x) =? n) && text_eqb (snd (fst x)) nm) (r_sets st)).
Definition member_of (st : rstate) (n : nat) (nm : text) : option smember :=
  option_map snd (find (fun x => (fst (fst x) =? n) && text_eqb (snd (fst x)) nm) (r_mems st)).
Definition mapped_to (st : rstate) (pn : text) : list (nat * text) :=
  map snd (filter (fun x => text_eqb (fst x) pn) (r_is st)).

(** the scene [S] is what the document describes *)
Record describes (st : rstate) (S : scene) : Prop := {
  ds_next : s_next S = r_next st;
  ds_node : forall n gi d, nth_error (r_nodes st) n = Some (gi, d) ->
    exists nd, s_node S n = Some nd /\ n_gi nd = gi /\ node_def S n = d /\
               (forall nm, dget text_eqb (n_vals nd) nm = value_set st n nm) /\
               (forall nm, dget text_eqb (n_mem nd) nm = member_of st n nm);
  ds_none : forall n, r_next st <= n -> s_node S n = None /\ node_def S n = [];
  ds_names : forall nm, nm <> [] -> getDEF (s_defs S) nm = named_node st nm;
  ds_kids : s_kids S = r_kids st;
  ds_routes : s_routes S = r_routes st;
  ds_is : forall pn, dget text_eqb (s_is S) pn = match mapped_to st pn with [] => None | l => Some l end
}.

(** *** steps *)
Definition enter_node (d : option text) (gi : text) (st : rstate) : rstate :=
  mkrs (r_nodes st ++ [(gi, match d with Some nm => nm | None => [] end)])
       (match d with Some nm => (nm, r_next st) :: r_names st | None => r_names st end)
       (r_sets st) (r_kids st) (r_routes st) (r_is st) (r_mems st).
Definition with_sets (l : list (nat * text * val)) (st : rstate) : rstate :=
  mkrs (r_nodes st) (r_names st) (l ++ r_sets st) (r_kids st) (r_routes st) (r_is st) (r_mems st).
Definition with_kid (r : nref) (st : rstate) : rstate :=
  mkrs (r_nodes st) (r_names st) (r_sets st) (r_kids st ++ [r]) (r_routes st) (r_is st) (r_mems st).
Definition with_route (r : nat * text * (nat * text)) (st : rstate) : rstate :=
  mkrs (r_nodes st) (r_names st) (r_sets st) (r_kids st) (r_routes st ++ [r]) (r_is st) (r_mems st).
Definition with_is (pn : text) (n : nat) (nm : text) (st : rstate) : rstate :=
  mkrs (r_nodes st) (r_names st) (r_sets st) (r_kids st) (r_routes st) (r_is st ++ [(pn, (n, nm))]) (r_mems st).
Definition with_maps (n : nat) (ms : list (text * text)) (st : rstate) : rstate :=
  fold_left (fun st m => with_is (fst m) n (snd m) st) ms st.
Definition with_member (n : nat) (nm : text) (m : smember) (st : rstate) : rstate :=
  mkrs (r_nodes st) (r_names st) (r_sets st) (r_kids st) (r_routes st) (r_is st) ((n, nm, m) :: r_mems st).
(** does the field of a PROTO stand, by IS, for a field in its body?  Lists of
    nodes are not passed on. *)
Definition passed_on (e : list (text * pdef)) (gi : text) (f : fdecl) : bool :=
  match dget text_eqb e gi with
  | None => false
  | Some p => match f_kind f, dget text_eqb (s_is (p_body p)) (f_name f) with
              | KNodes _, _ | _, None => false
              | _, Some _ => true
              end
  end.
(** node [n] gets value [v] in field [f]; if that is passed on by IS, all nodes of
    the type get it, because the instances of a PROTO share its body *)
Definition set_value (e : list (text * pdef)) (n : nat) (gi : text) (f : fdecl) (v : val) (st : rstate) : rstate :=
  if passed_on e gi f
  then with_sets (map (fun m => (m, f_name f, v))
                      (filter (fun m => match nth_error (r_nodes st) m with Some (g, _) => text_eqb g gi | None => false end)
                              (seq 0 (r_next st)))) st
  else with_sets [(n, f_name f, v)] st.

Definition nodeish (i : sitem) : bool := match i with SUse _ | SNode _ _ _ | SScript _ _ | SNull => true | _ => false end.
(** values are plain, or start with a node *)
Definition tidy_value (l : list sitem) : bool :=
  match l with i :: _ => nodeish i || forallb plain l | [] => true end.
Fixpoint tidy (i : sitem) : bool :=
  match i with
  | SNode _ _ l => forallb (fun p => match snd p with SVal its => tidy_value its && forallb tidy its | SIs _ => true end) l
  | SScript _ l => forallb (fun x => match x with
                                     | SSField _ _ _ (SVal its) | SSAttr _ (SVal its) => tidy_value its && forallb tidy its
                                     | _ => true
                                     end) l
  | _ => true
  end.
Definition tidy_decl (d : sdecl) : bool := match d with SDField _ _ _ l => tidy_value l | SDEvent _ _ _ => true end.
Fixpoint tidy_root (r : sroot) : bool :=
  match r with
  | SRItem i => tidy i
  | SRRoute _ _ _ _ | SRExtern _ _ _ => true
  | SRProto _ ds l => forallb tidy_decl ds && forallb tidy_root l
  end.
(** the fields of a Script: those it declares, and those all Scripts have *)
Definition script_field (st : rstate) (n : nat) (f : fdecl) : Prop :=
  match member_of st n (f_name f) with
  | Some (SMField _ k _) => f_kind f = k
  | Some (SMEvent _ _) => False
  | None => In f script_base
  end.
(** names the model leaves to a Script to declare; events not those of the fields
    all Scripts have *)
Definition free_name (nm : text) : Prop := bad_member nm = false.
Definition free_event (nm : text) : Prop := free_name nm /\ ~ In nm (map f_name script_base).

Section Reads.
Variable P : prims.
Variable base : list (text * list fdecl).

(** in the body of the PROTO, fields stand by IS for declared fields of the same
    type or for declared events; all nodes have externalURL *)
Definition maps_declared (e : list (text * pdef)) (gi : text) : Prop :=
  forall p pn xs, dget text_eqb e gi = Some p -> In (pn, xs) (s_is (p_body p)) ->
  (exists o ty, dget text_eqb (p_mem p) pn = Some (MEvent o ty)) \/
  exists k, ((exists ex, dget text_eqb (p_mem p) pn = Some (MField ex k)) \/
             (dget text_eqb (p_mem p) pn = None /\ pn = lit "externalURL" /\ k = f_kind url_field)) /\
    forall n y nd f, In (n, y) xs -> s_node (p_body p) n = Some nd -> node_field (types base (p_inner p ++ e)) nd y = Some f ->
      class_name (f_kind f) = class_name k.

Section Items.
Variable inp : bool.                          (** inside a PROTO *)
Variable e : list (text * pdef).              (** the PROTOs that can be seen *)
Inductive item_reads : rstate -> sitem -> rstate -> nref -> Prop :=
| ir_null st : item_reads st SNull st RNull
| ir_use st nm n : named_node st nm = Some n -> item_reads st (SUse nm) st (RNode n)
| ir_node st d gi fs l st' : proto (types base e) gi = Some fs -> maps_declared e gi ->
    attrs_read (r_next st) gi fs (enter_node d gi st) l st' ->
    item_reads st (SNode d gi l) st' (RNode (r_next st))
(** a Script: the declarations first, then IS, then the attributes *)
| ir_script st d l st1 ms st' : sdecls_read (r_next st) (enter_node d script_gi st) [] l st1 ms -> ms = [] \/ inp = true ->
    sattrs_read (r_next st) (with_maps (r_next st) ms st1) l st' ->
    item_reads st (SScript d l) st' (RNode (r_next st))
with items_read : rstate -> list sitem -> rstate -> list nref -> Prop :=
| is_nil st : items_read st [] st []
| is_cons st i st1 r l st' rs : item_reads st i st1 r -> items_read st1 l st' rs -> items_read st (i :: l) st' (r :: rs)
with attrs_read : nat -> text -> list fdecl -> rstate -> list (text * sval) -> rstate -> Prop :=
| ar_nil n gi fs st : attrs_read n gi fs st [] st
| ar_value n gi fs st f its st1 v l st' : In f fs -> value_reads st f its st1 v ->
    attrs_read n gi fs (set_value e n gi f v st1) l st' ->
    attrs_read n gi fs st ((f_name f, SVal its) :: l) st'
| ar_is n gi fs st nm pn l st' : inp = true -> attrs_read n gi fs (with_is pn n nm st) l st' ->
    attrs_read n gi fs st ((nm, SIs pn) :: l) st'
with value_reads : rstate -> fdecl -> list sitem -> rstate -> val -> Prop :=
| vr_plain st f t d its v : f_kind f = KVal t d -> forallb plain its = true ->
    read_value P t (map et_item its) = Ok v -> value_reads st f its st (VPv v)
(** what follows the node in an SFNode field is not looked at *)
| vr_node st f i its st' r : f_kind f = KNode -> item_reads st i st' r -> value_reads st f (i :: its) st' (VRef r)
| vr_nodes st f o its st' rs : f_kind f = KNodes o -> items_read st its st' rs -> value_reads st f its st' (VRefs rs)
(** values that are not nodes are ignored in an MFNode field *)
| vr_ignored st f o its : f_kind f = KNodes o -> forallb plain its = true -> value_reads st f its st (VRefs [])
(** what a field declaration of a Script declares *)
with member_reads : rstate -> bool -> text -> list sitem -> rstate -> smember -> Prop :=
| mr_value st ex ty t its v : fty_of ty = Some t -> forallb plain its = true -> handler t (map et_item its) = Ok v ->
    member_reads st ex ty its st (SMField ex (KVal t v) [])
| mr_node st ex i its st' r : item_reads st i st' r ->
    member_reads st ex (lit "SFNode") (i :: its) st' (SMField ex KNode [r])
| mr_nodes st ex its st' rs : items_read st its st' rs ->
    member_reads st ex (lit "MFNode") its st' (SMField ex (KNodes false) rs)
| mr_ignored st ex its : forallb plain its = true -> member_reads st ex (lit "MFNode") its st (SMField ex (KNodes false) [])
(** the declarations of Script [n], and what is to be mapped by IS *)
with sdecls_read : nat -> rstate -> list (text * text) -> list ssel -> rstate -> list (text * text) -> Prop :=
| sd_nil n st ms : sdecls_read n st ms [] st ms
| sd_value n st ms ex ty nm its st1 m l st' ms' : free_name nm -> member_reads st ex ty its st1 m ->
    sdecls_read n (with_member n nm m st1) ms l st' ms' ->
    sdecls_read n st ms (SSField ex ty nm (SVal its) :: l) st' ms'
| sd_is n st ms ex ty nm k pn l st' ms' : free_name nm -> kind_of ty = Some k ->
    sdecls_read n (with_member n nm (SMField ex k (match k with KNode => [RNull] | _ => [] end)) st) (ms ++ [(pn, nm)]) l st' ms' ->
    sdecls_read n st ms (SSField ex ty nm (SIs pn) :: l) st' ms'
| sd_event n st ms out ty nm pn l st' ms' : free_event nm -> kind_of ty <> None ->
    sdecls_read n (with_member n nm (SMEvent out ty) st) (ms ++ match pn with Some pn => [(pn, nm)] | None => [] end) l st' ms' ->
    sdecls_read n st ms (SSEvent out ty nm pn :: l) st' ms'
| sd_attr n st ms nm v l st' ms' : sdecls_read n st ms l st' ms' -> sdecls_read n st ms (SSAttr nm v :: l) st' ms'
(** the attributes of Script [n] *)
with sattrs_read : nat -> rstate -> list ssel -> rstate -> Prop :=
| sa_nil n st : sattrs_read n st [] st
| sa_decl n st x l st' : match x with SSAttr _ _ => False | _ => True end -> sattrs_read n st l st' -> sattrs_read n st (x :: l) st'
| sa_value n st f its st1 v l st' : script_field st n f -> value_reads st f its st1 v ->
    sattrs_read n (with_sets [(n, f_name f, v)] st1) l st' -> sattrs_read n st (SSAttr (f_name f) (SVal its) :: l) st'
| sa_is n st nm pn l st' : inp = true -> member_of st n nm <> None \/ In nm (map f_name script_base) -> sattrs_read n (with_is pn n nm st) l st' ->
    sattrs_read n st (SSAttr nm (SIs pn) :: l) st'.
End Items.

(** declarations of a PROTO; a name declared twice is declared as the second *)
Inductive kind_reads : text -> list sitem -> kind -> Prop :=
| kr_node l : kind_reads (lit "SFNode") (SNull :: l) KNode
| kr_nodes l : forallb plain l = true -> kind_reads (lit "MFNode") l (KNodes false)
| kr_value ty t l v : fty_of ty = Some t -> forallb plain l = true -> handler t (map et_item l) = Ok v ->
    kind_reads ty l (KVal t v).
Inductive decls_read : list (text * member) -> list sdecl -> list (text * member) -> Prop :=
| dr_nil mem : decls_read mem [] mem
| dr_field mem ex ty nm l k r mem' : kind_reads ty l k ->
    decls_read (dset text_eqb mem nm (MField ex k)) r mem' -> decls_read mem (SDField ex ty nm l :: r) mem'
| dr_event mem out ty nm r mem' :
    decls_read (dset text_eqb mem nm (MEvent out ty)) r mem' -> decls_read mem (SDEvent out ty nm :: r) mem'.
(** declarations of an EXTERNPROTO: the fields have the defaults of their types *)
Inductive xdecls_read : list (text * member) -> list sxdecl -> list (text * member) -> Prop :=
| xr_nil mem : xdecls_read mem [] mem
| xr_field mem ex ty nm k r mem' : kind_of ty = Some k ->
    xdecls_read (dset text_eqb mem nm (MField ex k)) r mem' -> xdecls_read mem (SXField ex ty nm :: r) mem'
| xr_event mem out ty nm r mem' :
    xdecls_read (dset text_eqb mem nm (MEvent out ty)) r mem' -> xdecls_read mem (SXEvent out ty nm :: r) mem'.

(** the contents of a scene: [inp] and [e] for the enclosing scenes; the PROTOs
    declared in the scene come before those *)
Inductive root_reads : bool -> list (text * pdef) -> list (text * pdef) * rstate -> sroot -> list (text * pdef) * rstate -> Prop :=
| rr_item inp e tab st i st' r : item_reads inp (tab ++ e) st i st' r ->
    root_reads inp e (tab, st) (SRItem i) (tab, with_kid r st')
| rr_route inp e tab st a af b bf n m : named_node st a = Some n -> named_node st b = Some m ->
    root_reads inp e (tab, st) (SRRoute a af b bf) (tab, with_route ((n, af), (m, bf)) st)
| rr_proto inp e tab st gi ds l mem inner stb body : proto (types base (tab ++ e)) gi = None ->
    decls_read [] ds mem -> roots_read true (tab ++ e) ([], rs0) l (inner, stb) -> describes stb body ->
    root_reads inp e (tab, st) (SRProto gi ds l) (tab ++ [(gi, PDef mem inner body)], st)
| rr_extern inp e tab st gi ds url mem u : proto (types base (tab ++ e)) gi = None ->
    xdecls_read [] ds mem -> read_value P MFString (map et_str url) = Ok u ->
    root_reads inp e (tab, st) (SRExtern gi ds url) (tab ++ [(gi, PExt mem u)], st)
with roots_read : bool -> list (text * pdef) -> list (text * pdef) * rstate -> list sroot -> list (text * pdef) * rstate -> Prop :=
| rs_nil inp e s : roots_read inp e s [] s
| rs_cons inp e s r s1 l s' : root_reads inp e s r s1 -> roots_read inp e s1 l s' -> roots_read inp e s (r :: l) s'.
End Reads.

(** *** names and types in the order of the text *)
(** the scenes of a document: the file itself and the bodies of its PROTOs *)
Inductive scene_in : list sroot -> list sroot -> Prop :=
| si_top l : scene_in l l
| si_body gi ds b l s : In (SRProto gi ds b) l -> scene_in b s -> scene_in l s.
(** the node types of an item *)
Fixpoint gis (i : sitem) : list text :=
  match i with
  | SNode _ gi l => gi :: flat_map (fun p => match snd p with SVal its => flat_map gis its | SIs _ => [] end) l
  | SScript _ l => flat_map (fun x => match x with SSField _ _ _ (SVal its) | SSAttr _ (SVal its) => flat_map gis its | _ => [] end) l
  | _ => []
  end.
(** every type is one of [known], or declared by a PROTO before, in the same
    scene or in one around it; no PROTO takes a name already in use *)
Inductive types_known : list text -> list sroot -> Prop :=
| tk_nil known : types_known known []
| tk_item known i l : incl (gis i) known -> types_known known l -> types_known known (SRItem i :: l)
| tk_route known a af b bf l : types_known known l -> types_known known (SRRoute a af b bf :: l)
| tk_proto known gi ds b l : ~ In gi known -> types_known known b -> types_known (gi :: known) l ->
    types_known known (SRProto gi ds b :: l)
| tk_extern known gi ds url l : ~ In gi known -> types_known (gi :: known) l -> types_known known (SRExtern gi ds url :: l).

(** *** fields that hold one node are given one entry *)
Section Lone.
Variable sfn : text -> bool.                  (** the names of these fields *)
Fixpoint lone (i : sitem) : bool :=
  match i with
  | SNode _ _ l => forallb (fun p => match snd p with
                                     | SVal its => (negb (sfn (fst p)) || (List.length its <=? 1)) && forallb lone its
                                     | SIs _ => true
                                     end) l
  | SScript _ l => forallb (fun x => match x with
                                     | SSField _ ty nm v =>
                                         (negb (text_eqb ty (lit "SFNode")) || sfn nm) &&
                                         match v with
                                         | SVal its => (negb (text_eqb ty (lit "SFNode")) || (List.length its <=? 1)) && forallb lone its
                                         | SIs _ => true
                                         end
                                     | SSAttr nm (SVal its) => (negb (sfn nm) || (List.length its <=? 1)) && forallb lone its
                                     | _ => true
                                     end) l
  | _ => true
  end.
Fixpoint lone_root (r : sroot) : bool :=
  match r with
  | SRItem i => lone i
  | SRRoute _ _ _ _ => true
  | SRExtern _ ds _ => forallb (fun d => match d with SXField _ ty nm => negb (text_eqb ty (lit "SFNode")) || sfn nm | _ => true end) ds
  | SRProto _ ds l => forallb (fun d => match d with SDField _ ty nm _ => negb (text_eqb ty (lit "SFNode")) || sfn nm | _ => true end) ds &&
                      forallb lone_root l
  end.
End Lone.

(** no PROTOs *)
Definition no_proto (r : sroot) : bool := match r with SRProto _ _ _ | SRExtern _ _ _ => false | _ => true end.
(** no Scripts *)
Fixpoint no_script (i : sitem) : bool :=
  match i with
  | SScript _ _ => false
  | SNode _ _ l => forallb (fun p => match snd p with SVal its => forallb no_script its | SIs _ => true end) l
  | _ => true
  end.
Definition no_scripts (r : sroot) : bool := match r with SRItem i => no_script i | _ => true end.
(** no attribute is given twice in a node *)
Fixpoint attrs_once (i : sitem) : Prop :=
  match i with
  | SNode _ _ l => NoDup (map fst l) /\
      fold_right (fun p q => match snd p with SVal its => fold_right (fun x r => attrs_once x /\ r) True its | SIs _ => True end /\ q) True l
  | _ => True
  end.
Definition attrs_once_root (r : sroot) : Prop := match r with SRItem i => attrs_once i | _ => True end.
