(** When two scenes are the same, and which scenes can be written and read. *)
From Coq Require Import Reals SpecFloat.
From Flocq Require Import Core.Core IEEE754.BinarySingleNaN.
From Verif Require Import Base Text PyDict Float Coerce_Model Coerce_Spec Lex_Spec Doc_Spec SceneGraph_Model VrmlStr_Model
  VrmlStr_Spec Scene_Model Linearise_Model.
Local Open Scope nat_scope.
Local Open Scope list_scope.

(** *** the same scene, up to the identity of the nodes *)
(** equal, or both a zero: the sign of a zero may be lost *)
Definition same_value (v w : pv) : Prop :=
  v = w \/ exists s s', v = PFloat (S754_zero s) /\ w = PFloat (S754_zero s').
Section Same.
Variable R : nat -> nat -> Prop.
Inductive same_ref : nref -> nref -> Prop :=
| same_null : same_ref RNull RNull
| same_node a b : R a b -> same_ref (RNode a) (RNode b).
Inductive same_val : val -> val -> Prop :=
| same_pv v w : same_value v w -> same_val (VPv v) (VPv w)
| same_one r r' : same_ref r r' -> same_val (VRef r) (VRef r')
| same_list l l' : Forall2 same_ref l l' -> same_val (VRefs l) (VRefs l').
(** the same, and numbers exactly *)
Inductive equal_val : val -> val -> Prop :=
| equal_pv v : equal_val (VPv v) (VPv v)
| equal_one r r' : same_ref r r' -> equal_val (VRef r) (VRef r')
| equal_list l l' : Forall2 same_ref l l' -> equal_val (VRefs l) (VRefs l').
Definition same_route (x y : nat * text * (nat * text)) : Prop :=
  R (fst (fst x)) (fst (fst y)) /\ snd (fst x) = snd (fst y) /\
  R (fst (snd x)) (fst (snd y)) /\ snd (snd x) = snd (snd y).
End Same.

(** is the node an end of a route? *)
Definition routed (S : scene) (n : nat) : Prop :=
  exists r, In r (s_routes S) /\ (n = fst (fst r) \/ n = fst (snd r)).

(** nodes correspond one to one, starting from the children of the scene:
    same type, same DEF name (a routed node without name has got one), found
    under that name, same field values; same routes *)
Definition same_scene (P : prims) (protos : list (text * list fdecl)) (S S' : scene) : Prop :=
  exists R : nat -> nat -> Prop,
    (forall a b b', R a b -> R a b' -> b = b') /\
    (forall a a' b, R a b -> R a' b -> a = a') /\
    Forall2 (same_ref R) (s_kids S) (s_kids S') /\
    Forall2 (same_route R) (s_routes S) (s_routes S') /\
    forall a b, R a b -> exists nd nd' fs,
      s_node S a = Some nd /\ s_node S' b = Some nd' /\ n_gi nd' = n_gi nd /\
      (node_def S' b = node_def S a \/ (node_def S a = [] /\ routed S a)) /\
      (node_def S' b <> [] -> getDEF (s_defs S') (node_def S' b) = Some b) /\
      proto protos (n_gi nd) = Some fs /\
      forall f, In f fs -> exists v v', fget P S a f = Ok v /\ fget P S' b f = Ok v' /\ same_val R v v'.

(** the same, with the same names and exactly the same values.  The names known
    to the scenes are the same. *)
Definition equal_scene (P : prims) (protos : list (text * list fdecl)) (S S' : scene) : Prop :=
  exists R : nat -> nat -> Prop,
    (forall a b b', R a b -> R a b' -> b = b') /\
    (forall a a' b, R a b -> R a' b -> a = a') /\
    Forall2 (same_ref R) (s_kids S) (s_kids S') /\
    Forall2 (same_route R) (s_routes S) (s_routes S') /\
    (forall nm, nm <> [] -> (getDEF (s_defs S) nm = None <-> getDEF (s_defs S') nm = None)) /\
    forall a b, R a b -> exists nd nd' fs,
      s_node S a = Some nd /\ s_node S' b = Some nd' /\ n_gi nd' = n_gi nd /\
      node_def S' b = node_def S a /\ proto protos (n_gi nd) = Some fs /\
      forall f, In f fs -> exists v v', fget P S a f = Ok v /\ fget P S' b f = Ok v' /\ equal_val R v v'.

(** the same field type and the same value when not set *)
Definition alike_kind (P : prims) (k k' : kind) : Prop :=
  match k, k' with
  | KVal t d, KVal t' d' => t = t' /\ coerce P t d = coerce P t d'
  | KNode, KNode => True
  | KNodes _, KNodes _ => True
  | _, _ => False
  end.
(** field [nm] of node [n] of the body of a PROTO is mapped to [pn] by IS *)
Definition imap (B : scene) (n : nat) (nm pn : text) : Prop := exists xs, In (pn, xs) (s_is B) /\ In (n, nm) xs.

(** *** node types that can be written and read *)
(** the declared default has the Python type it should have *)
Definition ok_default (t : fty) (d : pv) : Prop :=
  match fbase t with
  | BBool | BInt | BFloat => exists x, as_num d = Some x
  | BString => exists s, d = PStr s
  | BStrings => exists l, d = PSeq KList (map PStr l)
  | _ => exists k l, d = PSeq k l
  end.
Definition ok_decl (P : prims) (f : fdecl) : Prop :=
  safe_name (f_name f) = true /\
  match f_kind f with
  | KVal t d => readable t = true /\ ok_default t d /\ exists v, coerce P t d = Ok v /\ finite v
  | _ => True
  end.
Definition wf_protos_with (okd : fdecl -> Prop) (protos : list (text * list fdecl)) : Prop :=
  forall gi fs, proto protos gi = Some fs ->
    safe_name gi = true /\ gi <> lit "sceneGraph" /\
    NoDup (map f_name fs) /\ Forall okd fs.
Definition wf_protos (P : prims) (protos : list (text * list fdecl)) : Prop := wf_protos_with (ok_decl P) protos.

(** *** scenes that can be written and read *)
Definition ref_ids (v : val) : list nat :=
  match v with
  | VRef (RNode n) => [n]
  | VRefs l => flat_map (fun r => match r with RNode n => [n] | RNull => [] end) l
  | _ => []
  end.
Definition node_refs P protos (S : scene) (n : nat) : list nat :=
  match s_node S n with
  | None => []
  | Some nd => match proto protos (n_gi nd) with
               | None => []
               | Some fs => flat_map (fun f => match fget P S n f with Ok v => ref_ids v | Exc _ => [] end) fs
               end
  end.
(** every reference to a node in the scene: from the scene's children and from
    the fields of all nodes *)
Definition all_refs P protos (S : scene) : list nat :=
  ref_ids (VRefs (s_kids S)) ++ flat_map (node_refs P protos S) (seq 0 (s_next S)).
Inductive reach P protos (S : scene) : nat -> Prop :=
| reach_kid n : In (RNode n) (s_kids S) -> reach P protos S n
| reach_field m n : reach P protos S m -> In n (node_refs P protos S m) -> reach P protos S n.

Definition is_node (S : scene) (r : nref) : Prop :=
  match r with RNull => False | RNode n => exists nd, s_node S n = Some nd end.
(** a value a field can hold and that the writer does not garble: string lists
    are empty or the default *)
Definition ok_value (S : scene) (f : fdecl) (v : val) : Prop :=
  match f_kind f, v with
  | KVal t d, VPv v => stored t v /\ finite v /\ (t = MFString -> v = PSeq KList [] \/ v = d)
  | KNode, VRef r => r = RNull \/ is_node S r
  | KNodes _, VRefs l => Forall (is_node S) l
  | _, _ => False
  end.
Record wf_scene_with (okv : scene -> fdecl -> val -> Prop) (P : prims) (protos : list (text * list fdecl)) (S : scene) : Prop := {
  wf_ids : forall n nd, s_node S n = Some nd -> n < s_next S;
  wf_kids : s_kids S <> [] /\ Forall (is_node S) (s_kids S);
  wf_nodes : forall n nd, s_node S n = Some nd -> exists fs, proto protos (n_gi nd) = Some fs /\
    forall f, In f fs -> exists v, fget P S n f = Ok v /\ okv S f v;
  (* DEF names are names, and registered with the scene *)
  wf_names : forall n nd, s_node S n = Some nd -> node_def S n <> [] ->
    is_name (node_def S n) = true /\ getDEF (s_defs S) (node_def S n) = Some n;
  wf_table : NoDup (map fst (defs (s_defs S)));
  (* nodes without name occur once; a routed node gets a name *)
  wf_shared : forall n, count_occ Nat.eq_dec (all_refs P protos S) n <= 1 \/ node_def S n <> [] \/ routed S n;
  wf_routes : forall r, In r (s_routes S) ->
    reach P protos S (fst (fst r)) /\ reach P protos S (fst (snd r)) /\
    is_name (snd (fst r)) = true /\ is_name (snd (snd r)) = true
}.
Arguments wf_ids {okv}. Arguments wf_kids {okv}. Arguments wf_nodes {okv}. Arguments wf_names {okv}.
Arguments wf_table {okv}. Arguments wf_shared {okv}. Arguments wf_routes {okv}.
Definition wf_scene (P : prims) (protos : list (text * list fdecl)) (S : scene) : Prop := wf_scene_with ok_value P protos S.

(** *** the same, with string lists of any kind *)
(** string lists may also be declared with a plain string as default *)
Definition held_decl (f : fdecl) : Prop :=
  safe_name (f_name f) = true /\
  match f_kind f with
  | KVal t d => readable t = true /\ (ok_default t d \/ (t = MFString /\ exists s, d = PStr s))
  | _ => True
  end.
Definition held (S : scene) (f : fdecl) (v : val) : Prop :=
  match f_kind f, v with
  | KVal t d, VPv v => stored t v /\ finite v
  | KNode, VRef r => r = RNull \/ is_node S r
  | KNodes _, VRefs l => Forall (is_node S) l
  | _, _ => False
  end.
(** node [n] holds a string list that is neither empty nor left out *)
Definition holds_strings P protos (S : scene) (n : nat) : Prop :=
  exists nd fs f x l, s_node S n = Some nd /\ proto protos (n_gi nd) = Some fs /\ In f fs /\
    fget P S n f = Ok (VPv (PSeq KList (x :: l))) /\ dropped f (VPv (PSeq KList (x :: l))) = Ok false.

(** settings of the writer: what is written between the tokens separates them,
    and every element starts on a new line *)
Definition ok_settings (st : settings) : Prop :=
  ok_lv (l_lv st) /\ sep_text (l_courtesy st) /\ exists w, l_fes st = 10%N :: w /\ sep_text w.

(** *** DEF before USE: the names in the order of the text; in a Script the
    declarations come before the attributes *)
Inductive occ := ODef (nm : text) | OUse (nm : text).
Fixpoint occs (i : sitem) : list occ :=
  match i with
  | SUse nm => [OUse nm]
  | SNode d _ l => (match d with Some nm => [ODef nm] | None => [] end) ++
                   flat_map (fun p => match snd p with SVal its => flat_map occs its | SIs _ => [] end) l
  | SScript d l => (match d with Some nm => [ODef nm] | None => [] end) ++
                   flat_map (fun e => match e with SSField _ _ _ (SVal its) => flat_map occs its | _ => [] end) l ++
                   flat_map (fun e => match e with SSAttr _ (SVal its) => flat_map occs its | _ => [] end) l
  | _ => []
  end.
Definition occs_root (r : sroot) : list occ :=
  match r with
  | SRItem i => occs i
  | SRRoute a _ b _ => [OUse a; OUse b]
  | SRProto _ _ _ | SRExtern _ _ _ => []
  end.
Definition defined_before_use (l : list occ) : Prop :=
  forall pre nm post, l = pre ++ OUse nm :: post -> In (ODef nm) pre.
Definition defined_once (l : list occ) : Prop :=
  forall pre nm post, l = pre ++ ODef nm :: post -> ~ In (ODef nm) post.
