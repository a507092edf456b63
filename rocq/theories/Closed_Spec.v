(** Scenes without dangling references. *)
From Coq Require Import Reals SpecFloat.
From Flocq Require Import Core.Core IEEE754.BinarySingleNaN.
From Verif Require Import Base Text PyDict Float Coerce_Model SceneGraph_Model VrmlStr_Model VrmlStr_Spec Scene_Model.
Local Open Scope nat_scope.
Local Open Scope list_scope.

Definition node_in (S : scene) (n : nat) : Prop := exists nd, s_node S n = Some nd.
Definition ref_in (S : scene) (r : nref) : Prop := match r with RNull => True | Scene_Model.RNode n => node_in S n end.
(** the value may be held by the field: in the storage format of its type *)
Definition fits (S : scene) (f : fdecl) (v : val) : Prop :=
  match f_kind f, v with
  | KVal t _, VPv u => finite u -> stored t u
  | KNode, VRef r => ref_in S r
  | KNodes _, VRefs l => Forall (ref_in S) l
  | _, _ => False
  end.
(** all nodes mentioned are in the scene, are of the types in [tys] or Scripts,
    and hold values only in the fields of their type or of the Script; names lead to nodes of that name,
    the last one; every name of a node leads somewhere, and is in the table once *)
Record closed (tys : list (text * list fdecl)) (S : scene) : Prop := {
  cl_ids : forall n, node_in S n <-> n < s_next S;
  cl_nodes : forall n nd, s_node S n = Some nd -> exists fs, node_fields tys nd = Some fs /\
    forall nm v, dget text_eqb (n_vals nd) nm = Some v -> exists f, In f fs /\ f_name f = nm /\ fits S f v;
  cl_mems : forall n nd nm ex k l, s_node S n = Some nd -> In (nm, SMField ex k l) (n_mem nd) ->
    n_gi nd = script_gi /\ Forall (ref_in S) l;
  cl_kids : Forall (ref_in S) (s_kids S);
  cl_routes : forall r, In r (s_routes S) -> node_in S (fst (fst r)) /\ node_in S (fst (snd r));
  cl_is : forall pn xs x, In (pn, xs) (s_is S) -> In x xs -> node_in S (fst x);
  cl_names : forall nm n, nm <> [] -> getDEF (s_defs S) nm = Some n -> node_in S n /\ node_def S n = nm;
  cl_last : forall n, node_def S n <> [] -> exists m, getDEF (s_defs S) (node_def S n) = Some m /\ n <= m;
  cl_table : NoDup (map fst (defs (s_defs S)))
}.
(** the same for the PROTOs of a scene, in the order of their declarations: the
    body of each sees the PROTOs declared inside it, and those declared before *)
Inductive closed_protos (base : list (text * list fdecl)) : list (text * pdef) -> list (text * pdef) -> Prop :=
| cp_nil e : closed_protos base e []
| cp_snoc e tab gi mem inner body : closed_protos base e tab ->
    closed_protos base (tab ++ e) inner -> closed (types base (inner ++ tab ++ e)) body ->
    closed_protos base e (tab ++ [(gi, PDef mem inner body)])
| cp_ext e tab gi mem url : closed_protos base e tab -> closed_protos base e (tab ++ [(gi, PExt mem url)]).
