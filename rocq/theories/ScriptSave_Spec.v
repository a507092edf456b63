(** Scripts that can be saved. *)
From Coq Require Import Reals SpecFloat.
From Verif Require Import Base Text PyDict Float Coerce_Model Coerce_Spec Lex_Spec SceneGraph_Model VrmlStr_Model VrmlStr_Spec Scene_Model Scene_Spec Reading_Spec.
Local Open Scope nat_scope.
Local Open Scope list_scope.

(** a declaration: a name that can be written, not one that all Scripts have;
    the default is a value of the type, NULL or no nodes *)
Definition ok_member (P : prims) (x : text * smember) : Prop :=
  is_name (fst x) = true /\ free_event (fst x) /\
  match snd x with
  | SMEvent _ ty => kind_of ty <> None
  | SMField _ (KVal t d) _ => readable t = true /\ exists v, coerce P t d = Ok v /\ stored t v /\ finite v
  | SMField _ KNode l => l = [RNull]
  | SMField _ (KNodes _) l => l = []
  end.
Definition url_attr : fdecl := mkfd (lit "url") (KVal MFString (PSeq KList [])).
Definition flag (nm : text) : fdecl := mkfd nm (KVal SFBool (PInt 0)).
Definition flags : list text := [lit "directOutput"; lit "mustEvaluate"].
Definition truth (b : bool) : val := VPv (PInt (if b then 1 else 0)).
(** a Script all of whose declarations can be written; its flags are truth
    values; its sources are [urls] *)
Record ok_script (P : prims) (S : scene) (n : nat) (nd : snode) (urls : list text) : Prop := {
  sc_node : s_node S n = Some nd;
  sc_gi : n_gi nd = lit "Script";
  sc_def : node_def S n = [] \/ is_name (node_def S n) = true;
  sc_once : NoDup (map fst (n_mem nd));
  sc_mem : Forall (ok_member P) (n_mem nd);
  sc_flags : forall nm, In nm flags -> exists b, script_fget P nd (flag nm) = Ok (truth b);
  sc_url : script_fget P nd url_attr = Ok (VPv (PSeq KList (map PStr urls)))
}.
(** the Script read from the file declares the same events and the same fields,
    of the same types; its fields hold the defaults *)
Definition same_script (P : prims) (nd nd' : snode) : Prop :=
  (forall x, match dget text_eqb (n_mem nd) x with
             | Some (SMEvent o ty) => dget text_eqb (n_mem nd') x = Some (SMEvent o ty)
             | Some (SMField ex (KVal t d) _) => exists d' dn, dget text_eqb (n_mem nd') x = Some (SMField ex (KVal t d') dn) /\
                 exists v, coerce P t d = Ok v /\ script_fget P nd' (mkfd x (KVal t d')) = Ok (VPv v)
             | Some (SMField ex KNode _) => dget text_eqb (n_mem nd') x = Some (SMField ex KNode [RNull])
             | Some (SMField ex (KNodes _) _) => dget text_eqb (n_mem nd') x = Some (SMField ex (KNodes false) [])
             | None => x <> lit "externalURL" -> dget text_eqb (n_mem nd') x = None
             end) /\
  (forall nm, In nm flags -> script_fget P nd' (flag nm) = script_fget P nd (flag nm)) /\
  script_fget P nd' url_attr = script_fget P nd url_attr.
