(** C93: the scene read from a file is a mirror of its text. *)
From Coq Require Import Reals SpecFloat.
From Flocq Require Import Core.Core IEEE754.BinarySingleNaN.
From Verif Require Import Base Text PyDict PyDict_Proofs Float Coerce_Model Coerce_Spec Grammar_Model Grammar_Proofs Lex_Spec Lex_Proofs
  Doc_Spec Doc_Proofs SceneGraph_Model VrmlStr_Model VrmlStr_Proofs VrmlStr_Values Scene_Model Scene_Spec Build_Model Reading_Spec Reading_Proofs Reading_Facts
  Closed_Spec Closed_Proofs StdNodes Std_Proofs P_VrmlStr P_Grammar P_Linearise P_Scene P_Reading Script_Spec P_Script Tree_Spec Tree_Proofs.
Local Open Scope nat_scope.
Local Open Scope list_scope.

(** C93.  Every file that can be read: the children of the scene are, one by one,
    the entries of the text; in each of them, to any depth, the nodes stand at the places where the
    text has them, with type and name, with the last value the text gives for each field and no
    other; Scripts at any depth have what they declare and are given; USE stands for a node
    so named; the bodies of all PROTOs, also of those in PROTOs, mirror the text in the same
    way.  Fields of PROTO instances that stand for fields in the body are left out (C70). *)
Theorem C93_scenes_mirror_the_text : forall P base d tab S, ok_doc d -> tidy_doc d ->
  loads P base (show_doc d) (Ok (tab, S)) -> mirrors P base false [] (sk_doc d) tab S.
Proof.
  intros P base d tab S Ok Ti L. destruct (C66_reading_is_faithful P base d tab S Ok Ti L) as (st & R & Ds).
  exact (file_mirrors P base (sk_doc d) tab st S R Ds (doc_deep d Ok)).
Qed.
Print Assumptions C93_scenes_mirror_the_text.

(** *** the same, for a place in the tree: the path from the top of the text to an
    entry, by attributes of nodes and by positions, leads from the top of the scene to the node
    that stands for it *)
Inductive within : sitem -> list (text * nat) -> sitem -> Prop :=
| wi_here i : within i [] i
| wi_step d gi l x its k i p j : last_value l x = Some its -> nth_error its k = Some i -> within i p j ->
    within (SNode d gi l) ((x, k) :: p) j.
(** entry [k] of what field [x] of the node holds *)
Definition held (S : scene) (r : nref) (x : text) (k : nat) : option nref :=
  match r with
  | RNull => None
  | RNode n => match s_node S n with
               | Some nd => match dget text_eqb (n_vals nd) x with
                            | Some (VRef r) => nth_error [r] k
                            | Some (VRefs l) => nth_error l k
                            | _ => None
                            end
               | None => None
               end
  end.
Fixpoint follow (S : scene) (r : nref) (p : list (text * nat)) : option nref :=
  match p with
  | [] => Some r
  | (x, k) :: p => match held S r x k with Some r' => follow S r' p | None => None end
  end.
(** the fields on the path are fields for nodes (with more than one entry only in
    fields for several nodes), not shared with other instances *)
Inductive clear_path (P : prims) (base : list (text * list fdecl)) (tab : list (text * pdef)) : sitem -> list (text * nat) -> Prop :=
| cp_here i : clear_path P base tab i []
| cp_step d gi l x its k i p fs f : last_value l x = Some its -> nth_error its k = Some i -> nodeish i = true ->
    ~ shared tab gi x -> proto (types base tab) gi = Some fs -> NoDup (map f_name fs) -> In f fs -> f_name f = x ->
    match f_kind f with KNode => k = 0 | KNodes _ => True | KVal _ _ => False end ->
    clear_path P base tab i p -> clear_path P base tab (SNode d gi l) ((x, k) :: p).
Lemma nth_placed P base T inp S l rs : placed_all P base T inp S l rs -> forall k i, nth_error l k = Some i -> exists r, nth_error rs k = Some r /\ placed P base T inp S i r.
Proof.
  induction 1 as [|i r l rs H _ IH]; intros [|k] j E; try discriminate; [injection E as <-; exists r; split; [reflexivity|exact H]|exact (IH k j E)].
Qed.
Lemma same_field (fs : list fdecl) f g : NoDup (map f_name fs) -> In f fs -> In g fs -> f_name f = f_name g -> f = g.
Proof. intros N A B E. pose proof (find_nodup fs f N A) as X. pose proof (find_nodup fs g N B) as Y. rewrite E in X. congruence. Qed.
Lemma plain_nodeish i : plain i = true -> nodeish i = true -> i = SNull.
Proof. destruct i; try discriminate; reflexivity. Qed.
Lemma followed P base T inp S p : forall i r j, placed P base T inp S i r -> clear_path P base T i p -> within i p j ->
  (exists r', follow S r p = Some r' /\ placed P base T inp S j r') \/ j = SNull.
Proof.
  induction p as [|[x k] p IH]; intros i r j Pl C W.
  - inversion W; subst. left. exists r. split; [reflexivity|exact Pl].
  - inversion W as [|d gi l x' its k' i' p' j' E1 E2 W']; subst. inversion C as [|d' gi' l' x' its' k' i2 p' fs f C1 C2 C3 C4 C5 C6 C7 C8 C9 C10]; subst.
    assert (its' = its) as -> by congruence. assert (i2 = i') as -> by congruence.
    inversion Pl as [| |? ? ? n nd fs' N1 N2 N3 N4 N5 N6 N7 N8|]; subst. assert (fs' = fs) as -> by congruence.
    destruct (N8 _ _ C4 C1) as (g & v & G1 & G2 & G3 & G4). assert (g = f) as -> by (apply (same_field fs); congruence).
    cbn [follow held]. rewrite N1, G3. destruct (f_kind f) as [t dd| |o] eqn:K; [contradiction| |].
    + subst k. inversion G4; subst. cbn [nth_error] in *. injection E2 as <-. eauto.
    + inversion G4 as [| |? ? rs Pa|? ? Pp]; subst.
      * destruct (nth_placed _ _ _ _ _ _ _ Pa k i' E2) as (r' & E3 & Pr). rewrite E3. eauto.
      * assert (plain i' = true) as Pi by (rewrite forallb_forall in Pp; apply Pp; eapply nth_error_In; eassumption).
        pose proof (plain_nodeish _ Pi C3) as ->. destruct p as [|[]]; inversion W'; subst; auto.
Qed.
Theorem C93_paths_lead_to_the_nodes : forall P base d tab S k i p j, ok_doc d -> tidy_doc d ->
  loads P base (show_doc d) (Ok (tab, S)) -> nth_error (top_items (sk_doc d)) k = Some i ->
  clear_path P base tab i p -> within i p j -> j <> SNull ->
  exists r r', nth_error (s_kids S) k = Some r /\ follow S r p = Some r' /\ placed P base tab false S j r'.
Proof.
  intros P base d tab S k i p j Ok Ti L Ei C W N. pose proof (C93_scenes_mirror_the_text P base d tab S Ok Ti L) as M. inversion M as [? ? ? ? ? Pa _]; subst. rewrite app_nil_r in Pa.
  destruct (nth_placed _ _ _ _ _ _ _ Pa k i Ei) as (r & Er & Pr). destruct (followed _ _ _ _ _ p i r j Pr C W) as [(r' & F & Pj)|Q]; [|contradiction].
  exists r, r'. auto.
Qed.
Print Assumptions C93_paths_lead_to_the_nodes.

(** *** DEF and USE *)
Definition def_of (i : sitem) : option text := match i with SNode d _ _ => d | SScript d _ => d | _ => None end.
Definition defs (nm : text) (l : list occ) : nat := List.length (filter (fun o => match o with ODef x => text_eqb x nm | OUse _ => false end) l).
Section Named.
Variable nm : text.
Hypothesis Nn : nm <> [].
Definition cnt (st : rstate) : nat := List.length (filter (fun x => text_eqb (snd x) nm) (r_nodes st)).
Lemma defs_app a b : defs nm (a ++ b) = defs nm a + defs nm b.
Proof. unfold defs. rewrite filter_app, app_length. reflexivity. Qed.
Lemma cnt_same st st' : r_nodes st' = r_nodes st -> cnt st' = cnt st.
Proof. intros E. unfold cnt. rewrite E. reflexivity. Qed.
Lemma cnt_enter d gi st : cnt (enter_node d gi st) <= cnt st + defs nm (match d with Some x => [ODef x] | None => [] end).
Proof.
  unfold cnt, defs. cbn [enter_node r_nodes]. rewrite filter_app, app_length. cbn [filter snd]. destruct d as [x|]; cbn [filter].
  - destruct (text_eqb x nm); cbn; lia.
  - destruct (text_eqb [] nm) eqn:E; [apply text_eqb_spec in E; congruence|cbn; lia].
Qed.
Lemma nodes_maps n ms st : r_nodes (with_maps n ms st) = r_nodes st.
Proof. revert st. unfold with_maps. induction ms as [|m ms IH]; intros st; [reflexivity|]. cbn [fold_left]. rewrite IH. reflexivity. Qed.
Lemma nodes_set e n gi f v st : r_nodes (set_value e n gi f v st) = r_nodes st.
Proof. unfold set_value. destruct (passed_on e gi f); reflexivity. Qed.
Theorem counted P base inp e :
  (forall st i st' r, item_reads P base inp e st i st' r -> cnt st' <= cnt st + defs nm (occs i)) /\
  (forall st l st' rs, items_read P base inp e st l st' rs -> cnt st' <= cnt st + defs nm (flat_map occs l)) /\
  (forall n gi fs st l st', attrs_read P base inp e n gi fs st l st' -> cnt st' <= cnt st + defs nm (flat_map attr_occs l)) /\
  (forall st f its st' v, value_reads P base inp e st f its st' v -> cnt st' <= cnt st + defs nm (flat_map occs its)) /\
  (forall st ex ty its st' m, member_reads P base inp e st ex ty its st' m -> cnt st' <= cnt st + defs nm (flat_map occs its)) /\
  (forall n st ms l st' ms', sdecls_read P base inp e n st ms l st' ms' -> cnt st' <= cnt st + defs nm (flat_map decl_occs l)) /\
  (forall n st l st', sattrs_read P base inp e n st l st' -> cnt st' <= cnt st + defs nm (flat_map sattr_occs l)).
Proof.
  apply item_reads_all; cbn [occs flat_map]; intros; rewrite ?defs_app; try lia.
  all: try (repeat match goal with
    | H : context [cnt (set_value ?e ?n ?gi ?f ?v ?st)] |- _ => rewrite (cnt_same st _ (nodes_set e n gi f v st)) in H
    | H : context [cnt (with_is ?a ?b ?c ?st)] |- _ => change (cnt (with_is a b c st)) with (cnt st) in H
    | H : context [cnt (with_member ?a ?b ?c ?st)] |- _ => change (cnt (with_member a b c st)) with (cnt st) in H
    | H : context [cnt (with_sets ?a ?st)] |- _ => change (cnt (with_sets a st)) with (cnt st) in H
    | |- context [attr_occs (?a, SVal ?b)] => change (attr_occs (a, SVal b)) with (flat_map occs b)
    | |- context [decl_occs (SSField ?a ?b ?c (SVal ?d))] => change (decl_occs (SSField a b c (SVal d))) with (flat_map occs d)
    | |- context [sattr_occs (SSAttr ?a (SVal ?d))] => change (sattr_occs (SSAttr a (SVal d))) with (flat_map occs d)
    end; lia).
  - match goal with H : context [cnt (enter_node ?d ?gi ?st)] |- _ => pose proof (cnt_enter d gi st) end.
    change (fun p : text * sval => match snd p with SVal its => flat_map occs its | SIs _ => [] end) with attr_occs. lia.
  - match goal with H : context [cnt (enter_node ?d ?gi ?st)] |- _ => pose proof (cnt_enter d gi st) end.
    match goal with H : context [cnt (with_maps ?n ?ms ?st)] |- _ => rewrite (cnt_same st (with_maps n ms st) (nodes_maps n ms st)) in H end.
    change (fun e0 : ssel => match e0 with SSField _ _ _ (SVal its) => flat_map occs its | _ => [] end) with decl_occs.
    change (fun e0 : ssel => match e0 with SSAttr _ (SVal its) => flat_map occs its | _ => [] end) with sattr_occs. lia.
Qed.
Lemma counted_roots P base inp e s l s' : roots_read P base inp e s l s' -> cnt (snd s') <= cnt (snd s) + defs nm (flat_map occs_root l).
Proof.
  induction 1 as [|inp e s r s1 l s' H _ IH]; [lia|]. cbn [flat_map]. rewrite defs_app.
  assert (cnt (snd s1) <= cnt (snd s) + defs nm (occs_root r)); [|lia].
  inversion H as [? ? ? ? i st' r' Hi| | |]; subst; cbn [snd]; [|change (cnt (with_route _ ?x)) with (cnt x); lia|lia|lia].
  destruct (counted P base inp (tab ++ e)) as (C & _). specialize (C _ _ _ _ Hi). change (cnt (with_kid r' st')) with (cnt st'). cbn [occs_root]. lia.
Qed.
End Named.
Lemma filter_two {A} (f : A -> bool) l n m x y : nth_error l n = Some x -> nth_error l m = Some y -> f x = true -> f y = true -> n < m -> 2 <= List.length (filter f l).
Proof.
  revert n m. induction l as [|a l IH]; intros [|n] [|m] E1 E2 F1 F2 L; try discriminate; try lia.
  - injection E1 as ->. cbn [filter]. rewrite F1. cbn [List.length]. cbn [nth_error] in E2. apply nth_error_In in E2. assert (In y (filter f l)) by (apply filter_In; auto). destruct (filter f l); [contradiction|cbn; lia].
  - cbn [filter]. assert (2 <= List.length (filter f l)) by (apply (IH n m E1 E2 F1 F2); lia). destruct (f a); cbn [List.length]; lia.
Qed.
Lemma one_named nm st S n m nd nd' : describes st S -> cnt nm st <= 1 -> s_node S n = Some nd -> s_node S m = Some nd' -> node_def S n = nm -> node_def S m = nm -> n = m.
Proof.
  intros D C N M En Em. assert (X : forall k ndk, s_node S k = Some ndk -> node_def S k = nm -> exists x, nth_error (r_nodes st) k = Some x /\ text_eqb (snd x) nm = true).
  { intros k ndk K E. destruct (nth_error (r_nodes st) k) as [[gi d]|] eqn:Q.
    - exists (gi, d). split; [reflexivity|]. destruct (ds_node st S D k gi d Q) as (? & _ & _ & Ed & _). cbn [snd]. apply text_eqb_spec. congruence.
    - apply nth_error_None in Q. destruct (ds_none st S D k Q) as [K' _]. congruence. }
  destruct (X n nd N En) as (x & Hx & Fx). destruct (X m nd' M Em) as (y & Hy & Fy). unfold cnt in C.
  destruct (Nat.lt_trichotomy n m) as [L|[L|L]]; [|exact L|]; exfalso.
  - pose proof (filter_two (fun x => text_eqb (snd x) nm) _ n m x y Hx Hy Fx Fy L). lia.
  - pose proof (filter_two (fun x => text_eqb (snd x) nm) _ m n y x Hy Hx Fy Fx L). lia.
Qed.
Lemma placed_named P base T inp S j r nm : placed P base T inp S j r -> def_of j = Some nm -> exists n nd, r = RNode n /\ s_node S n = Some nd /\ node_def S n = nm.
Proof. intros H E. inversion H; subst; cbn [def_of] in E; try discriminate; subst; cbn [name_of] in *; eauto. Qed.
(** a name that is given once in the scene: wherever in the text the name is
    defined, and wherever it is used, it is the same node *)
Theorem C93_use_is_the_node_defined : forall P base d tab S nm k i p j k2 i2 p2, ok_doc d -> tidy_doc d ->
  loads P base (show_doc d) (Ok (tab, S)) -> nm <> [] -> defs nm (flat_map occs_root (sk_doc d)) = 1 ->
  nth_error (top_items (sk_doc d)) k = Some i -> clear_path P base tab i p -> within i p j -> def_of j = Some nm ->
  nth_error (top_items (sk_doc d)) k2 = Some i2 -> clear_path P base tab i2 p2 -> within i2 p2 (SUse nm) ->
  exists n r r2, nth_error (s_kids S) k = Some r /\ nth_error (s_kids S) k2 = Some r2 /\
    follow S r p = Some (RNode n) /\ follow S r2 p2 = Some (RNode n) /\ placed P base tab false S j (RNode n).
Proof.
  intros P base d tab S nm k i p j k2 i2 p2 Ok Ti L Nn One E1 C1 W1 Dj E2 C2 W2.
  assert (Nj : j <> SNull) by (intros ->; discriminate Dj).
  destruct (C93_paths_lead_to_the_nodes P base d tab S k i p j Ok Ti L E1 C1 W1 Nj) as (r & r' & K1 & F1 & P1).
  destruct (C93_paths_lead_to_the_nodes P base d tab S k2 i2 p2 (SUse nm) Ok Ti L E2 C2 W2 ltac:(discriminate)) as (r2 & r2' & K2 & F2 & P2).
  destruct (placed_named _ _ _ _ _ _ _ _ P1 Dj) as (n & nd & -> & N1 & D1). inversion P2 as [|? m nd' N2 D2| |]; subst.
  destruct (C66_reading_is_faithful P base d tab S Ok Ti L) as (st & R & Ds).
  assert (C : cnt (node_def S n) st <= 1) by (pose proof (counted_roots (node_def S n) Nn _ _ _ _ _ _ _ R) as Q; cbn [snd] in Q; rewrite One in Q; exact Q).
  assert (m = n) as -> by (eapply one_named; eauto).
  exists n, r, r2. repeat (split; [assumption|]). assumption.
Qed.
Print Assumptions C93_use_is_the_node_defined.

(** *** a concrete document
    PROTO Hut [ ] { Group { children DEF H Script { field SFNode inside DEF I Group { } } } }
    Group { children [ Hut { } DEF B Script { field SFFloat speed 2 } Transform { translation 1 2 3 children USE B } ] } *)
Definition hut_script : Doc_Spec.node := Sc (Some (lit " ", lit "H", lit " ")) (lit " ") (lit " ")
  (EField false (lit " ") (lit "SFNode") (lit " ") (lit "inside") (lit " ")
     (FPl (SCons (INode (Nd (Some (lit " ", lit "I", lit " ")) (lit "Group") (lit " ") (lit " ") ANil)) (lit " ") SNil)) ENil).
Definition b_script : Doc_Spec.node := Sc (Some (lit " ", lit "B", lit " ")) (lit " ") (lit " ")
  (EField false (lit " ") (lit "SFFloat") (lit " ") (lit "speed") (lit " ") (FPl (num "2")) ENil).
Definition wheel : Doc_Spec.node := Nd None (lit "Transform") (lit " ") (lit " ")
  (ACons (lit "translation") (lit " ") (FPl (SCons (INum (lit "1")) (lit " ") (SCons (INum (lit "2")) (lit " ") (SCons (INum (lit "3")) (lit " ") SNil))))
  (ACons (lit "children") (lit " ") (FPl (SCons (IUse (lit " ") (lit "B")) (lit " ") SNil)) ANil)).
Definition yard : doc := Doc (lit "#VRML V2.0 utf8") [10%N]
  (RCons (RProto (lit " ") (lit "Hut") (lit " ") (lit " ") [] (lit " ") (lit " ")
     (RCons (Doc_Spec.RNode (Nd None (lit "Group") (lit " ") (lit " ") (ACons (lit "children") (lit " ") (FPl (SCons (INode hut_script) (lit " ") SNil)) ANil))) (lit " ") RNil)) (lit " ")
  (RCons (Doc_Spec.RNode (Nd None (lit "Group") (lit " ") (lit " ") (ACons (lit "children") (lit " ")
     (FBr (lit " ") (SCons (INode (Nd None (lit "Hut") (lit " ") (lit " ") ANil)) (lit " ") (SCons (INode b_script) (lit " ") (SCons (INode wheel) (lit " ") SNil))) (lit " ")) ANil))) (lit " ") RNil)).
Example yard_ok : ok_doc yard /\ tidy_doc yard.
Proof.
  split; [|reflexivity]. cbn [ok_doc yard]. split; [dnin|]. split; [dsep|]. split; [|eauto].
  cbn -[ok_type is_name safe_name decl_like]. repeat split; try discriminate; try reflexivity; try dsep; try (left; eexists; split; reflexivity).
  all: try (apply (num_plain [] (lit "2")); reflexivity).
  all: try (apply (num_plain [] (lit "1")); reflexivity).
  all: try (apply (num_plain [] (lit "3")); reflexivity).
  all: repeat constructor; dsep.
Qed.

(** the theorem applies; by evaluation, the second child of the Group is node 2, a Script, and is the
    child of the third; the body of the PROTO has a Script that holds node 2 of the body, named I *)
Example yard_read : exists tab S0, loads P_ex std_protos (show_doc yard) (Ok (tab, S0)) /\
  mirrors P_ex std_protos false [] (sk_doc yard) tab S0 /\
  match s_kids S0 with
  | [g] => follow S0 g [(lit "children", 1)] = Some (RNode 2) /\ follow S0 g [(lit "children", 2); (lit "children", 0)] = Some (RNode 2) /\
           option_map n_gi (s_node S0 2) = Some (lit "Script") /\ node_def S0 2 = lit "B" /\
           match dget text_eqb tab (lit "Hut") with
           | Some p => map (fun r => follow (p_body p) r [(lit "children", 0)]) (s_kids (p_body p)) = [Some (RNode 1)] /\
                       option_map (fun nd => dget text_eqb (n_mem nd) (lit "inside")) (s_node (p_body p) 1) = Some (Some (SMField false KNode [RNode 2])) /\
                       node_def (p_body p) 2 = lit "I"
           | None => False
           end
  | _ => False
  end.
Proof.
  destruct (file_of (show_doc yard)) as [[tab S0]|] eqn:E; [|exfalso; apply (f_equal (fun r => match r with Ok _ => true | _ => false end)) in E; vm_compute in E; discriminate E].
  pose proof (file_of_loads _ _ E) as L. destruct yard_ok as [Ok Ti]. exists tab, S0. split; [exact L|].
  split; [exact (C93_scenes_mirror_the_text _ _ _ _ _ Ok Ti L)|].
  pose (facts := fun r : res (list (text * pdef) * scene) => match r with
    | Base.Ok (tab, S0) =>
        match s_kids S0 with
        | [g] => follow S0 g [(lit "children", 1)] = Some (RNode 2) /\ follow S0 g [(lit "children", 2); (lit "children", 0)] = Some (RNode 2) /\
           option_map n_gi (s_node S0 2) = Some (lit "Script") /\ node_def S0 2 = lit "B" /\
           match dget text_eqb tab (lit "Hut") with
           | Some p => map (fun r => follow (p_body p) r [(lit "children", 0)]) (s_kids (p_body p)) = [Some (RNode 1)] /\
                       option_map (fun nd => dget text_eqb (n_mem nd) (lit "inside")) (s_node (p_body p) 1) = Some (Some (SMField false KNode [RNode 2])) /\
                       node_def (p_body p) 2 = lit "I"
           | None => False
           end
        | _ => False
        end
    | _ => False end).
  assert (F : facts (file_of (show_doc yard))) by (vm_compute; repeat split). destruct (file_of (show_doc yard)) as [[t s]|]; [|discriminate E]. injection E as -> ->. exact F.
Qed.

(** DEF B and USE B are the same node, by the theorem *)
Example yard_use : exists tab S0 n g, loads P_ex std_protos (show_doc yard) (Ok (tab, S0)) /\ s_kids S0 = [g] /\
  follow S0 g [(lit "children", 1)] = Some (RNode n) /\ follow S0 g [(lit "children", 2); (lit "children", 0)] = Some (RNode n).
Proof.
  destruct (file_of (show_doc yard)) as [[tab S0]|] eqn:E; [|exfalso; apply (f_equal (fun r => match r with Ok _ => true | _ => false end)) in E; vm_compute in E; discriminate E].
  pose proof (file_of_loads _ _ E) as L. destruct yard_ok as [Ok Ti].
  assert (Q : map fst tab = [lit "Hut"] /\ exists g, s_kids S0 = [g]).
  { pose (facts := fun r : res (list (text * pdef) * scene) => match r with Base.Ok (tab, S0) => map fst tab = [lit "Hut"] /\ exists g, s_kids S0 = [g] | _ => False end).
    assert (F : facts (file_of (show_doc yard))) by (vm_compute; eauto). rewrite E in F. exact F. }
  destruct Q as (Qt & g & Qg). clear E. destruct tab as [|[h p] [|]]; [discriminate Qt| |discriminate Qt]. injection Qt as ->.
  assert (Pg : forall gi fs x k i q d l, gi <> lit "Hut" -> proto std_protos gi = Some fs -> NoDup (map f_name fs) -> In (mkfd x (KNodes true)) fs \/ In (mkfd x (KNodes false)) fs ->
    forall its, last_value l x = Some its -> nth_error its k = Some i -> nodeish i = true -> clear_path P_ex std_protos [(lit "Hut", p)] i q ->
    clear_path P_ex std_protos [(lit "Hut", p)] (SNode d gi l) ((x, k) :: q)).
  { intros gi fs x k i q d l Ng Pr Nd Hf its V1 V2 V3 Cp.
    assert (Hg : text_eqb (lit "Hut") gi = false) by (destruct (text_eqb (lit "Hut") gi) eqn:T; [apply text_eqb_spec in T; congruence|reflexivity]).
    assert (Pr' : proto (types std_protos [(lit "Hut", p)]) gi = Some fs).
    { unfold proto, types in *. cbn [map app dget fst snd]. rewrite Hg. exact Pr. }
    assert (Sh : ~ shared [(lit "Hut", p)] gi x) by (intros (pp & xs & D & _); cbn [dget] in D; rewrite Hg in D; discriminate D).
    destruct Hf as [Hf|Hf]; [exact (cp_step P_ex std_protos [(lit "Hut", p)] d gi l x its k i q fs _ V1 V2 V3 Sh Pr' Nd Hf eq_refl Logic.I Cp)|
      exact (cp_step P_ex std_protos [(lit "Hut", p)] d gi l x its k i q fs _ V1 V2 V3 Sh Pr' Nd Hf eq_refl Logic.I Cp)]. }
  assert (FG : exists fs, proto std_protos (lit "Group") = Some fs /\ NoDup (map f_name fs) /\ (In (mkfd (lit "children") (KNodes true)) fs \/ In (mkfd (lit "children") (KNodes false)) fs)).
  { eexists. split; [vm_compute; reflexivity|]. split; [repeat constructor; cbn; intuition discriminate|]. vm_compute; intuition. }
  assert (FT : exists fs, proto std_protos (lit "Transform") = Some fs /\ NoDup (map f_name fs) /\ (In (mkfd (lit "children") (KNodes true)) fs \/ In (mkfd (lit "children") (KNodes false)) fs)).
  { eexists. split; [vm_compute; reflexivity|]. split; [repeat constructor; cbn; intuition discriminate|]. vm_compute; intuition. }
  destruct FG as (fg & G1 & G2 & G3). destruct FT as (ft & T1 & T2 & T3).
  pose (top := nth 0 (top_items (sk_doc yard)) SNull). assert (Et : nth_error (top_items (sk_doc yard)) 0 = Some top) by reflexivity.
  destruct (C93_use_is_the_node_defined P_ex std_protos yard [(lit "Hut", p)] S0 (lit "B") 0 top [(lit "children", 1)] (sk_node b_script) 0 top [(lit "children", 2); (lit "children", 0)])
    as (n & r & r2 & K1 & K2 & F1 & F2 & _); [exact Ok|exact Ti|exact L|discriminate|vm_compute; reflexivity|exact Et| | |reflexivity|exact Et| | |].
  - eapply Pg; [discriminate|exact G1|exact G2|exact G3|reflexivity|reflexivity|reflexivity|constructor].
  - eapply wi_step; [reflexivity|reflexivity|constructor].
  - eapply Pg; [discriminate|exact G1|exact G2|exact G3|reflexivity|reflexivity|reflexivity|].
    eapply Pg; [discriminate|exact T1|exact T2|exact T3|reflexivity|reflexivity|reflexivity|constructor].
  - eapply wi_step; [reflexivity|reflexivity|]. eapply wi_step; [reflexivity|reflexivity|constructor].
  - exists [(lit "Hut", p)], S0, n, g. rewrite Qg in K1, K2. injection K1 as <-. injection K2 as <-. auto.
Qed.
