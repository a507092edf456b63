(** The builder reads what the document describes. *)
From Verif Require Import Base Text PyDict PyDict_Proofs Float Coerce_Model Grammar_Model Lex_Spec Lex_Proofs Doc_Spec Doc_Proofs SceneGraph_Model
  VrmlStr_Model VrmlStr_Values Scene_Model Build_Model Reading_Spec.
Local Open Scope nat_scope.
Local Open Scope list_scope.

(** *** induction over documents *)
Section SInd.
Variable Q : sitem -> Prop.
Hypothesis HNum : forall n, Q (SNum n).
Hypothesis HBool : forall b, Q (SBool b).
Hypothesis HNull : Q SNull.
Hypothesis HStr : forall b, Q (SStr b).
Hypothesis HUse : forall nm, Q (SUse nm).
Hypothesis HNode : forall d gi l, (forall nm its, In (nm, SVal its) l -> Forall Q its) -> Q (SNode d gi l).
Definition sel_its (x : ssel) : list sitem := match x with SSField _ _ _ (SVal its) | SSAttr _ (SVal its) => its | _ => [] end.
Hypothesis HScript : forall d l, (forall x, In x l -> Forall Q (sel_its x)) -> Q (SScript d l).
Fixpoint sitem_all (i : sitem) : Q i :=
  match i with
  | SNum n => HNum n | SBool b => HBool b | SNull => HNull | SStr b => HStr b | SUse nm => HUse nm
  | SNode d gi l => HNode d gi l
      ((fix go (l : list (text * sval)) : forall nm its, In (nm, SVal its) l -> Forall Q its :=
          match l with
          | [] => fun nm its H => False_ind _ H
          | (nm0, v) :: r => fun nm its H =>
              match H with
              | or_introl E =>
                  match v as v return (nm0, v) = (nm, SVal its) -> Forall Q its with
                  | SVal l0 => fun E =>
                      eq_ind l0 (Forall Q)
                        ((fix all (l : list sitem) : Forall Q l :=
                            match l with [] => Forall_nil _ | x :: r => Forall_cons _ (sitem_all x) (all r) end) l0) its
                        (match E in _ = p return (l0 = match snd p with SVal x => x | SIs _ => l0 end) with eq_refl => eq_refl end)
                  | SIs pn => fun E => match E in _ = p return match snd p with SVal _ => Forall Q its | SIs _ => True end with eq_refl => Logic.I end
                  end E
              | or_intror H' => go r nm its H'
              end
          end) l)
  | SScript d l => HScript d l
      ((fix go (l : list ssel) : forall x, In x l -> Forall Q (sel_its x) :=
          match l with
          | [] => fun x H => False_ind _ H
          | y :: r => fun x H =>
              match H with
              | or_introl E =>
                  eq_ind y (fun x => Forall Q (sel_its x))
                    (let all := fix all (l : list sitem) : Forall Q l :=
                       match l with [] => Forall_nil _ | x :: r => Forall_cons _ (sitem_all x) (all r) end in
                     match y as y return Forall Q (sel_its y) with
                     | SSField _ _ _ (SVal its) => all its
                     | SSAttr _ (SVal its) => all its
                     | _ => Forall_nil _
                     end) x E
              | or_intror H' => go r x H'
              end
          end) l)
  end.
End SInd.
Section RInd.
Variable Q : sroot -> Prop.
Hypothesis HItem : forall i, Q (SRItem i).
Hypothesis HRoute : forall a af b bf, Q (SRRoute a af b bf).
Hypothesis HProto : forall gi ds l, Forall Q l -> Q (SRProto gi ds l).
Hypothesis HExtern : forall gi ds url, Q (SRExtern gi ds url).
Fixpoint sroot_all (r : sroot) : Q r :=
  match r with
  | SRItem i => HItem i
  | SRRoute a af b bf => HRoute a af b bf
  | SRExtern gi ds url => HExtern gi ds url
  | SRProto gi ds l => HProto gi ds l ((fix all (l : list sroot) : Forall Q l :=
      match l with [] => Forall_nil _ | x :: r => Forall_cons _ (sroot_all x) (all r) end) l)
  end.
End RInd.

(** *** names are not empty *)
Definition given (nm : text) : bool := match nm with [] => false | _ => true end.
Fixpoint names_item (i : sitem) : bool :=
  match i with
  | SUse nm => given nm
  | SNode d _ l => match d with Some nm => given nm | None => true end &&
                   forallb (fun p => match snd p with SVal its => forallb names_item its | SIs _ => true end) l
  | SScript d l => match d with Some nm => given nm | None => true end &&
                   forallb (fun x => match x with SSField _ _ _ (SVal its) | SSAttr _ (SVal its) => forallb names_item its | _ => true end) l
  | _ => true
  end.
Definition names_sel (x : ssel) : bool :=
  match x with SSField _ _ _ (SVal its) | SSAttr _ (SVal its) => forallb names_item its | _ => true end.
Fixpoint names_root (r : sroot) : bool :=
  match r with
  | SRItem i => names_item i
  | SRRoute a _ b _ => given a && given b
  | SRProto _ ds l => forallb names_root l
  | SRExtern _ _ _ => true
  end.
Scheme item_m := Induction for item Sort Prop
with node_m := Induction for node Sort Prop
with attrs_m := Induction for attrs Sort Prop
with fieldv_m := Induction for fieldv Sort Prop
with items_m := Induction for items Sort Prop
with selems_m := Induction for selems Sort Prop.
Combined Scheme doc_mut from item_m, node_m, attrs_m, fieldv_m, items_m, selems_m.
Scheme root_m := Induction for root Sort Prop
with roots_m := Induction for roots Sort Prop.
Combined Scheme root_mut_all from root_m, roots_m.
Lemma is_name_given nm : is_name nm = true -> given nm = true.
Proof. destruct nm; [discriminate|reflexivity]. Qed.
Definition names_attr (p : text * sval) : bool := match snd p with SVal its => forallb names_item its | SIs _ => true end.
Lemma doc_names :
  (forall i k, ok_item i k -> names_item (sk_item i) = true) /\
  (forall n, ok_node n -> names_item (sk_node n) = true) /\
  (forall l k, ok_attrs l k -> forallb names_attr (sk_attrs l) = true) /\
  (forall f k, ok_field f k -> forallb names_item (sk_field f) = true) /\
  (forall l br k, ok_items br l k -> forallb names_item (sk_items l) = true) /\
  (forall l k, ok_selems l k -> forallb names_sel (sk_selems l) = true).
Proof.
  apply doc_mut; cbn [ok_item ok_node ok_attrs ok_field ok_items ok_selems sk_item sk_node sk_attrs sk_field sk_items sk_selems]; try (intros; reflexivity).
  - intros w nm k (_ & H & _). cbn. apply is_name_given. exact H.
  - intros n IH k H. exact (IH H).
  - intros d gi w1 w2 l IH (Hd & _ & _ & Hl). cbn [names_item]. fold names_attr. apply andb_true_iff. split; [|exact (IH _ Hl)].
    destruct d as [[[w nm] w']|]; [|reflexivity]. apply is_name_given. apply Hd.
  - intros d w1 w2 l IH (Hd & _ & _ & Hl). cbn [names_item]. fold names_sel. apply andb_true_iff. split; [|exact (IH _ Hl)].
    destruct d as [[[w nm] w']|]; [|reflexivity]. apply is_name_given. apply Hd.
  - intros nm w f IHf l IHl k (_ & _ & _ & Hf & Hl). cbn [forallb]. apply andb_true_iff. split; [exact (IHf _ Hf)|exact (IHl _ Hl)].
  - intros nm w w1 pn w2 l IHl k H. cbn [forallb]. apply (IHl k). apply H.
  - intros w l IH w' k (_ & _ & H). exact (IH _ _ H).
  - intros l IH k (_ & H). exact (IH _ _ H).
  - intros i IHi w l IHl br k (_ & Hi & _ & Hl). cbn [forallb]. apply andb_true_iff. split; [exact (IHi _ Hi)|exact (IHl _ _ Hl)].
  - intros ex w ty w1 nm w2 f IHf l IHl k (_ & _ & Hf & Hl). cbn [forallb]. apply andb_true_iff. split; [exact (IHf _ Hf)|exact (IHl _ Hl)].
  - intros ex w ty w1 nm w2 w3 pn w4 l IHl k H. cbn [forallb]. apply (IHl k). apply H.
  - intros ex w ty w1 nm w2 l IHl k H. cbn [forallb]. apply (IHl k). apply H.
  - intros ex w ty w1 nm w2 w3 pn w4 l IHl k H. cbn [forallb]. apply (IHl k). apply H.
  - intros nm w f IHf l IHl k (_ & _ & _ & _ & Hf & Hl). cbn [forallb]. apply andb_true_iff. split; [exact (IHf _ Hf)|exact (IHl _ Hl)].
  - intros nm w w1 pn w2 l IHl k H. cbn [forallb]. apply (IHl k). apply H.
Qed.
Lemma roots_names :
  (forall r k, ok_root r k -> names_root (sk_root r) = true) /\
  (forall l k, ok_roots l k -> forallb names_root (sk_roots l) = true).
Proof.
  apply root_mut_all; cbn [ok_root ok_roots sk_root sk_roots]; try (intros; reflexivity).
  - intros n k H. apply (proj1 (proj2 doc_names) n H).
  - intros w nm k (_ & H & _). cbn. apply is_name_given. exact H.
  - intros w1 a af w2 w3 b bf k (H & _). cbn. inversion H as [|? ? Ha H1]; subst. inversion H1 as [|? ? _ H2]; subst.
    inversion H2 as [|? ? Hb _]; subst. rewrite !is_name_given by assumption. reflexivity.
  - intros w1 gi w2 w3 ds w4 w5 l IH k (_ & _ & _ & H). cbn [names_root]. exact (IH _ H).
  - intros r IHr w l IHl k (Hr & _ & Hl). cbn [forallb]. apply andb_true_iff. split; [exact (IHr _ Hr)|exact (IHl _ Hl)].
Qed.

(** *** the loops of the builder *)
Section Loops.
Variable P : prims.
Variable base : list (text * list fdecl).
Definition b_items (c : ctx) := fix items (l : list tree) (b : scene) {struct l} : res (scene * list nref) :=
    match l with
    | [] => Ok (b, [])
    | x :: r => bind (build_item P base c x b) (fun p =>
                bind (items r (fst p)) (fun q => Ok (fst q, snd p :: snd q)))
    end.
Definition b_attr (c : ctx) (n : nat) (gi : text) (fs : list fdecl) (t : tree) (b : scene) : res scene :=
  match t with
  | T tag _ ch =>
      match tag with
      | G_Attr =>
          match ch with
          | [T _ nm _; T vtag pn vs] =>
              match vtag with
              | G_IS => if is_attr c gi fs nm
                        then if c_in c then Ok (add_is pn n nm b) else Exc IndexError
                        else Exc OtherError
              | G_Field =>
                  match find_field fs nm with
                  | None => if odd_name nm then Exc OtherError else Exc AttributeError
                  | Some f => bind (build_value P (b_items c) f vs b) (fun p => assign base c n gi nm f (snd p) (fst p))
                  end
              | _ => Exc OtherError
              end
          | _ => Exc ValueError
          end
      | G_ROUTE => build_route ch b
      | _ => Exc OtherError
      end
  end.
Fixpoint b_body (c : ctx) (n : nat) (gi : text) (fs : list fdecl) (l : list tree) (b : scene) {struct l} : res scene :=
  match l with
  | [] => Ok b
  | t :: r => bind (b_attr c n gi fs t b) (b_body c n gi fs r)
  end.
Definition b_node (c : ctx) (d : option text) (gi : text) (rest : list tree) (b : scene) : res (scene * nref) :=
  if among gi not_types then Exc OtherError
  else match proto (known base c) gi with
       | None => Exc NameError
       | Some fs =>
           bind (inst_ok base c gi) (fun _ =>
           bind (b_body c (s_next b) gi fs rest (name_node d (s_next b) (new_node gi b))) (fun b' => Ok (b', RNode (s_next b))))
       end.
Lemma body_eq c n gi fs l : forall b, (fix body (n : nat) (gi : text) (fs : list fdecl) (l : list tree) (b : scene) {struct l} : res scene :=
    match l with
    | [] => Ok b
    | T tag _ ch :: r =>
        bind (match tag with
              | G_Attr =>
                  match ch with
                  | [T _ nm _; T vtag pn vs] =>
                      match vtag with
                      | G_IS => if is_attr c gi fs nm
                                then if c_in c then Ok (add_is pn n nm b) else Exc IndexError
                                else Exc OtherError
                      | G_Field =>
                          match find_field fs nm with
                          | None => if odd_name nm then Exc OtherError else Exc AttributeError
                          | Some f => bind (build_value P (b_items c) f vs b) (fun p => assign base c n gi nm f (snd p) (fst p))
                          end
                      | _ => Exc OtherError
                      end
                  | _ => Exc ValueError
                  end
              | G_ROUTE => build_route ch b
              | _ => Exc OtherError
              end) (body n gi fs r)
    end) n gi fs l b = b_body c n gi fs l b.
Proof.
  induction l as [|[tag s ch] r IH]; intros b; [reflexivity|]. cbn [b_body].
  match goal with |- bind ?x ?f = bind ?y ?g => change y with x; destruct x; [apply IH|reflexivity] end.
Qed.
Lemma build_node_named c s nm cn tg gi cg rest b :
  build_item P base c (T G_Node s (T G_name nm cn :: T tg gi cg :: rest)) b = b_node c (Some nm) gi rest b.
Proof.
  unfold b_node. cbn [build_item]. destruct (among gi not_types); [reflexivity|]. destruct (proto (known base c) gi) as [fs|]; [|reflexivity].
  destruct (inst_ok base c gi); [|reflexivity]. cbn [bind]. rewrite <- body_eq. reflexivity.
Qed.
Lemma build_node_plain c s gi cg rest b :
  build_item P base c (T G_Node s (T G_nodegi gi cg :: rest)) b = b_node c None gi rest b.
Proof.
  unfold b_node. cbn [build_item]. destruct (among gi not_types); [reflexivity|]. destruct (proto (known base c) gi) as [fs|]; [|reflexivity].
  destruct (inst_ok base c gi); [|reflexivity]. cbn [bind]. rewrite <- body_eq. reflexivity.
Qed.
(** Scripts *)
Definition b_sdecl (c : ctx) (n : nat) (t : tree) (b : scene) (ms : list (text * text)) : res (scene * list (text * text)) :=
  match t with
  | T tag _ ch =>
      match tag with
      | G_ScriptFieldDecl =>
          match ch with
          | [T _ ex _; T _ ty _; T _ nm _; T vtag pn vs] =>
              match vtag with
              | G_IS =>
                  match kind_of ty with
                  | None => Exc OtherError
                  | Some k => if bad_member nm then Exc OtherError
                              else Ok (set_member n nm (SMField (text_eqb ex (lit "exposedField")) k (match k with KNode => [RNull] | _ => [] end)) b,
                                       ms ++ [(pn, nm)])
                  end
              | G_Field =>
                  bind (script_kind (b_items c) (text_eqb ex (lit "exposedField")) ty vs b) (fun p =>
                  if bad_member nm then Exc OtherError else Ok (set_member n nm (snd p) (fst p), ms))
              | _ => Exc OtherError
              end
          | _ => Exc ValueError
          end
      | G_ScriptEventDecl =>
          match ch with
          | T _ out _ :: T _ ty _ :: T _ nm _ :: im =>
              if bad_member nm || existsb (fun f => text_eqb (f_name f) nm) script_base || negb (is_type ty) then Exc OtherError
              else Ok (set_member n nm (SMEvent (text_eqb out (lit "eventOut")) ty) b,
                       ms ++ match im with T _ pn _ :: _ => [(pn, nm)] | [] => [] end)
          | _ => Exc ValueError
          end
      | G_Attr => Ok (b, ms)
      | G_ROUTE => bind (build_route ch b) (fun b => Ok (b, ms))
      | _ => Exc OtherError
      end
  end.
Fixpoint b_sdecls (c : ctx) (n : nat) (l : list tree) (b : scene) (ms : list (text * text)) {struct l} : res (scene * list (text * text)) :=
  match l with
  | [] => Ok (b, ms)
  | t :: r => bind (b_sdecl c n t b ms) (fun p => b_sdecls c n r (fst p) (snd p))
  end.
Definition b_sattr (c : ctx) (n : nat) (t : tree) (b : scene) : res scene :=
  match t with
  | T tag _ ch =>
      match tag with
      | G_Attr =>
          match ch with
          | [T _ nm _; T vtag pn vs] =>
              match vtag with
              | G_IS => if is_script_attr (members_of b n) nm
                        then if c_in c then Ok (add_is pn n nm b) else Exc IndexError
                        else Exc OtherError
              | G_Field =>
                  match script_find (members_of b n) nm with
                  | None => if odd_name nm then Exc OtherError else Exc AttributeError
                  | Some f => bind (build_value P (b_items c) f vs b) (fun p => Ok (set_field n nm (snd p) (fst p)))
                  end
              | _ => Exc OtherError
              end
          | _ => Exc ValueError
          end
      | _ => Ok b
      end
  end.
Fixpoint b_sattrs (c : ctx) (n : nat) (l : list tree) (b : scene) {struct l} : res scene :=
  match l with
  | [] => Ok b
  | t :: r => bind (b_sattr c n t b) (b_sattrs c n r)
  end.
Definition b_script (c : ctx) (d : option text) (rest : list tree) (b : scene) : res (scene * nref) :=
  let n := s_next b in
  bind (b_sdecls c n rest (name_node d n (new_node script_gi b)) []) (fun p =>
  bind (match snd p with
        | [] => Ok (fst p)
        | _ => if c_in c then Ok (add_maps n (snd p) (fst p)) else Exc IndexError
        end) (fun b1 =>
  bind (b_sattrs c n rest b1) (fun b' => Ok (b', RNode n)))).
Lemma bind_ext {A B} (x : res A) (f g : A -> res B) : (forall a, f a = g a) -> bind x f = bind x g.
Proof. intros H. destruct x; cbn [bind]; auto. Qed.
Lemma build_script c s ch b : build_item P base c (T G_Script s ch) b =
  match ch with
  | T G_name s1 _ :: rest => b_script c (Some s1) rest b
  | _ => b_script c None ch b
  end.
Proof.
  assert (D : forall n l b ms, (fix decls (n : nat) (l : list tree) (b : scene) (ms : list (text * text)) {struct l} : res (scene * list (text * text)) :=
    match l with
    | [] => Ok (b, ms)
    | T tag _ ch :: r =>
        bind (match tag with
              | G_ScriptFieldDecl =>
                  match ch with
                  | [T _ ex _; T _ ty _; T _ nm _; T vtag pn vs] =>
                      match vtag with
                      | G_IS =>
                          match kind_of ty with
                          | None => Exc OtherError
                          | Some k => if bad_member nm then Exc OtherError
                                      else Ok (set_member n nm (SMField (text_eqb ex (lit "exposedField")) k (match k with KNode => [RNull] | _ => [] end)) b,
                                               ms ++ [(pn, nm)])
                          end
                      | G_Field =>
                          bind (script_kind (b_items c) (text_eqb ex (lit "exposedField")) ty vs b) (fun p =>
                          if bad_member nm then Exc OtherError else Ok (set_member n nm (snd p) (fst p), ms))
                      | _ => Exc OtherError
                      end
                  | _ => Exc ValueError
                  end
              | G_ScriptEventDecl =>
                  match ch with
                  | T _ out _ :: T _ ty _ :: T _ nm _ :: im =>
                      if bad_member nm || existsb (fun f => text_eqb (f_name f) nm) script_base || negb (is_type ty) then Exc OtherError
                      else Ok (set_member n nm (SMEvent (text_eqb out (lit "eventOut")) ty) b,
                               ms ++ match im with T _ pn _ :: _ => [(pn, nm)] | [] => [] end)
                  | _ => Exc ValueError
                  end
              | G_Attr => Ok (b, ms)
              | G_ROUTE => bind (build_route ch b) (fun b => Ok (b, ms))
              | _ => Exc OtherError
              end) (fun p => decls n r (fst p) (snd p))
    end) n l b ms = b_sdecls c n l b ms).
  { intros n l. induction l as [|[tag sp ch'] r IH]; intros b0 ms; [reflexivity|]. cbn [b_sdecls].
    match goal with |- bind ?x ?f = bind ?y ?g => change y with x; destruct x; [apply IH|reflexivity] end. }
  assert (A : forall n l b, (fix sattrs (n : nat) (l : list tree) (b : scene) {struct l} : res scene :=
    match l with
    | [] => Ok b
    | T tag _ ch :: r =>
        bind (match tag with
              | G_Attr =>
                  match ch with
                  | [T _ nm _; T vtag pn vs] =>
                      match vtag with
                      | G_IS => if is_script_attr (members_of b n) nm
                                then if c_in c then Ok (add_is pn n nm b) else Exc IndexError
                                else Exc OtherError
                      | G_Field =>
                          match script_find (members_of b n) nm with
                          | None => if odd_name nm then Exc OtherError else Exc AttributeError
                          | Some f => bind (build_value P (b_items c) f vs b) (fun p => Ok (set_field n nm (snd p) (fst p)))
                          end
                      | _ => Exc OtherError
                      end
                  | _ => Exc ValueError
                  end
              | _ => Ok b
              end) (sattrs n r)
    end) n l b = b_sattrs c n l b).
  { intros n l. induction l as [|[tag sp ch'] r IH]; intros b0; [reflexivity|]. cbn [b_sattrs].
    match goal with |- bind ?x ?f = bind ?y ?g => change y with x; destruct x; [apply IH|reflexivity] end. }
  assert (G : forall d rest, b_script c d rest b = 
    bind (b_sdecls c (s_next b) rest (name_node d (s_next b) (new_node script_gi b)) []) (fun p =>
    bind (match snd p with [] => Ok (fst p) | _ => if c_in c then Ok (add_maps (s_next b) (snd p) (fst p)) else Exc IndexError end) (fun b1 =>
    bind (b_sattrs c (s_next b) rest b1) (fun b' => Ok (b', RNode (s_next b)))))) by reflexivity.
  destruct ch as [|[tg s1 l1] rest]; [|destruct tg]; rewrite G, <- D; cbn [build_item];
    (apply bind_ext; intros p; apply bind_ext; intros b1; rewrite <- A; reflexivity).
Qed.
Fixpoint b_declared (c : ctx) (l : list tree) (mem : list (text * member)) {struct l} : res pdef :=
  match l with
  | [] => Exc OtherError
  | T tag sp ch :: r =>
      match tag with
      | G_vrmlScene => bind (build_scene P base c ch file0) (fun q => Ok (PDef mem (fst q) (snd q)))
      | _ => bind (decl (T tag sp ch) mem) (b_declared c r)
      end
  end.
Lemma roots_eq c l : forall s, (fix roots (c : ctx) (l : list tree) (s : file) {struct l} : res file :=
    match l with
    | [] => Ok s
    | x :: r => bind (build_root P base c x s) (roots c r)
    end) c l s = build_scene P base c l s.
Proof. induction l as [|x r IH]; intros s; [reflexivity|]. cbn [build_scene]. destruct (build_root P base c x s); [apply IH|reflexivity]. Qed.
Lemma build_root_item c sp ch s : build_root P base c (T G_rootItem sp ch) s = build_scene P base c ch s.
Proof. cbn [build_root]. apply roots_eq. Qed.
Lemma build_root_proto c sp tg gi cg r s : build_root P base c (T G_Proto sp (T tg gi cg :: r)) s =
  if among gi not_types then Exc OtherError
  else match proto (known base (inside c s)) gi with
       | Some _ => Exc OtherError
       | None => bind (b_declared (mkctx true (fst s ++ c_env c) (c_outer c ++ uses (snd s))) r []) (fun p =>
                 Ok (fst s ++ [(gi, p)], snd s))
       end.
Proof.
  cbn [build_root]. destruct (among gi not_types); [reflexivity|]. destruct (proto (known base (inside c s)) gi); [reflexivity|].
  set (c' := mkctx true (fst s ++ c_env c) (c_outer c ++ uses (snd s))).
  match goal with |- bind ?x _ = bind ?y _ => assert (E : x = y); [|rewrite E; reflexivity] end.
  generalize (@nil (text * member)). generalize c'. clear.
  induction r as [|[tag sp ch] r IH]; intros c' mem; [reflexivity|]. cbn [b_declared].
  destruct tag; try (destruct (decl _ mem); cbn [bind]; [apply IH|reflexivity]).
  exact (f_equal (fun x => bind x (fun q => Ok (PDef mem (fst q) (snd q)))) (roots_eq c' ch file0)).
Qed.
Lemma build_root_extern c sp tg gi cg r s : build_root P base c (T G_ExternProto sp (T tg gi cg :: r)) s =
  if among gi not_types then Exc OtherError
  else match proto (known base (inside c s)) gi with
       | Some _ => Exc OtherError
       | None => bind (xdecls P r []) (fun p => Ok (fst s ++ [(gi, p)], snd s))
       end.
Proof. reflexivity. Qed.
End Loops.

(** *** the state described, step by step *)
Lemma nth_snoc {A} (l : list A) x n : nth_error (l ++ [x]) n = if n =? List.length l then Some x else nth_error l n.
Proof.
  destruct (n =? List.length l) eqn:E.
  - apply Nat.eqb_eq in E. subst. rewrite nth_error_app2 by lia. rewrite Nat.sub_diag. reflexivity.
  - apply Nat.eqb_neq in E. destruct (Nat.lt_ge_cases n (List.length l)) as [H|H]; [apply nth_error_app1; exact H|].
    rewrite nth_error_app2 by lia. destruct (n - List.length l) as [|k] eqn:K; [lia|]. cbn.
    rewrite (proj2 (nth_error_None l n)) by lia. destruct k; reflexivity.
Qed.
Lemma text_eqb_refl a : text_eqb a a = true.
Proof. apply text_eqb_spec. reflexivity. Qed.
Lemma get_reg d nm o x : x <> [] -> ndef d o = [] -> getDEF (regDefName d nm o) x = if text_eqb nm x then Some o else getDEF d x.
Proof.
  intros Hx Hn. unfold getDEF, regDefName. cbn [defs]. destruct (text_eqb nm x) eqn:E.
  - apply text_eqb_spec in E. subst. apply (dget_dset_same text_eqb text_eqb_spec).
  - rewrite (dget_dset_other text_eqb text_eqb_spec).
    2:{ intros ->. rewrite text_eqb_refl in E. discriminate. }
    rewrite Hn. destruct (dget text_eqb (defs d) []) as [o'|]; [|reflexivity]. destruct (Nat.eqb o' o); [|reflexivity].
    apply (dget_ddel_other text_eqb text_eqb_spec). congruence.
Qed.
Lemma value_set_old st n nm l : value_set (with_sets l st) n nm =
  match find (fun x => (fst (fst x) =? n) && text_eqb (snd (fst x)) nm) l with Some x => Some (snd x) | None => value_set st n nm end.
Proof.
  unfold value_set, with_sets. cbn [r_sets]. induction l as [|x l IH]; [reflexivity|]. cbn [app find].
  destruct ((fst (fst x) =? n) && text_eqb (snd (fst x)) nm); [reflexivity|exact IH].
Qed.
(** nothing is set in nodes to come *)
Definition sets_below (st : rstate) : Prop := Forall (fun x => fst (fst x) < r_next st) (r_sets st).
Lemma find_no {A} (f : A -> bool) l : (forall x, In x l -> f x = false) -> find f l = None.
Proof.
  induction l as [|x l IH]; intros H; [reflexivity|]. cbn [find]. rewrite (H x) by (left; reflexivity).
  apply IH. intros y Hy. apply H. right. exact Hy.
Qed.
Lemma value_set_next st nm : sets_below st -> value_set st (r_next st) nm = None.
Proof.
  unfold sets_below, value_set. intros H. rewrite find_no; [reflexivity|]. intros x Hx. rewrite Forall_forall in H.
  specialize (H x Hx). apply andb_false_iff. left. apply Nat.eqb_neq. lia.
Qed.
Definition mems_below (st : rstate) : Prop := Forall (fun x => fst (fst x) < r_next st) (r_mems st).
Lemma member_of_next st nm : mems_below st -> member_of st (r_next st) nm = None.
Proof.
  unfold mems_below, member_of. intros H. rewrite find_no; [reflexivity|]. intros x Hx. rewrite Forall_forall in H.
  specialize (H x Hx). apply andb_false_iff. left. apply Nat.eqb_neq. lia.
Qed.
Definition holds (st : rstate) (b : scene) : Prop := describes st b /\ (sets_below st /\ mems_below st).

Lemma holds0 : holds rs0 scene0.
Proof.
  split; [|split; constructor]. split; try reflexivity.
  - intros [|n] gi d; discriminate.
  - intros n _. split; reflexivity.
Qed.
Lemma enter_holds d gi st b : (forall nm, d = Some nm -> given nm = true) -> holds st b ->
  holds (enter_node d gi st) (name_node d (s_next b) (new_node gi b)).
Proof.
  intros Hd [[D1 D2 D3 D4 D5 D6 D7] Sb].
  assert (Nd : ndef (s_defs b) (s_next b) = []) by (rewrite D1; apply (D3 (r_next st)); lia).
  assert (Ndn : forall m, node_def (name_node d (s_next b) (new_node gi b)) m =
    if m =? s_next b then match d with Some nm => nm | None => [] end else node_def b m).
  { intros m. destruct d as [nm|]; cbn; unfold node_def; cbn; unfold set_def; destruct (m =? s_next b) eqn:E; try reflexivity. exact Nd. }
  assert (Nn : forall m, s_node (name_node d (s_next b) (new_node gi b)) m = if m =? s_next b then Some (mksn gi [] []) else s_node b m)
    by (intros m; destruct d; reflexivity).
  assert (Rn : r_next (enter_node d gi st) = S (r_next st)) by (unfold r_next, enter_node; cbn [r_nodes]; rewrite app_length; cbn; lia).
  split; [split|].
  - rewrite Rn, <- D1. destruct d; reflexivity.
  - intros n g dn E. cbn [enter_node r_nodes] in E. rewrite nth_snoc in E. rewrite Nn, Ndn. fold (r_next st) in E. rewrite <- D1 in E.
    destruct (n =? s_next b) eqn:En.
    + injection E as <- <-. apply Nat.eqb_eq in En. subst n. exists (mksn gi [] []). repeat split; intros nm; cbn [n_vals n_mem];
      symmetry; rewrite D1; [exact (value_set_next st nm (proj1 Sb))|exact (member_of_next st nm (proj2 Sb))].
    + apply D2. exact E.
  - intros n H. rewrite Rn in H. rewrite Nn, Ndn, D1. assert (n =? r_next st = false) as -> by (apply Nat.eqb_neq; lia).
    apply D3. lia.
  - intros nm Hnm. destruct d as [x|]; cbn [name_node new_node s_defs enter_node named_node r_names dget].
    + rewrite get_reg; [|exact Hnm|]. 2:{ cbn. unfold set_def. rewrite Nat.eqb_refl. exact Nd. }
      unfold named_node. cbn [r_names dget]. rewrite <- D1. destruct (text_eqb x nm) eqn:E.
      * reflexivity.
      * rewrite get_reg by assumption. rewrite Nd. destruct (text_eqb [] nm) eqn:E3; [apply text_eqb_spec in E3; congruence|]. apply D4. exact Hnm.
    + rewrite get_reg by assumption. rewrite Nd. destruct (text_eqb [] nm) eqn:E3; [apply text_eqb_spec in E3; congruence|]. apply D4. exact Hnm.
  - destruct d; exact D5.
  - destruct d; exact D6.
  - destruct d; exact D7.
  - unfold sets_below, mems_below in *. rewrite Rn. cbn [enter_node r_sets r_mems]. split; (eapply Forall_impl; [|apply Sb]); cbn; lia.
Qed.
(** setting a field of the nodes in [l] *)
Lemma sets_hold st b b' nm v l : holds st b -> Forall (fun m => m < r_next st) l ->
  s_next b' = s_next b -> s_defs b' = s_defs b -> s_kids b' = s_kids b -> s_routes b' = s_routes b -> s_is b' = s_is b ->
  (forall m nd, s_node b m = Some nd -> s_node b' m = Some (if existsb (Nat.eqb m) l then mksn (n_gi nd) (dset text_eqb (n_vals nd) nm v) (n_mem nd) else nd)) ->
  (forall m, s_node b m = None -> s_node b' m = None) ->
  holds (with_sets (map (fun m => (m, nm, v)) l) st) b'.
Proof.
  intros [[D1 D2 D3 D4 D5 D6 D7] Sb] L E1 E2 E3 E4 E5 Hn H0. split; [split|].
  - rewrite E1. exact D1.
  - intros n gi d E. destruct (D2 n gi d E) as (nd & N & G & Df & V & M). eexists. split; [exact (Hn n nd N)|].
    split; [destruct (existsb _ l); exact G|]. split; [unfold node_def; rewrite E2; exact Df|].
    split; [|destruct (existsb _ l); exact M]. intros nm'. rewrite value_set_old.
    assert (F : find (fun x => (fst (fst x) =? n) && text_eqb (snd (fst x)) nm') (map (fun m => (m, nm, v)) l) =
      if existsb (Nat.eqb n) l && text_eqb nm nm' then Some (n, nm, v) else None).
    { clear. induction l as [|m l IH]; [reflexivity|]. cbn [map find existsb fst snd]. rewrite (Nat.eqb_sym m n).
      destruct (n =? m) eqn:E; cbn [andb orb].
      - apply Nat.eqb_eq in E. subst. destruct (text_eqb nm nm') eqn:F; [reflexivity|]. rewrite IH, andb_false_r. reflexivity.
      - exact IH. }
    rewrite F. destruct (existsb (Nat.eqb n) l); cbn [andb n_vals]; [|apply V].
    destruct (text_eqb nm nm') eqn:T.
    + apply text_eqb_spec in T. subst. apply (dget_dset_same text_eqb text_eqb_spec).
    + rewrite (dget_dset_other text_eqb text_eqb_spec); [apply V|]. intros ->. rewrite text_eqb_refl in T. discriminate.
  - intros n H. destruct (D3 n H) as (A & B). split; [apply H0; exact A|unfold node_def; rewrite E2; exact B].
  - intros x Hx. rewrite E2. apply D4. exact Hx.
  - rewrite E3. exact D5.
  - rewrite E4. exact D6.
  - rewrite E5. exact D7.
  - split; [|exact (proj2 Sb)]. unfold sets_below. cbn [with_sets r_sets]. apply Forall_app. split; [|exact (proj1 Sb)].
    apply Forall_forall. intros x Hx. apply in_map_iff in Hx as (m & <- & Hm). cbn. rewrite Forall_forall in L. exact (L m Hm).
Qed.
Lemma set_value_holds base c n gi nm f v st b b' d : holds st b -> f_name f = nm -> nth_error (r_nodes st) n = Some (gi, d) ->
  assign base c n gi nm f v b = Ok b' -> holds (set_value (c_env c) n gi f v st) b'.
Proof.
  intros H <- Hn E.
  assert (Ln : n < r_next st) by (apply nth_error_Some; congruence).
  assert (One : holds (with_sets [(n, f_name f, v)] st) (set_field n (f_name f) v b)).
  { apply (sets_hold st b _ (f_name f) v [n]); auto; cbn [set_field s_node].
    - intros m nd Nd. cbn [existsb]. rewrite orb_false_r, Nd. destruct (m =? n); reflexivity.
    - intros m ->. destruct (m =? n); reflexivity. }
  unfold assign in E. unfold set_value, passed_on. destruct (dget text_eqb (c_env c) gi) as [p|]; [|injection E as <-; exact One].
  match type of E with (if ?x then _ else _) = _ => destruct x; [discriminate|] end.
  assert (All : forall xs, (if among gi (others c) || negb (plain_map base p (f_name f) xs) then Exc OtherError
      else Ok (set_all gi n (f_name f) v b)) = Ok b' ->
    holds (with_sets (map (fun m => (m, f_name f, v)) (filter (fun m => match nth_error (r_nodes st) m with Some (g, _) => text_eqb g gi | None => false end)
                              (seq 0 (r_next st)))) st) b').
  { intros xs E2. destruct (among gi (others c) || _); [discriminate|]. injection E2 as <-.
    set (l := filter _ _).
    assert (Hl : forall m, In m l <-> exists dm, nth_error (r_nodes st) m = Some (gi, dm)).
    { intros m. unfold l. rewrite filter_In, in_seq. split.
      - intros (_ & Q). destruct (nth_error (r_nodes st) m) as [[g dm]|]; [|discriminate]. apply text_eqb_spec in Q. subst. eauto.
      - intros (dm & Q). rewrite Q, text_eqb_refl. split; [|reflexivity]. split; [lia|]. apply nth_error_Some. congruence. }
    apply (sets_hold st b _ (f_name f) v l); auto; cbn [set_all s_node].
    - apply Forall_forall. intros m Hm. apply Hl in Hm as (dm & Q). apply nth_error_Some. congruence.
    - intros m nd Nd. rewrite Nd. cbn [option_map]. f_equal.
      assert (Lm : m < r_next st). { destruct (Nat.lt_ge_cases m (r_next st)) as [Q|Q]; [exact Q|]. destruct (ds_none _ _ (proj1 H) m Q). congruence. }
      destruct (nth_error (r_nodes st) m) as [[g dm]|] eqn:Nm; [|apply nth_error_None in Nm; unfold r_next in Lm; lia].
      destruct (ds_node _ _ (proj1 H) m g dm Nm) as (nd' & Nd' & G & _). assert (nd' = nd) as -> by congruence.
      assert (existsb (Nat.eqb m) l = (m =? n) || text_eqb (n_gi nd) gi) as ->; [|reflexivity].
      apply eq_true_iff_eq. rewrite existsb_exists, orb_true_iff. split.
      + intros (x & Hx & Q). apply Nat.eqb_eq in Q. subst x. apply Hl in Hx as (dm' & Q). right. rewrite G. apply text_eqb_spec. congruence.
      + intros Q. exists m. split; [|apply Nat.eqb_refl]. apply Hl. destruct Q as [Q|Q].
        * apply Nat.eqb_eq in Q. subst. eauto.
        * apply text_eqb_spec in Q. exists dm. congruence.
    - intros m ->. reflexivity. }
  destruct (f_kind f), (dget text_eqb (s_is (p_body p)) (f_name f)); try (injection E as <-; exact One); exact (All _ E).
Qed.
Lemma set_one_holds n nm v st b : holds st b -> n < r_next st -> holds (with_sets [(n, nm, v)] st) (set_field n nm v b).
Proof.
  intros H L. apply (sets_hold st b _ nm v [n]); auto; cbn [set_field s_node].
  - intros m nd Nd. cbn [existsb]. rewrite orb_false_r, Nd. destruct (m =? n); reflexivity.
  - intros m ->. destruct (m =? n); reflexivity.
Qed.
Lemma member_of_with st n nm m k x : member_of (with_member n nm m st) k x = if (n =? k) && text_eqb nm x then Some m else member_of st k x.
Proof. unfold member_of, with_member. cbn [r_mems find fst snd]. destruct ((n =? k) && text_eqb nm x); reflexivity. Qed.
Lemma member_holds n nm m st b : holds st b -> n < r_next st -> holds (with_member n nm m st) (set_member n nm m b).
Proof.
  intros [[D1 D2 D3 D4 D5 D6 D7] Sb] L. split; [split|]; auto.
  - intros k gi d E. destruct (D2 k gi d E) as (nd & N & G & Df & V & M). cbn [set_member s_node]. rewrite N. destruct (k =? n) eqn:Ek.
    + apply Nat.eqb_eq in Ek. subst k. eexists. split; [reflexivity|]. split; [exact G|]. split; [exact Df|]. split; [exact V|].
      intros x. cbn [n_mem]. rewrite member_of_with, Nat.eqb_refl. cbn [andb]. destruct (text_eqb nm x) eqn:E1.
      * apply text_eqb_spec in E1. subst. apply (dget_dset_same text_eqb text_eqb_spec).
      * rewrite (dget_dset_other text_eqb text_eqb_spec); [apply M|]. intros ->. rewrite text_eqb_refl in E1. discriminate.
    + exists nd. split; [reflexivity|]. split; [exact G|]. split; [exact Df|]. split; [exact V|].
      intros x. rewrite member_of_with, (Nat.eqb_sym n k), Ek. apply M.
  - intros k H. cbn [set_member s_node]. destruct (D3 k H) as (-> & Q). destruct (k =? n); split; auto.
  - split; [exact (proj1 Sb)|]. unfold mems_below. cbn [with_member r_mems]. constructor; [exact L|exact (proj2 Sb)].
Qed.
Lemma kid_holds st b r : holds st b -> holds (with_kid r st) (add_kid r b).
Proof. intros [[D1 D2 D3 D4 D5 D6 D7] Sb]. split; [split|]; auto. cbn. rewrite D5. reflexivity. Qed.
Lemma route_holds st b r : holds st b -> holds (with_route r st) (add_route r b).
Proof. intros [[D1 D2 D3 D4 D5 D6 D7] Sb]. split; [split|]; auto. cbn. rewrite D6. reflexivity. Qed.
Lemma is_holds st b pn n nm : holds st b -> holds (with_is pn n nm st) (add_is pn n nm b).
Proof.
  intros [[D1 D2 D3 D4 D5 D6 D7] Sb]. split; [split|]; auto. intros x. cbn [add_is s_is].
  assert (M : mapped_to (with_is pn n nm st) x = mapped_to st x ++ (if text_eqb pn x then [(n, nm)] else [])).
  { unfold mapped_to, with_is. cbn [r_is]. rewrite filter_app, map_app. f_equal. cbn. destruct (text_eqb pn x); reflexivity. }
  rewrite M. destruct (text_eqb pn x) eqn:E.
  - apply text_eqb_spec in E. subst. rewrite (dget_dset_same text_eqb text_eqb_spec), D7. destruct (mapped_to st x); reflexivity.
  - rewrite (dget_dset_other text_eqb text_eqb_spec), app_nil_r; [apply D7|]. intros ->. rewrite text_eqb_refl in E. discriminate.
Qed.

(** *** the builder is sound *)
Lemma erase_eq t : erase t = T (match t with T n _ _ => n end) (match t with T n s _ => if keeps n then s else [] end)
  (map erase (match t with T _ _ l => l end)).
Proof. destruct t; reflexivity. Qed.
Lemma erase_leaf t n s : keeps n = true -> erase t = T n s [] -> t = T n s [].
Proof.
  destruct t as [n' s' l]. cbn [erase]. intros K E. injection E as -> <- El. rewrite K in *. destruct l; [reflexivity|discriminate].
Qed.
Lemma erase_cons l x r : map erase l = x :: r -> exists t l', l = t :: l' /\ erase t = x /\ map erase l' = r.
Proof. destruct l as [|t l']; [discriminate|]. cbn [map]. intros E. injection E as <- <-. eauto. Qed.
Lemma erase_kept t n s l : erase t = T n s l -> keeps n = true -> exists l', t = T n s l' /\ map erase l' = l.
Proof. destruct t as [n' s' l']. cbn [erase]. intros E K. injection E as -> <- <-. rewrite K. eauto. Qed.
Lemma erase_not_kept t n s l : erase t = T n s l -> exists s' l', t = T n s' l' /\ map erase l' = l.
Proof. destruct t as [n' s' l']. cbn [erase]. intros E. injection E as -> _ <-. eauto. Qed.
Definition leafy (t : tree) : Prop := exists n s, t = T n s [] /\ keeps n = true.
Lemma pieces_leafy b : forall run, Forall leafy (pieces run b).
Proof.
  assert (F : forall run, Forall leafy (flush run)) by (intros [|x r]; repeat constructor; exists G_CHARNODBLQUOTE; eauto).
  assert (G : forall n b, List.length b < n -> forall run, Forall leafy (pieces run b)).
  { intros n. induction n as [|n IH]; intros b0 L run; [lia|]. destruct b0 as [|x b1]; cbn [pieces]; [apply F|].
    cbn in L. destruct (plain_char x); [apply IH; lia|]. apply Forall_app. split; [apply F|].
    destruct b1 as [|y b2]; [|cbn in L; destruct (plain_char y)].
    - repeat constructor. exists G_SIMPLEBACKSLASH. eauto.
    - constructor; [exists G_SIMPLEBACKSLASH; eauto|]. apply IH. cbn. lia.
    - constructor; [exists G_ESCAPEDCHAR; eauto|]. apply IH. lia. }
  intros run. apply (G (S (List.length b))). lia.
Qed.
Lemma erase_leafy l l' : Forall leafy l -> map erase l' = l -> l' = l.
Proof.
  intros H. revert l'. induction H as [|x l (n & s & -> & K) Hl IH]; intros l' E.
  - destruct l'; [reflexivity|discriminate].
  - apply erase_cons in E as (t & r & -> & Et & Er). rewrite (erase_leaf t n s K Et), (IH r Er). reflexivity.
Qed.
Lemma erase_plain t i : plain i = true -> erase t = et_item i -> t = et_item i.
Proof.
  destruct i; try discriminate; intros _ E; cbn [et_item] in *; try (apply erase_leaf; [reflexivity|exact E]).
  apply erase_kept in E as (l' & -> & El); [|reflexivity]. f_equal. apply erase_leafy; [apply pieces_leafy|exact El].
Qed.
Lemma erase_plains l its : forallb plain its = true -> map erase l = map et_item its -> l = map et_item its.
Proof.
  revert its. induction l as [|t l IH]; intros [|i its] H E; try discriminate; [reflexivity|].
  cbn [map forallb] in *. apply andb_true_iff in H as [Hi Hl]. injection E as E1 E2. f_equal; [apply erase_plain|apply IH]; assumption.
Qed.
Lemma plain_entry i : plain i = true -> node_entry (et_item i) = false.
Proof. destruct i; try discriminate; reflexivity. Qed.
Lemma entry_tag t i : erase t = et_item i -> node_entry t = nodeish i.
Proof. destruct t as [n s l], i; cbn [erase et_item]; intros E; injection E as -> _ _; reflexivity. Qed.

Lemma bind_ok {A B} (x : res A) (f : A -> res B) y : bind x f = Ok y -> exists a, x = Ok a /\ f a = Ok y.
Proof. destruct x; [eauto|discriminate]. Qed.
Lemma find_field_in fs nm f : find_field fs nm = Some f -> In f fs /\ f_name f = nm.
Proof.
  induction fs as [|g fs IH]; [discriminate|]. cbn [find_field]. destruct (text_eqb (f_name g) nm) eqn:E.
  - intros Q. injection Q as <-. apply text_eqb_spec in E. split; [left; reflexivity|exact E].
  - intros Q. destruct (IH Q). split; [right; assumption|assumption].
Qed.

(** later states have the earlier nodes *)
Definition later (st st' : rstate) : Prop := exists l, r_nodes st' = r_nodes st ++ l.
Lemma later_refl st : later st st.
Proof. exists []. rewrite app_nil_r. reflexivity. Qed.
Lemma later_trans a b c : later a b -> later b c -> later a c.
Proof. intros [x X] [y Y]. exists (x ++ y). rewrite Y, X, app_assoc. reflexivity. Qed.
Lemma later_nth st st' n x : later st st' -> nth_error (r_nodes st) n = Some x -> nth_error (r_nodes st') n = Some x.
Proof. intros [l ->] H. rewrite nth_error_app1; [exact H|]. apply nth_error_Some. congruence. Qed.
Lemma later_value e n gi f v st : later st (set_value e n gi f v st).
Proof. unfold set_value. destruct (passed_on e gi f); exists []; rewrite app_nil_r; reflexivity. Qed.

Section Sound.
Variable P : prims.
Variable base : list (text * list fdecl).
Definition i_ok (i : sitem) : Prop := forall c t st b b' r, erase t = et_item i -> tidy i = true -> names_item i = true ->
  holds st b -> build_item P base c t b = Ok (b', r) ->
  exists st', item_reads P base (c_in c) (c_env c) st i st' r /\ holds st' b' /\ later st st'.
Lemma items_sound c its : Forall i_ok its -> forall l st b b' rs, map erase l = map et_item its ->
  forallb tidy its = true -> forallb names_item its = true -> holds st b -> b_items P base c l b = Ok (b', rs) ->
  exists st', items_read P base (c_in c) (c_env c) st its st' rs /\ holds st' b' /\ later st st'.
Proof.
  induction 1 as [|i its Hi _ IH]; intros l st b b' rs El Ht Hn H E.
  - destruct l; [|discriminate]. injection E as <- <-. exists st. split; [constructor|]. split; [exact H|apply later_refl].
  - apply erase_cons in El as (t & l' & -> & Et & El). cbn [forallb] in *. apply andb_true_iff in Ht as [Ht1 Ht2], Hn as [Hn1 Hn2].
    cbn [b_items] in E. apply bind_ok in E as ([b1 r] & E1 & E). cbn [fst snd] in E. apply bind_ok in E as ([b2 rs2] & E2 & E).
    injection E as <- <-.
    destruct (Hi c t st b b1 r Et Ht1 Hn1 H E1) as (st1 & R1 & H1 & L1).
    destruct (IH l' st1 b1 b2 rs2 El Ht2 Hn2 H1 E2) as (st2 & R2 & H2 & L2).
    exists st2. split; [econstructor; eassumption|]. split; [exact H2|eapply later_trans; eassumption].
Qed.
Lemma value_sound c its f l st b b' v : Forall i_ok its -> map erase l = map et_item its -> tidy_value its = true ->
  forallb tidy its = true -> forallb names_item its = true -> holds st b ->
  build_value P (b_items P base c) f l b = Ok (b', v) ->
  exists st', value_reads P base (c_in c) (c_env c) st f its st' v /\ holds st' b' /\ later st st'.
Proof.
  intros Hi El Tv Ht Hn H E.
  assert (Pl : forallb plain its = true -> match f_kind f with
     | KNode => Exc AttributeError | KNodes _ => Ok (b, VRefs []) | KVal t _ => bind (read_value P t l) (fun v => Ok (b, VPv v)) end = Ok (b', v) ->
     exists st', value_reads P base (c_in c) (c_env c) st f its st' v /\ holds st' b' /\ later st st').
  { intros Q F. rewrite (erase_plains l its Q El) in F. destruct (f_kind f) as [t d| |o] eqn:K; [|discriminate|].
    - apply bind_ok in F as (x & F1 & F). injection F as <- <-. exists st. split; [|split; [exact H|apply later_refl]]. econstructor; eassumption.
    - injection F as <- <-. exists st. split; [|split; [exact H|apply later_refl]]. eapply vr_ignored; eassumption. }
  unfold build_value in E. destruct l as [|x l]; [destruct its; [|discriminate]; exact (Pl eq_refl E)|].
  destruct its as [|i its]; [discriminate|]. pose proof El as El0. cbn [map] in El. injection El as Ex El. rewrite (entry_tag x i Ex) in E.
  cbn [tidy_value] in Tv. destruct (nodeish i) eqn:Ni; [|exact (Pl Tv E)].
  destruct (f_kind f) as [t d| |o] eqn:K; [discriminate| |].
  - apply bind_ok in E as ([b1 rs] & E1 & E). cbn [b_items] in E1. apply bind_ok in E1 as ([b2 r] & E2 & E1). cbn [bind fst snd] in E1.
    injection E1 as <- <-. injection E as <- <-. inversion Hi as [|? ? Hi1 _]; subst. cbn [forallb] in *.
    apply andb_true_iff in Ht as [Ht1 _], Hn as [Hn1 _].
    destruct (Hi1 c x st b b2 r Ex Ht1 Hn1 H E2) as (st1 & R1 & H1 & L1). exists st1. split; [constructor; assumption|]. split; assumption.
  - apply bind_ok in E as ([b1 rs] & E1 & E). injection E as <- <-.
    destruct (items_sound c (i :: its) Hi (x :: l) st b b1 rs El0 Ht Hn H E1) as (st1 & R1 & H1 & L1). exists st1.
    split; [econstructor; eassumption|]. split; assumption.
Qed.
Lemma attrs_sound c n gi fs d al : (forall nm its, In (nm, SVal its) al -> Forall i_ok its) -> forall l st b b',
  map erase l = map (fun p => T G_Attr [] [tname (fst p); et_val (snd p)]) al ->
  forallb (fun p => match snd p with SVal its => tidy_value its && forallb tidy its | SIs _ => true end) al = true ->
  forallb names_attr al = true -> holds st b -> nth_error (r_nodes st) n = Some (gi, d) ->
  b_body P base c n gi fs l b = Ok b' ->
  exists st', attrs_read P base (c_in c) (c_env c) n gi fs st al st' /\ holds st' b' /\ later st st'.
Proof.
  induction al as [|[nm sv] al IH]; intros Hi l st b b' El Ht Hn H Nn E.
  - destruct l; [|discriminate]. injection E as <-. exists st. split; [constructor|]. split; [exact H|apply later_refl].
  - apply erase_cons in El as (t & l' & -> & Et & El). cbn [forallb fst snd] in *. apply andb_true_iff in Ht as [Ht1 Ht2], Hn as [Hn1 Hn2].
    cbn [b_body] in E. apply bind_ok in E as (b1 & E1 & E).
    apply erase_not_kept in Et as (s0 & ch & -> & Ec). apply erase_cons in Ec as (t1 & ch1 & -> & Et1 & Ec).
    apply erase_cons in Ec as (t2 & ch2 & -> & Et2 & Ec). destruct ch2; [clear Ec|discriminate].
    apply erase_leaf in Et1; [|reflexivity]. subst t1. cbn [b_attr tname] in E1.
    destruct sv as [its|pn]; cbn [et_val] in Et2.
    + apply erase_not_kept in Et2 as (s1 & vs & -> & Ev). destruct (find_field fs nm) as [f|] eqn:Ff; [|destruct (odd_name nm); discriminate].
      apply find_field_in in Ff as (Fin & Fn). apply bind_ok in E1 as ([b2 v] & E2 & E1). cbn [fst snd] in E1.
      apply andb_true_iff in Ht1 as [Tv Tl].
      destruct (value_sound c its f vs st b b2 v (Hi nm its (or_introl eq_refl)) Ev Tv Tl Hn1 H E2) as (st1 & R1 & H1 & L1).
      pose proof (later_nth _ _ _ _ L1 Nn) as Nn1.
      pose proof (set_value_holds base c n gi nm f v st1 b2 b1 d H1 Fn Nn1 E1) as H2.
      destruct (IH (fun nm' its' Q => Hi nm' its' (or_intror Q)) l' _ b1 b' El Ht2 Hn2 H2) as (st2 & R2 & H3 & L2).
      * unfold set_value. destruct (passed_on (c_env c) gi f); exact Nn1.
      * exact E.
      * exists st2. split; [rewrite <- Fn; econstructor; eassumption|]. split; [exact H3|].
        eapply later_trans; [exact L1|]. eapply later_trans; [apply later_value|exact L2].
    + apply erase_kept in Et2 as (l2 & -> & _); [|reflexivity].
      destruct (is_attr c gi fs nm); [|discriminate]. destruct (c_in c) eqn:Ci; [|discriminate]. injection E1 as <-.
      destruct (IH (fun nm' its' Q => Hi nm' its' (or_intror Q)) l' (with_is pn n nm st) (add_is pn n nm b) b' El Ht2 Hn2 (is_holds st b pn n nm H) Nn E) as (st2 & R2 & H3 & L2).
      exists st2. split; [constructor; [reflexivity|exact R2]|]. split; [exact H3|exact L2].
Qed.
Lemma maps_sound c p l : maps_ok base c p l = Ok tt -> forall pn xs, In (pn, xs) l ->
  (exists o ty, dget text_eqb (p_mem p) pn = Some (MEvent o ty)) \/
  exists k, ((exists ex, dget text_eqb (p_mem p) pn = Some (MField ex k)) \/
             (dget text_eqb (p_mem p) pn = None /\ pn = lit "externalURL" /\ k = f_kind url_field)) /\
    forall n y nd f, In (n, y) xs -> s_node (p_body p) n = Some nd -> node_field (types base (p_inner p ++ c_env c)) nd y = Some f ->
      class_name (f_kind f) = class_name k.
Proof.
  induction l as [|[qn ys] l IH]; intros E pn xs H; [destruct H|]. cbn [maps_ok] in E.
  destruct H as [[= -> ->]|H].
  - clear IH. destruct (mem_kind p pn) as [m|] eqn:M; [|destruct (odd_name pn); discriminate E]. unfold mem_kind in M.
    destruct m as [ex k|o ty]; [right; exists k|left; exists o, ty].
    + split.
      * destruct (dget text_eqb (p_mem p) pn) as [m|]; [left; exists ex; congruence|]. right.
        destruct (text_eqb pn (lit "externalURL")) eqn:Q; [|discriminate M]. apply text_eqb_spec in Q. injection M as <- <-. auto.
      * destruct (forallb _ xs) eqn:F; [|discriminate E]. intros n y nd f Hx Nd Ff. rewrite forallb_forall in F.
        specialize (F _ Hx). unfold body_field in F. cbn [fst snd] in F. rewrite Nd, Ff in F. apply text_eqb_spec. exact F.
    + destruct (dget text_eqb (p_mem p) pn) as [m|]; [congruence|]. destruct (text_eqb pn (lit "externalURL")); discriminate M.
  - apply IH; [|exact H]. destruct (mem_kind p qn) as [[ex k|o ty]|]; [destruct (forallb _ ys); [exact E|discriminate E]|exact E|destruct (odd_name qn); discriminate E].
Qed.
Lemma inst_sound c gi : inst_ok base c gi = Ok tt -> maps_declared base (c_env c) gi.
Proof. intros E p pn xs Hp H. unfold inst_ok in E. rewrite Hp in E. exact (maps_sound c p _ E pn xs H). Qed.
Lemma exposure_eq ex : text_eqb (exposure ex) (lit "exposedField") = ex.
Proof. destruct ex; reflexivity. Qed.
Lemma direction_eq ex : text_eqb (direction ex) (lit "eventOut") = ex.
Proof. destruct ex; reflexivity. Qed.
(** *** Scripts *)
Lemma member_sound c its ex ty l st b b' m : Forall i_ok its -> map erase l = map et_item its -> tidy_value its = true ->
  forallb tidy its = true -> forallb names_item its = true -> holds st b ->
  script_kind (b_items P base c) ex ty l b = Ok (b', m) ->
  exists st', member_reads P base (c_in c) (c_env c) st ex ty its st' m /\ holds st' b' /\ later st st'.
Proof.
  intros Hi El Tv Ht Hn H E. unfold script_kind in E.
  assert (N0 : match l with x :: _ => node_entry x | [] => false end = false -> forallb plain its = true).
  { intros Q. destruct l as [|x l], its as [|i its]; try discriminate; [reflexivity|]. cbn in El. injection El as Ex _.
    rewrite (entry_tag x i Ex) in Q. cbn [tidy_value] in Tv. rewrite Q in Tv. exact Tv. }
  destruct (text_eqb ty (lit "SFNode")) eqn:E1; [|destruct (text_eqb ty (lit "MFNode")) eqn:E2].
  - apply text_eqb_spec in E1. subst ty. destruct l as [|x l]; [discriminate|]. destruct (node_entry x) eqn:Ne; [|discriminate].
    destruct its as [|i its]; [discriminate|]. cbn [map] in El. injection El as Ex El.
    apply bind_ok in E as ([b1 rs] & E & Em). injection Em as <- <-. cbn [b_items] in E. apply bind_ok in E as ([b2 r] & E & Er). cbn [bind fst snd] in Er.
    injection Er as <- <-. inversion Hi as [|? ? Hi1 _]; subst. cbn [forallb] in *. apply andb_true_iff in Ht as [Ht1 _], Hn as [Hn1 _].
    destruct (Hi1 c x st b b2 r Ex Ht1 Hn1 H E) as (st1 & R1 & H1 & L1). exists st1. split; [constructor; exact R1|]. split; assumption.
  - apply text_eqb_spec in E2. subst ty. destruct (match l with x :: _ => node_entry x | [] => false end).
    + apply bind_ok in E as ([b1 rs] & E & Em). injection Em as <- <-.
      destruct (items_sound c its Hi l st b b1 rs El Ht Hn H E) as (st1 & R1 & H1 & L1). exists st1. split; [constructor; exact R1|]. split; assumption.
    + injection E as <- <-. exists st. split; [apply mr_ignored; auto|]. split; [exact H|apply later_refl].
  - destruct (fty_of ty) as [t|] eqn:F; [|discriminate]. destruct (match l with x :: _ => node_entry x | [] => false end); [discriminate|].
    apply bind_ok in E as (v & E & Em). injection Em as <- <-. specialize (N0 eq_refl). rewrite (erase_plains l its N0 El) in E.
    exists st. split; [econstructor; eassumption|]. split; [exact H|apply later_refl].
Qed.
Lemma script_find_spec st b n nm f : holds st b -> n < r_next st ->
  (script_find (members_of b n) nm = Some f <-> f_name f = nm /\ script_field st n f).
Proof.
  intros [D _] L. destruct (nth_error (r_nodes st) n) as [[gi d]|] eqn:E; [|apply nth_error_None in E; unfold r_next in L; lia].
  destruct (ds_node _ _ D n gi d E) as (nd & N & _ & _ & _ & M). unfold members_of, script_find, script_field. rewrite N, M.
  assert (F : forall x, member_of st n x = None -> (find_field script_base x = Some f <-> f_name f = x /\ In f script_base)).
  { clear. intros x _. split; [intros H; apply find_field_in in H; tauto|]. intros (<- & H). cbn in H. 
    destruct H as [<-|[<-|[<-|[<-|[]]]]]; reflexivity. }
  split.
  - destruct (member_of st n nm) as [[ex k l|]|] eqn:Q; [| |].
    + intros H. injection H as <-. cbn [f_name]. split; [reflexivity|]. rewrite Q. reflexivity.
    + discriminate.
    + intros H. apply F in H as (<- & H); [|exact Q]. split; [reflexivity|]. rewrite Q. exact H.
  - intros (<- & H). destruct (member_of st n (f_name f)) as [[ex k l|]|] eqn:Q.
    + destruct f as [x y]. cbn in *. subst. reflexivity.
    + destruct H.
    + apply F; auto.
Qed.
Lemma script_attr_spec st b n nm : holds st b -> n < r_next st -> is_script_attr (members_of b n) nm = true ->
  member_of st n nm <> None \/ In nm (map f_name script_base).
Proof.
  intros H L E. unfold is_script_attr in E. destruct (script_find (members_of b n) nm) as [f|] eqn:F.
  - apply (script_find_spec st b n nm f H L) in F as (<- & F). unfold script_field in F. destruct (member_of st n (f_name f)); [left; discriminate|right; apply in_map; exact F].
  - destruct H as [D _]. destruct (nth_error (r_nodes st) n) as [[gi d]|] eqn:N; [|apply nth_error_None in N; unfold r_next in L; lia].
    destruct (ds_node _ _ D n gi d N) as (nd & N' & _ & _ & _ & M). unfold members_of in E. rewrite N', M in E. left. intros Q. rewrite Q in E. discriminate E.
Qed.
Definition tidy_sel (x : ssel) : bool := match x with
  | SSField _ _ _ (SVal its) | SSAttr _ (SVal its) => tidy_value its && forallb tidy its | _ => true end.
Lemma later_lt st st' n : later st st' -> n < r_next st -> n < r_next st'.
Proof. intros [l E]. unfold r_next. rewrite E, app_length. lia. Qed.
Lemma sdecls_sound c n sl : (forall x, In x sl -> Forall i_ok (sel_its x)) -> forall l st b ms b' ms',
  map erase l = map et_sel sl -> forallb tidy_sel sl = true -> forallb names_sel sl = true -> holds st b -> n < r_next st ->
  b_sdecls P base c n l b ms = Ok (b', ms') ->
  exists st', sdecls_read P base (c_in c) (c_env c) n st ms sl st' ms' /\ holds st' b' /\ later st st'.
Proof.
  induction sl as [|x sl IH]; intros Hi l st b ms b' ms' El Ht Hn H L E.
  - destruct l; [|discriminate]. injection E as <- <-. exists st. split; [constructor|]. split; [exact H|apply later_refl].
  - apply erase_cons in El as (t & l' & -> & Et & El). cbn [forallb] in *. apply andb_true_iff in Ht as [Ht1 Ht2], Hn as [Hn1 Hn2].
    cbn [b_sdecls] in E. apply bind_ok in E as ([b1 ms1] & E1 & E). cbn [fst snd] in E.
    specialize (IH (fun y Q => Hi y (or_intror Q)) l'). pose proof (Hi x (or_introl eq_refl)) as Hx. clear Hi.
    destruct x as [ex ty nm v|out ty nm pn|nm v]; cbn [et_sel] in Et; apply erase_not_kept in Et as (s0 & ch & -> & Ec).
    + apply erase_cons in Ec as (t1 & c1 & -> & Q1 & Ec).
      apply erase_cons in Ec as (t2 & c2 & -> & Q2 & Ec). apply erase_cons in Ec as (t3 & c3 & -> & Q3 & Ec).
      apply erase_cons in Ec as (t4 & c4 & -> & Q4 & Ec). destruct c4; [clear Ec|discriminate].
      apply erase_leaf in Q1; [|reflexivity]. apply erase_kept in Q2 as (ch2 & -> & _); [|reflexivity]. apply erase_leaf in Q3; [|reflexivity].
      subst t1 t3. destruct v as [its|pn]; cbn [et_val sel_its tidy_sel names_sel] in *.
      * apply erase_not_kept in Q4 as (s4 & vs & -> & Q4). cbn [b_sdecl tname] in E1. apply bind_ok in E1 as ([b2 m] & E2 & E1).
        rewrite exposure_eq in E2. destruct (bad_member nm) eqn:Bm; [discriminate|]. injection E1 as <- <-. cbn [fst snd] in *.
        apply andb_true_iff in Ht1 as [Tv Tl].
        destruct (member_sound c its ex ty vs st b b2 m Hx Q4 Tv Tl Hn1 H E2) as (st1 & R1 & H1 & L1).
        pose proof (later_lt _ _ _ L1 L) as Ln1.
        destruct (IH (with_member n nm m st1) (set_member n nm m b2) ms b' ms' El Ht2 Hn2 (member_holds n nm m st1 b2 H1 Ln1)) as (st2 & R2 & H2 & L2).
        { exact Ln1. } { exact E. }
        exists st2. split; [econstructor; eassumption|]. split; [exact H2|]. eapply later_trans; [exact L1|exact L2].
      * apply erase_kept in Q4 as (l4 & -> & _); [|reflexivity]. cbn [b_sdecl tname] in E1. destruct (kind_of ty) as [k|] eqn:K; [|discriminate].
        destruct (bad_member nm) eqn:Bm; [discriminate|]. injection E1 as <- <-. rewrite exposure_eq in E.
        destruct (IH _ _ _ b' ms' El Ht2 Hn2 (member_holds n nm _ st b H L) L E) as (st2 & R2 & H2 & L2).
        exists st2. split; [econstructor; eassumption|]. split; [exact H2|exact L2].
    + apply erase_cons in Ec as (t1 & c1 & -> & Q1 & Ec).
      apply erase_cons in Ec as (t2 & c2 & -> & Q2 & Ec). apply erase_cons in Ec as (t3 & im & -> & Q3 & Ec).
      apply erase_leaf in Q1; [|reflexivity]. apply erase_kept in Q2 as (ch2 & -> & _); [|reflexivity]. apply erase_leaf in Q3; [|reflexivity].
      subst t1 t3. cbn [b_sdecl tname] in E1. destruct (_ || _) eqn:Bm in E1; [discriminate|]. apply orb_false_iff in Bm as [Bm Ty].
      apply orb_false_iff in Bm as [Bm Eb]. apply negb_false_iff in Ty. injection E1 as <- <-. rewrite direction_eq in E.
      assert (Im : match im with T _ pn _ :: _ => [(pn, nm)] | [] => [] end = match pn with Some pn => [(pn, nm)] | None => [] end).
      { destruct pn as [pn|]; [|destruct im; [reflexivity|discriminate]]. apply erase_cons in Ec as (t4 & c4 & -> & Q4 & _).
        apply erase_kept in Q4 as (l4 & -> & _); reflexivity. }
      rewrite Im in E.
      destruct (IH _ _ _ b' ms' El Ht2 Hn2 (member_holds n nm (SMEvent out ty) st b H L) L E) as (st2 & R2 & H2 & L2).
      exists st2. split; [|split; [exact H2|exact L2]]. constructor; [| |exact R2].
      * split; [exact Bm|]. intros Hin. apply in_map_iff in Hin as (f & <- & Hf).
        assert (existsb (fun g => text_eqb (f_name g) (f_name f)) script_base = true); [|congruence].
        apply existsb_exists. exists f. split; [exact Hf|apply text_eqb_refl].
      * unfold is_type in Ty. destruct (kind_of ty); [discriminate|discriminate].
    + injection E1 as <- <-. destruct (IH st b ms b' ms' El Ht2 Hn2 H L E) as (st2 & R2 & H2 & L2).
      exists st2. split; [constructor; exact R2|]. split; assumption.
Qed.
Lemma maps_hold n ms : forall st b, holds st b -> holds (with_maps n ms st) (add_maps n ms b) /\ later st (with_maps n ms st).
Proof.
  induction ms as [|m ms IH]; intros st b H; [split; [exact H|apply later_refl]|].
  exact (IH (with_is (fst m) n (snd m) st) (add_is (fst m) n (snd m) b) (is_holds st b (fst m) n (snd m) H)).
Qed.
Lemma sattrs_sound c n sl : (forall x, In x sl -> Forall i_ok (sel_its x)) -> forall l st b b',
  map erase l = map et_sel sl -> forallb tidy_sel sl = true -> forallb names_sel sl = true -> holds st b -> n < r_next st ->
  b_sattrs P base c n l b = Ok b' ->
  exists st', sattrs_read P base (c_in c) (c_env c) n st sl st' /\ holds st' b' /\ later st st'.
Proof.
  induction sl as [|x sl IH]; intros Hi l st b b' El Ht Hn H L E.
  - destruct l; [|discriminate]. injection E as <-. exists st. split; [constructor|]. split; [exact H|apply later_refl].
  - apply erase_cons in El as (t & l' & -> & Et & El). cbn [forallb] in *. apply andb_true_iff in Ht as [Ht1 Ht2], Hn as [Hn1 Hn2].
    cbn [b_sattrs] in E. apply bind_ok in E as (b1 & E1 & E).
    specialize (IH (fun y Q => Hi y (or_intror Q)) l'). pose proof (Hi x (or_introl eq_refl)) as Hx. clear Hi.
    destruct x as [ex ty nm v|out ty nm pn|nm v]; cbn [et_sel] in Et; apply erase_not_kept in Et as (s0 & ch & -> & Ec);
      try (injection E1 as <-; destruct (IH st b b' El Ht2 Hn2 H L E) as (st2 & R2 & H2 & L2); exists st2;
           split; [constructor; [exact Logic.I|exact R2]|split; assumption]).
    apply erase_cons in Ec as (t1 & ch1 & -> & Et1 & Ec).
    apply erase_cons in Ec as (t2 & ch2 & -> & Et2 & Ec). destruct ch2; [clear Ec|discriminate].
    apply erase_leaf in Et1; [|reflexivity]. subst t1. cbn [b_sattr tname] in E1.
    destruct v as [its|pn]; cbn [et_val sel_its tidy_sel names_sel] in *.
    + apply erase_not_kept in Et2 as (s1 & vs & -> & Ev). destruct (script_find (members_of b n) nm) as [f|] eqn:Ff; [|destruct (odd_name nm); discriminate].
      apply (script_find_spec st b n nm f H L) in Ff as (Fn & Fs). apply bind_ok in E1 as ([b2 v] & E2 & E1). injection E1 as <-. cbn [fst snd] in *.
      apply andb_true_iff in Ht1 as [Tv Tl]. subst nm.
      destruct (value_sound c its f vs st b b2 v Hx Ev Tv Tl Hn1 H E2) as (st1 & R1 & H1 & L1).
      pose proof (later_lt _ _ _ L1 L) as Ln1.
      destruct (IH _ _ b' El Ht2 Hn2 (set_one_holds n (f_name f) v st1 b2 H1 Ln1) Ln1 E) as (st2 & R2 & H2 & L2).
      exists st2. split; [econstructor; eassumption|]. split; [exact H2|]. eapply later_trans; [exact L1|exact L2].
    + apply erase_kept in Et2 as (l2 & -> & _); [|reflexivity]. destruct (is_script_attr _ nm) eqn:Sa; [|discriminate]. apply (script_attr_spec st b n nm H L) in Sa.
      destruct (c_in c) eqn:Ci; [|discriminate]. injection E1 as <-.
      destruct (IH _ _ b' El Ht2 Hn2 (is_holds st b pn n nm H) L E) as (st2 & R2 & H2 & L2).
      exists st2. split; [constructor; [reflexivity|exact Sa|exact R2]|]. split; [exact H2|exact L2].
Qed.
Lemma sel_not_name x t : erase t = et_sel x -> match t with T G_name _ _ => False | _ => True end.
Proof. destruct t as [g s l], x; cbn; intros E; injection E as -> _ _; exact Logic.I. Qed.
Lemma build_script_plain c s rest sl b : map erase rest = map et_sel sl ->
  build_item P base c (T G_Script s rest) b = b_script P base c None rest b.
Proof.
  intros E. rewrite build_script. destruct rest as [|[g x y] rest]; [reflexivity|]. destruct sl as [|z sl]; [discriminate|].
  cbn [map] in E. injection E as E _. apply (sel_not_name z (T g x y)) in E. destruct g; try reflexivity. destruct E.
Qed.
Lemma item_sound i : i_ok i.
Proof.
  induction i as [x|x| |x|nm|d gi l H|d l H] using sitem_all; intros c t st b b' r Et Ht Hn H0 E.
  - cbn in Et. apply erase_leaf in Et; [|reflexivity]. subst. discriminate.
  - cbn in Et. apply erase_leaf in Et; [|reflexivity]. subst. discriminate.
  - cbn in Et. apply erase_not_kept in Et as (s & l & -> & _). injection E as <- <-. exists st. split; [constructor|]. split; [exact H0|apply later_refl].
  - cbn in Et. apply erase_kept in Et as (l & -> & _); [|reflexivity]. discriminate.
  - cbn in Et. apply erase_kept in Et as (l & -> & _); [|reflexivity]. cbn [build_item] in E.
    destruct (getDEF (s_defs b) nm) as [n|] eqn:G; [|discriminate]. injection E as <- <-. exists st. split; [|split; [exact H0|apply later_refl]].
    constructor. rewrite <- (ds_names _ _ (proj1 H0)); [exact G|]. destruct nm; discriminate.
  - cbn [et_item] in Et. apply erase_not_kept in Et as (s & ch & -> & Ec).
    assert (G : forall rest, map erase rest = map (fun p => T G_Attr [] [tname (fst p); et_val (snd p)]) l ->
      b_node P base c d gi rest b = Ok (b', r) ->
      exists st', item_reads P base (c_in c) (c_env c) st (SNode d gi l) st' r /\ holds st' b' /\ later st st').
    { intros rest Er E2. unfold b_node in E2. destruct (among gi not_types); [discriminate|].
      destruct (proto (known base c) gi) as [fs|] eqn:Pg; [|discriminate]. apply bind_ok in E2 as ([] & Ei & E2). apply inst_sound in Ei.
      apply bind_ok in E2 as (b1 & E2 & E3). injection E3 as <- <-. cbn [names_item] in Hn. apply andb_true_iff in Hn as [Hd Hn].
      assert (Dn : forall nm, d = Some nm -> given nm = true) by (intros nm ->; exact Hd).
      pose proof (enter_holds d gi st b Dn H0) as H1. pose proof (ds_next _ _ (proj1 H0)) as Nx. rewrite Nx in *.
      destruct (attrs_sound c (r_next st) gi fs (match d with Some nm => nm | None => [] end) l H rest (enter_node d gi st) _ b1 Er Ht Hn H1) as (st' & R & H2 & L).
      - cbn [enter_node r_nodes]. rewrite nth_snoc. unfold r_next. rewrite Nat.eqb_refl. reflexivity.
      - exact E2.
      - exists st'. split; [econstructor; eassumption|]. split; [exact H2|]. eapply later_trans; [|exact L]. eexists. reflexivity. }
    destruct d as [nm|]; cbn [app] in Ec.
    + apply erase_cons in Ec as (t1 & c1 & -> & Et1 & Ec). apply erase_leaf in Et1; [|reflexivity]. subst t1.
      apply erase_cons in Ec as (t2 & rest & -> & Et2 & Er). apply erase_kept in Et2 as (l2 & -> & _); [|reflexivity].
      unfold tname in E. rewrite build_node_named in E. exact (G rest Er E).
    + apply erase_cons in Ec as (t2 & rest & -> & Et2 & Er). apply erase_kept in Et2 as (l2 & -> & _); [|reflexivity].
      rewrite build_node_plain in E. exact (G rest Er E).
  - cbn [et_item] in Et. apply erase_not_kept in Et as (s & ch & -> & Ec).
    assert (G : forall rest, map erase rest = map et_sel l -> b_script P base c d rest b = Ok (b', r) ->
      exists st', item_reads P base (c_in c) (c_env c) st (SScript d l) st' r /\ holds st' b' /\ later st st').
    { intros rest Er E2. unfold b_script in E2. apply bind_ok in E2 as ([b1 ms] & E2 & E3). cbn [fst snd] in E3.
      apply bind_ok in E3 as (b2 & E3 & E4). apply bind_ok in E4 as (b3 & E4 & E5). injection E5 as <- <-.
      cbn [names_item] in Hn. apply andb_true_iff in Hn as [Hd Hn]. cbn [tidy] in Ht. fold tidy_sel in Ht. fold names_sel in Hn.
      assert (Dn : forall nm, d = Some nm -> given nm = true) by (intros nm ->; exact Hd).
      pose proof (enter_holds d script_gi st b Dn H0) as H1. pose proof (ds_next _ _ (proj1 H0)) as Nx. rewrite Nx in *.
      assert (Ln : r_next st < r_next (enter_node d script_gi st)) by (unfold r_next, enter_node; cbn [r_nodes]; rewrite app_length; cbn; lia).
      destruct (sdecls_sound c (r_next st) l H rest _ _ [] b1 ms Er Ht Hn H1 Ln E2) as (st1 & R1 & H2 & L1).
      destruct (maps_hold (r_next st) ms st1 b1 H2) as (H3 & Lm).
      assert (M : (ms = [] \/ c_in c = true) /\ b2 = add_maps (r_next st) ms b1).
      { destruct ms as [|m ms]; [injection E3 as <-; auto|]. destruct (c_in c); [injection E3 as <-; auto|discriminate]. }
      destruct M as (M & ->).
      destruct (sattrs_sound c (r_next st) l H rest _ _ b3 Er Ht Hn H3) with (2 := E4) as (st2 & R2 & H4 & L2).
      { eapply later_lt; [exact Lm|]. eapply later_lt; [exact L1|exact Ln]. }
      exists st2. split; [econstructor; eassumption|]. split; [exact H4|]. eapply later_trans; [|exact L2]. eapply later_trans; [|exact Lm].
      eapply later_trans; [|exact L1]. eexists. reflexivity. }
    destruct d as [nm|]; cbn [app] in Ec.
    + apply erase_cons in Ec as (t1 & c1 & -> & Et1 & Ec). apply erase_leaf in Et1; [|reflexivity]. subst t1.
      unfold tname in E. rewrite build_script in E. exact (G c1 Ec E).
    + rewrite (build_script_plain c s ch l b Ec) in E. exact (G ch Ec E).
Qed.

(** *** PROTO declarations *)
Lemma kind_sound ty its l k : map erase l = map et_item its -> tidy_value its = true -> decl_kind ty l = Ok k -> kind_reads ty its k.
Proof.
  intros El Tv E. unfold decl_kind in E.
  assert (N0 : match l with x :: _ => node_entry x = false | [] => True end -> forallb plain its = true).
  { intros Q. destruct l as [|x l], its as [|i its]; try discriminate; [reflexivity|]. cbn in El. injection El as Ex _.
    rewrite (entry_tag x i Ex) in Q. cbn [tidy_value] in Tv. rewrite Q in Tv. exact Tv. }
  destruct (text_eqb ty (lit "SFNode")) eqn:E1; [|destruct (text_eqb ty (lit "MFNode")) eqn:E2].
  - apply text_eqb_spec in E1. subst ty. destruct l as [|x l]; [discriminate|]. destruct its as [|i its]; [discriminate|].
    cbn in El. injection El as Ex _. pose proof (entry_tag x i Ex) as Ni. destruct x as [tag s ch].
    destruct tag; try (destruct (node_entry _); discriminate). injection E as <-. destruct i; cbn in Ex; try discriminate. constructor.
  - apply text_eqb_spec in E2. subst ty. assert (k = KNodes false /\ forallb plain its = true) as (-> & Q).
    { destruct l as [|x l]; [injection E as <-; auto|]. destruct (node_entry x) eqn:Ne; [discriminate|]. injection E as <-. auto. }
    constructor. exact Q.
  - destruct (fty_of ty) as [t|] eqn:F; [|discriminate].
    assert (exists v, k = KVal t v /\ handler t l = Ok v /\ forallb plain its = true) as (v & -> & Hv & Q).
    { destruct l as [|x l]; [|destruct (node_entry x) eqn:Ne; [discriminate|]]; apply bind_ok in E as (v & E & E3); injection E3 as <-; eauto. }
    econstructor; [exact F|exact Q|]. rewrite (erase_plains l its Q El) in Hv. exact Hv.
Qed.
Lemma decls_sound c ds : forall l r s t2 mem p, map erase l = map et_decl ds -> forallb tidy_decl ds = true ->
  b_declared P base c (l ++ [T G_vrmlScene s r]) mem = Ok p -> t2 = T G_vrmlScene s r ->
  exists mem' q, decls_read mem ds mem' /\ build_scene P base c r file0 = Ok q /\ p = PDef mem' (fst q) (snd q).
Proof.
  induction ds as [|d ds IH]; intros l r s t2 mem p El Td E _.
  - destruct l; [|discriminate]. cbn [app b_declared] in E. apply bind_ok in E as (q & E & E2). injection E2 as <-.
    exists mem, q. split; [constructor|]. split; [exact E|reflexivity].
  - apply erase_cons in El as (t & l' & -> & Et & El). cbn [forallb app] in *. apply andb_true_iff in Td as [Td1 Td2].
    assert (E0 : exists mem1, decl t mem = Ok mem1 /\ b_declared P base c (l' ++ [T G_vrmlScene s r]) mem1 = Ok p).
    { destruct t as [tag sp ch]. cbn [b_declared] in E.
      assert (tag <> G_vrmlScene) by (destruct d; cbn in Et; injection Et as -> _ _; discriminate).
      destruct tag; try contradiction; apply bind_ok in E as (m1 & E & E2); eauto. }
    destruct E0 as (mem1 & E1 & E2). destruct (IH l' r s _ mem1 p El Td2 E2 eq_refl) as (mem' & q & R & B & ->).
    exists mem', q. split; [|split; [exact B|reflexivity]]. destruct d as [ex ty nm its|out ty nm]; cbn [et_decl] in Et.
    + apply erase_not_kept in Et as (s0 & ch & -> & Ec). apply erase_cons in Ec as (t1 & c1 & -> & Q1 & Ec).
      apply erase_cons in Ec as (t2' & c2 & -> & Q2 & Ec). apply erase_cons in Ec as (t3 & c3 & -> & Q3 & Ec).
      apply erase_cons in Ec as (t4 & c4 & -> & Q4 & Ec). destruct c4; [clear Ec|discriminate].
      apply erase_leaf in Q1; [|reflexivity]. apply erase_kept in Q2 as (ch2 & -> & _); [|reflexivity]. apply erase_leaf in Q3; [|reflexivity].
      apply erase_not_kept in Q4 as (s4 & l4 & -> & Q4). subst t1 t3. cbn [decl] in E1. apply bind_ok in E1 as (k & K & E1).
      rewrite exposure_eq in E1. destruct (starts_with (lit "__") nm || among nm reserved); [discriminate|]. injection E1 as <-.
      econstructor; [|exact R]. eapply kind_sound; eassumption.
    + apply erase_not_kept in Et as (s0 & ch & -> & Ec). apply erase_cons in Ec as (t1 & c1 & -> & Q1 & Ec).
      apply erase_cons in Ec as (t2' & c2 & -> & Q2 & Ec). apply erase_cons in Ec as (t3 & c3 & -> & Q3 & Ec). destruct c3; [clear Ec|discriminate].
      apply erase_leaf in Q1; [|reflexivity]. apply erase_kept in Q2 as (ch2 & -> & _); [|reflexivity]. apply erase_leaf in Q3; [|reflexivity].
      subst t1 t3. cbn [decl] in E1. rewrite direction_eq in E1. destruct (_ || _); [discriminate|]. destruct (_ || _) in E1; [|discriminate].
      injection E1 as <-. constructor. exact R.
Qed.

Lemma strs_eq url : map et_str url = map et_item (map SStr url).
Proof. rewrite map_map. reflexivity. Qed.
Lemma erase_strs l url : map erase l = map et_str url -> l = map et_str url.
Proof. rewrite strs_eq. apply erase_plains. induction url; [reflexivity|assumption]. Qed.
Lemma xdecls_sound ds : forall l r s url mem p, map erase l = map et_xdecl ds -> map erase r = map et_str url ->
  xdecls P (l ++ [T G_ExtProtoURL s r]) mem = Ok p ->
  exists mem' u, xdecls_read mem ds mem' /\ read_value P MFString (map et_str url) = Ok u /\ p = PExt mem' u.
Proof.
  induction ds as [|d ds IH]; intros l r s url mem p El Er E.
  - destruct l; [|discriminate]. cbn [app xdecls] in E. apply bind_ok in E as (u & E & E2). injection E2 as <-.
    apply erase_strs in Er. subst r. exists mem, u. split; [constructor|]. split; [exact E|reflexivity].
  - apply erase_cons in El as (t & l' & -> & Et & El). cbn [app] in *.
    assert (E0 : exists mem1, decl t mem = Ok mem1 /\ xdecls P (l' ++ [T G_ExtProtoURL s r]) mem1 = Ok p).
    { destruct t as [tag sp ch]. cbn [xdecls] in E.
      assert (tag <> G_ExtProtoURL) by (destruct d; cbn in Et; injection Et as -> _ _; discriminate).
      destruct tag; try contradiction; apply bind_ok in E as (m1 & E & E2); eauto. }
    destruct E0 as (mem1 & E1 & E2). destruct (IH l' r s url mem1 p El Er E2) as (mem' & u & R & B & ->).
    exists mem', u. split; [|split; [exact B|reflexivity]]. destruct d as [ex ty nm|out ty nm]; cbn [et_xdecl] in Et;
      apply erase_not_kept in Et as (s0 & ch & -> & Ec); apply erase_cons in Ec as (t1 & c1 & -> & Q1 & Ec);
      apply erase_cons in Ec as (t2' & c2 & -> & Q2 & Ec); apply erase_cons in Ec as (t3 & c3 & -> & Q3 & Ec);
      (destruct c3; [clear Ec|discriminate]);
      (apply erase_leaf in Q1; [|reflexivity]); (apply erase_kept in Q2 as (ch2 & -> & _); [|reflexivity]); (apply erase_leaf in Q3; [|reflexivity]);
      subst t1 t3; cbn [decl tname] in E1.
    + destruct (kind_of ty) as [k|] eqn:K; [|discriminate]. rewrite exposure_eq in E1. destruct (_ || _) in E1; [discriminate|].
      injection E1 as <-. econstructor; [exact K|exact R].
    + rewrite direction_eq in E1. destruct (_ || _); [discriminate|]. destruct (_ || _) in E1; [|discriminate].
      injection E1 as <-. constructor. exact R.
Qed.

(** *** scenes *)
Definition r_ok (r : sroot) : Prop := forall c t tab st b s', erase t = et_root r -> tidy_root r = true -> names_root r = true ->
  holds st b -> build_root P base c t (tab, b) = Ok s' ->
  exists st', root_reads P base (c_in c) (c_env c) (tab, st) r (fst s', st') /\ holds st' (snd s').
Lemma roots_sound c rl : Forall r_ok rl -> forall l tab st b s', map erase l = map et_root rl -> forallb tidy_root rl = true ->
  forallb names_root rl = true -> holds st b -> build_scene P base c l (tab, b) = Ok s' ->
  exists st', roots_read P base (c_in c) (c_env c) (tab, st) rl (fst s', st') /\ holds st' (snd s').
Proof.
  induction 1 as [|r rl Hr _ IH]; intros l tab st b s' El Ht Hn H E.
  - destruct l; [|discriminate]. injection E as <-. exists st. split; [constructor|exact H].
  - apply erase_cons in El as (t & l' & -> & Et & El). cbn [forallb] in *. apply andb_true_iff in Ht as [Ht1 Ht2], Hn as [Hn1 Hn2].
    cbn [build_scene] in E. apply bind_ok in E as ([tab1 b1] & E1 & E).
    destruct (Hr c t tab st b _ Et Ht1 Hn1 H E1) as (st1 & R1 & H1). cbn [fst snd] in *.
    destruct (IH l' tab1 st1 b1 s' El Ht2 Hn2 H1 E) as (st2 & R2 & H2). exists st2. split; [econstructor; eassumption|exact H2].
Qed.
Lemma root_sound r : r_ok r.
Proof.
  induction r as [i|a af b0 bf|gi ds l H|gi ds url] using sroot_all; intros c t tab st b s' Et Ht Hn H0 E;
    unfold et_root in Et; apply erase_not_kept in Et as (s & ch & -> & Ec); apply erase_cons in Ec as (t1 & c1 & -> & Et & Ec);
    (destruct c1; [clear Ec|discriminate]); rewrite build_root_item in E; cbn [build_scene] in E; apply bind_ok in E as (s1 & E & E1);
    injection E1 as <-.
  - cbn [et_sroot] in Et. assert (Tg : exists p, build_item P base (inside c (tab, b)) t1 b = Ok p /\ s1 = (tab, add_kid (snd p) (fst p))).
    { destruct t1 as [tag sp ch]. cbn [build_root fst snd] in E.
      assert (tag <> G_rootItem /\ tag <> G_ROUTE /\ tag <> G_Proto /\ tag <> G_ExternProto) as (N1 & N2 & N3 & N4)
        by (destruct i; cbn in Et; injection Et as -> _ _; repeat split; discriminate).
      destruct tag; try contradiction; apply bind_ok in E as (p & E & E2); injection E2 as <-; eauto. }
    destruct Tg as ([b1 r] & E1 & ->). destruct (item_sound i _ _ _ _ _ _ Et Ht Hn H0 E1) as (st1 & R & H1 & _).
    exists (with_kid r st1). cbn [fst snd inside c_in c_env] in *. split; [constructor; exact R|apply kid_holds; exact H1].
  - cbn [et_sroot] in Et. apply erase_not_kept in Et as (s0 & ch & -> & Ec).
    apply erase_cons in Ec as (t1 & c1 & -> & Q1 & Ec). apply erase_cons in Ec as (t2 & c2 & -> & Q2 & Ec).
    apply erase_cons in Ec as (t3 & c3 & -> & Q3 & Ec). apply erase_cons in Ec as (t4 & c4 & -> & Q4 & Ec). destruct c4; [clear Ec|discriminate].
    apply erase_leaf in Q1; [|reflexivity]. apply erase_leaf in Q2; [|reflexivity]. apply erase_leaf in Q3; [|reflexivity].
    apply erase_leaf in Q4; [|reflexivity]. subst. cbn [build_root fst snd build_route] in E. cbn [names_root] in Hn.
    apply andb_true_iff in Hn as [Ha Hb].
    assert (a <> []) by (intros ->; discriminate). assert (b0 <> []) by (intros ->; discriminate).
    rewrite !(ds_names _ _ (proj1 H0)) in E by assumption. destruct (named_node st a) as [n|] eqn:Na; [|discriminate].
    destruct (named_node st b0) as [m|] eqn:Nb; [|discriminate]. injection E as <-. exists (with_route ((n, af), (m, bf)) st).
    cbn [fst snd]. split; [constructor; assumption|apply route_holds; exact H0].
  - cbn [et_sroot] in Et. apply erase_not_kept in Et as (s0 & ch & -> & Ec).
    apply erase_cons in Ec as (t1 & c1 & -> & Q1 & Ec). apply erase_kept in Q1 as (l1 & -> & _); [|reflexivity].
    rewrite build_root_proto in E. destruct (among gi not_types); [discriminate|]. cbn [fst snd inside] in E.
    destruct (proto (known base _) gi) eqn:Pg; [discriminate|]. apply bind_ok in E as (p & E & E1). injection E1 as <-.
    apply map_eq_app in Ec as (ld & ls & -> & Ed & Es). apply erase_cons in Es as (t2 & c2 & -> & Q2 & Es). destruct c2; [clear Es|discriminate].
    apply erase_not_kept in Q2 as (s2 & chs & -> & Qs). cbn [tidy_root names_root] in Ht, Hn. apply andb_true_iff in Ht as [Td Tl].
    destruct (decls_sound _ ds ld chs s2 _ [] p Ed Td E eq_refl) as (mem & [inner body] & Rd & B & ->). cbn [fst snd].
    destruct (roots_sound _ l H chs [] rs0 scene0 (inner, body) Qs Tl Hn holds0 B) as (stb & Rb & Hb). cbn [fst snd c_in c_env] in *.
    exists st. split; [|exact H0]. econstructor; [exact Pg|exact Rd|exact Rb|exact (proj1 Hb)].
  - cbn [et_sroot] in Et. apply erase_not_kept in Et as (s0 & ch & -> & Ec).
    apply erase_cons in Ec as (t1 & c1 & -> & Q1 & Ec). apply erase_kept in Q1 as (l1 & -> & _); [|reflexivity].
    rewrite build_root_extern in E. destruct (among gi not_types); [discriminate|]. cbn [fst snd inside] in E.
    destruct (proto (known base _) gi) eqn:Pg; [discriminate|]. apply bind_ok in E as (p & E & E1). injection E1 as <-.
    apply map_eq_app in Ec as (ld & ls & -> & Ed & Es). apply erase_cons in Es as (t2 & c2 & -> & Q2 & Es). destruct c2; [clear Es|discriminate].
    apply erase_not_kept in Q2 as (s2 & chs & -> & Qs).
    destruct (xdecls_sound ds ld chs s2 url [] p Ed Qs E) as (mem & u & Rd & Ru & ->). cbn [fst snd].
    exists st. split; [|exact H0]. econstructor; eassumption.
Qed.
End Sound.
