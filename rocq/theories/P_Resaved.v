(** C74, C75, C76: what is lost when files with PROTOs are saved. *)
From Coq Require Import Reals Permutation SpecFloat.
From Flocq Require Import Core.Core IEEE754.BinarySingleNaN.
From Verif Require Import Base Text PyDict PyDict_Proofs Float Coerce_Model Coerce_Spec Grammar_Model Grammar_Proofs Lex_Spec
  Doc_Spec SceneGraph_Model VrmlStr_Model VrmlStr_Spec Scene_Model Linearise_Model
  Build_Model Proto_Model Scene_Spec Proto_Spec Std_Proofs FloatStr P_VrmlStr P_Scene P_Linearise P_Reading P_Reload ProtoTable ProtoFile P_Proto.
Local Open Scope nat_scope.
Local Open Scope list_scope.
Notation RNode := Scene_Model.RNode.

Lemma url_owned p k : dget text_eqb (p_mem p) url = Some k -> owns_url p = true.
Proof.
  intros H. apply (dget_In text_eqb text_eqb_spec) in H. unfold owns_url. apply existsb_exists. exists (url, k). split; [exact H|reflexivity].
Qed.
Lemma back_owned P base all pre tab : back P base all pre tab -> Forall (fun x => owns_url (snd x) = true /\ p_inner (snd x) = []) tab.
Proof.
  induction 1 as [|pre tab nm p p' e _ IH _ _ _ L]; [constructor|]. apply Forall_app. split; [exact IH|]. constructor; [|constructor].
  destruct (lk_url _ _ _ _ _ L) as (k & H & _). split; [exact (url_owned _ _ H)|exact (lk_inner _ _ _ _ _ L)].
Qed.

(** C74 is refuted: no file with PROTOs that was saved and loaded can be saved
    again.  [F'] is what reading the saved text of [F] gives, and saving [F']
    fails whatever the settings are: saved PROTOs declare externalURL, which is
    then taken for the URL of an EXTERNPROTO. *)
Theorem C74_loaded_protos_can_be_saved_refuted : forall P fstr base st F text F',
  wf_protos P base -> ok_file P base F -> ok_settings st -> faithful fstr -> fst F <> [] ->
  write_file P fstr base st F = Some text -> loads P base text (Base.Ok F') ->
  same_file P base F F' /\ forall fstr' st', write_file P fstr' base st' F' = None.
Proof.
  intros P fstr base st F text F' WB OF ST FS Ne W (c & trees & Pa & B).
  destruct (file_back P fstr base st F WB OF ST FS) as (text' & c' & trees' & tab & S' & W' & Pa' & B' & Sm & Bk).
  rewrite W in W'. injection W' as <-. pose proof (parses_det _ _ _ _ Pa Pa') as Q. injection Q as -> ->. rewrite B in B'. injection B' as ->.
  split; [exact Sm|]. intros fstr' st'. pose proof (back_owned _ _ _ _ _ Bk) as Ow.
  assert (Nt : tab <> []).
  { intros ->. destruct Sm as [Sm _]. inversion Sm as [E|]. destruct (fst F) as [|[nm p] l]; [contradiction|].
    unfold flat in E. cbn [flat_map fst snd] in E. rewrite flat_proto_eq in E. symmetry in E. apply app_eq_nil in E as [E _]. apply app_eq_nil in E as [_ E]. discriminate E. }
  destruct tab as [|[nm p] tab]; [contradiction|]. inversion Ow as [|? ? [Ou In0] _]; subst. cbn [snd] in *.
  unfold write_file. cbn [fst write_table snd]. rewrite write_proto_eq, In0. cbn [fst snd among existsb w_table app]. unfold proto_text. rewrite Ou. reflexivity.
Qed.
Print Assumptions C74_loaded_protos_can_be_saved_refuted.
Example C74_demo : exists text F', write_file P_ex exact_str bstd set_defaults pfile = Some text /\ loads P_ex bstd text (Base.Ok F') /\
  List.length (fst F') = 2 /\ forall fstr' st', write_file P_ex fstr' bstd st' F' = None.
Proof.
  destruct C73_demo as (text & c & trees & F' & W & Pa & B & Sm). exists text, F'. split; [exact W|].
  assert (L : loads P_ex bstd text (Base.Ok F')) by (exists c, trees; auto). split; [exact L|]. split.
  - destruct Sm as [Sm _]. change 2 with (List.length (flat (fst pfile))). symmetry. induction Sm; cbn [List.length]; congruence.
  - apply (C74_loaded_protos_can_be_saved_refuted P_ex exact_str bstd set_defaults pfile text F' (std_wf _) pfile_ok st_default exact_faithful); [discriminate|exact W|exact L].
Qed.

(** *** concrete files *)
(** the PROTOs of a file, with the types of the nodes in their bodies and the
    fields that stand for others by IS *)
Definition summary (F : file) : list (text * list text * list (text * list (nat * text))) :=
  map (fun x => (fst x, map (fun n => match s_node (p_body (snd x)) n with Some nd => n_gi nd | None => [] end)
                            (seq 0 (s_next (p_body (snd x)))), s_is (p_body (snd x)))) (flat (fst F)).
Definition saved_once (d : text) : option (list (text * list text * list (text * list (nat * text))) * text * list (text * list text * list (text * list (nat * text)))) :=
  match file_on bstd d with
  | Base.Ok F => match write_file P_ex exact_str bstd set_defaults F with
                 | Some t => match file_on bstd t with Base.Ok F' => Some (summary F, t, summary F') | _ => None end
                 | None => None
                 end
  | _ => None
  end.
Lemma saved_once_ok d a b : match saved_once d with Some (x, _, y) => Some (x, y) | None => None end = Some (a, b) ->
  exists F t F', loads P_ex bstd d (Base.Ok F) /\ write_file P_ex exact_str bstd set_defaults F = Some t /\
    loads P_ex bstd t (Base.Ok F') /\ summary F = a /\ summary F' = b.
Proof.
  unfold saved_once. destruct (file_on bstd d) as [F|] eqn:E1; [|discriminate]. destruct (write_file P_ex exact_str bstd set_defaults F) as [t|] eqn:E2; [|discriminate].
  destruct (file_on bstd t) as [F'|] eqn:E3; [|discriminate]. intros [= <- <-]. exists F, t, F'. split; [exact (file_on_loads _ _ _ E1)|].
  split; [exact E2|]. split; [exact (file_on_loads _ _ _ E3)|]. auto.
Qed.

(** C75 is refuted: PROTOs of the same name inside different PROTOs are one PROTO
    after saving.  B's Dot was a Box; saved and loaded, it is A's Sphere. *)
Definition two_dots : text := header ++ [10%N] ++
  lit "PROTO A [] { PROTO Dot [] { Sphere { } } Dot { } } PROTO B [] { PROTO Dot [] { Box { } } Dot { } } A { } B { }".
Theorem C75_inner_protos_stay_apart_refuted : exists F t F', loads P_ex bstd two_dots (Base.Ok F) /\
  write_file P_ex exact_str bstd set_defaults F = Some t /\ loads P_ex bstd t (Base.Ok F') /\
  summary F = [(lit "Dot", [lit "Sphere"], []); (lit "A", [lit "Dot"], []);
               (lit "Dot", [lit "Box"], []); (lit "B", [lit "Dot"], [])] /\
  summary F' = [(lit "Dot", [lit "Sphere"], []); (lit "A", [lit "Dot"], []); (lit "B", [lit "Dot"], [])].
Proof. apply saved_once_ok. vm_compute. reflexivity. Qed.
Print Assumptions C75_inner_protos_stay_apart_refuted.

(** C76 is refuted: events of the PROTO's interface that events in its body
    stand for by IS are declared, but connected to nothing, after saving. *)
Definition button : text := header ++ [10%N] ++
  lit "PROTO Knob [ eventOut SFBool pressed ] { Sphere { } } PROTO Button [ eventOut SFBool pushed ] { Knob { pressed IS pushed } } Button { }".
Theorem C76_event_maps_are_saved_refuted : exists F t F', loads P_ex bstd button (Base.Ok F) /\
  write_file P_ex exact_str bstd set_defaults F = Some t /\ loads P_ex bstd t (Base.Ok F') /\
  summary F = [(lit "Knob", [lit "Sphere"], []); (lit "Button", [lit "Knob"], [(lit "pushed", [(0, lit "pressed")])])] /\
  summary F' = [(lit "Knob", [lit "Sphere"], []); (lit "Button", [lit "Knob"], [])].
Proof. apply saved_once_ok. vm_compute. reflexivity. Qed.
Print Assumptions C76_event_maps_are_saved_refuted.

(** *** for every file *)
(** C76, for all files of C73: after saving and loading, only fields stand for
    members of a PROTO.  No map of an event of a node is there any more. *)
Lemma back_agree P base all pre tab nm p' : back P base all pre tab -> In (nm, p') tab -> exists p e, agree e pre /\ like P base e p p'.
Proof.
  intros B H. induction B as [|pre tab n q q' e B IH Ok A Nn L]; [destruct H|]. apply in_app_or in H as [H|[H|[]]].
  - destruct (IH H) as (p & e' & H1 & H2). exists p, e'. split; [apply agree_snoc; exact H1|exact H2].
  - injection H as <- <-. exists q, e. split; [apply agree_snoc; exact A|exact L].
Qed.
Theorem C76_every_event_map_is_lost_refuted : forall P fstr base st F text F',
  wf_protos P base -> ok_file P base F -> ok_settings st -> faithful fstr ->
  write_file P fstr base st F = Some text -> loads P base text (Base.Ok F') ->
  same_file P base F F' /\
  forall nm p' m y pn, In (nm, p') (fst F') -> imap (p_body p') m y pn ->
    exists nd fs, s_node (p_body p') m = Some nd /\ proto (types base (fst F')) (n_gi nd) = Some fs /\ In y (map f_name fs).
Proof.
  intros P fstr base st F text F' WB OF ST FS W (c & trees & Pa & B).
  destruct (file_back P fstr base st F WB OF ST FS) as (text' & c' & trees' & tab & S' & W' & Pa' & B' & Sm & Bk).
  rewrite W in W'. injection W' as <-. pose proof (parses_det _ _ _ _ Pa Pa') as Q. injection Q as -> ->. rewrite B in B'. injection B' as ->.
  split; [exact Sm|]. intros nm p' m y pn Hp Im. cbn [fst] in *. destruct (back_agree _ _ _ _ _ _ _ Bk Hp) as (p & e & A & L).
  destruct (imap_back P base e p p' m y pn L Im) as (a & nd & nd' & fs & Na & Nb & Gi & Pr & Hy & _).
  destruct (type_back P base (flat (fst F)) WB (flat (fst F)) tab e (n_gi nd) fs Bk A Pr) as (fs' & Pr' & Fo).
  exists nd', fs'. split; [exact Nb|]. rewrite Gi. split; [exact Pr'|]. apply in_map_iff in Hy as (f & <- & Hf). destruct (Fo f Hf) as (f' & Ff & _).
  clear - Ff. induction fs' as [|g fs' IH]; [discriminate|]. cbn [find_field] in Ff. destruct (text_eqb (f_name g) (f_name f)) eqn:E; [left; apply text_eqb_spec; exact E|right; exact (IH Ff)].
Qed.
Print Assumptions C76_every_event_map_is_lost_refuted.

(** C75, for all files: of a PROTO inside another one, whose name a PROTO before
    has, nothing is saved: two files that differ in what it is are saved as the same
    text. *)
Section Confused.
Variable P : prims.
Variable fstr : tcode -> fl -> text.
Variable base : list (text * list fdecl).
Variable st : settings.
Lemma among_in nm l : among nm l = true <-> In nm l.
Proof. unfold among. rewrite existsb_exists. split; [intros (x & H & E); apply text_eqb_spec in E; subst; exact H|intros H; exists nm; split; [exact H|apply text_eqb_spec; reflexivity]]. Qed.
Notation writes := (write_proto P fstr base st).
Definition looks (env env' : list (text * pdef)) : Prop := map (fun p => (fst p, pfields (snd p))) env = map (fun p => (fst p, pfields (snd p))) env'.
Lemma looks_app a a' b b' : looks a a' -> looks b b' -> looks (a ++ b) (a' ++ b').
Proof. unfold looks. intros A B. rewrite !map_app, A, B. reflexivity. Qed.
Lemma looks_refl a : looks a a. Proof. reflexivity. Qed.
Lemma text_looks env env' nm p : looks env env' -> proto_text P fstr base st env nm p = proto_text P fstr base st env' nm p.
Proof. intros L. unfold proto_text, types. rewrite L. reflexivity. Qed.
Lemma table_looks l : Forall (fun x : text * pdef => forall env env' nm s, looks env env' -> writes env nm (snd x) s = writes env' nm (snd x) s) l ->
  forall env env' before before' s, looks env env' -> looks before before' -> w_table P base fstr st env before l s = w_table P base fstr st env' before' l s.
Proof.
  induction 1 as [|x l Hx _ IH]; intros env env' before before' s E B; [reflexivity|]. cbn [w_table].
  rewrite (Hx (before ++ env) (before' ++ env') (fst x) s (looks_app _ _ _ _ B E)). destruct (writes (before' ++ env') (fst x) (snd x) s); [|reflexivity].
  apply IH; [exact E|]. apply looks_app; [exact B|reflexivity].
Qed.
Lemma proto_looks p : forall env env' nm s, looks env env' -> writes env nm p s = writes env' nm p s.
Proof.
  induction p as [m inner b IH|m u] using pdef_nest; intros env env' nm s L; rewrite !write_proto_eq; cbn [p_inner w_table];
    (destruct (among nm (fst s)); [reflexivity|]).
  - rewrite (table_looks inner IH env env' [] [] _ L (looks_refl _)). destruct (w_table _ _ _ _ _ _ _ _); [|reflexivity].
    rewrite (text_looks (inner ++ env) (inner ++ env')); [reflexivity|]. apply looks_app; [reflexivity|exact L].
  - rewrite (text_looks _ _ nm _ (looks_app [] [] _ _ (looks_refl _) L)). reflexivity.
Qed.
Lemma w_table_looks l env env' before before' s : looks env env' -> looks before before' -> w_table P base fstr st env before l s = w_table P base fstr st env' before' l s.
Proof. apply table_looks. apply Forall_forall. intros x _. apply proto_looks. Qed.
Lemma write_table_w before l s : write_table P fstr base st before l s = w_table P base fstr st [] before l s.
Proof. revert before s. induction l as [|x l IH]; intros before s; [reflexivity|]. cbn [write_table w_table]. rewrite app_nil_r. destruct (writes before (fst x) (snd x) s); [apply IH|reflexivity]. Qed.
(** what has been written is known *)
Lemma table_done l : Forall (fun x : text * pdef => forall env nm s s', writes env nm (snd x) s = Some s' -> incl (nm :: fst s) (fst s')) l ->
  forall env before s s', w_table P base fstr st env before l s = Some s' -> incl (map fst l ++ fst s) (fst s').
Proof.
  induction 1 as [|x l Hx _ IH]; intros env before s s' H; [injection H as <-; apply incl_refl|]. cbn [w_table] in H.
  destruct (writes (before ++ env) (fst x) (snd x) s) as [s1|] eqn:E; [|discriminate]. pose proof (Hx _ _ _ _ E) as A. pose proof (IH _ _ _ _ H) as B.
  cbn [map app]. intros y [<-|Hy].
  - apply B, in_or_app. right. apply A. left. reflexivity.
  - apply B, in_or_app. apply in_app_or in Hy as [Hy|Hy]; [left; exact Hy|right; apply A; right; exact Hy].
Qed.
Lemma proto_done p : forall env nm s s', writes env nm p s = Some s' -> incl (nm :: fst s) (fst s').
Proof.
  induction p as [m inner b IH|m u] using pdef_nest; intros env nm s s'; rewrite !write_proto_eq; cbn [p_inner w_table];
    (destruct (among nm (fst s)) eqn:E; [intros [= <-] y [<-|Hy]; [apply among_in; exact E|exact Hy]|]); intros H.
  - destruct (w_table _ _ _ _ _ _ _ _) as [s1|] eqn:W; [|discriminate]. destruct (proto_text _ _ _ _ _ _ _); [|discriminate]. injection H as <-. cbn [fst].
    intros y Hy. apply (table_done inner IH _ _ _ _ W), in_or_app. right. exact Hy.
  - destruct (proto_text _ _ _ _ _ _ _); [|discriminate]. injection H as <-. apply incl_refl.
Qed.
Lemma w_table_done l env before s s' : w_table P base fstr st env before l s = Some s' -> incl (map fst l ++ fst s) (fst s').
Proof. apply table_done. apply Forall_forall. intros x _. apply proto_done. Qed.
Lemma w_table_split l1 l2 env : forall before s, w_table P base fstr st env before (l1 ++ l2) s =
  match w_table P base fstr st env before l1 s with Some s' => w_table P base fstr st env (before ++ l1) l2 s' | None => None end.
Proof.
  induction l1 as [|x l1 IH]; intros before s; [cbn [app w_table]; rewrite app_nil_r; reflexivity|]. cbn [app w_table].
  destruct (writes (before ++ env) (fst x) (snd x) s); [|reflexivity]. rewrite IH, <- app_assoc. reflexivity.
Qed.
(** if no name is there twice, all are written *)
Lemma nodup_app_split {A} (a b : list A) : NoDup (a ++ b) -> NoDup a /\ NoDup b /\ forall x, In x a -> ~ In x b.
Proof.
  induction a as [|x a IH]; intros N; [split; [constructor|]; split; [exact N|intros y []]|]. cbn in N. inversion N as [|? ? N0 N1]; subst. destruct (IH N1) as (A1 & A2 & A3).
  split; [constructor; [intros H; apply N0, in_or_app; left; exact H|exact A1]|]. split; [exact A2|]. intros y [<-|Hy]; [intros H; apply N0, in_or_app; right; exact H|exact (A3 y Hy)].
Qed.
Definition apart (l done : list text) : Prop := NoDup l /\ forall g, In g l -> ~ In g done.
Definition all_done (p : pdef) : Prop := forall env nm s s', writes env nm p s = Some s' ->
  incl (fst s') (map fst (flat_proto nm p) ++ fst s) /\ (apart (map fst (flat_proto nm p)) (fst s) -> incl (map fst (flat_proto nm p)) (fst s')).
Lemma table_all l : Forall (fun x : text * pdef => all_done (snd x)) l -> forall env before s s', w_table P base fstr st env before l s = Some s' ->
  incl (fst s') (map fst (flat l) ++ fst s) /\ (apart (map fst (flat l)) (fst s) -> incl (map fst (flat l)) (fst s')).
Proof.
  induction 1 as [|x l Hx _ IH]; intros env before s s' H; [injection H as <-; split; [apply incl_refl|intros _ y []]|]. cbn [w_table] in H.
  destruct (writes (before ++ env) (fst x) (snd x) s) as [s1|] eqn:E; [|discriminate]. destruct (Hx _ _ _ _ E) as (A & B). destruct (IH _ _ _ _ H) as (C & D).
  pose proof (w_table_done _ _ _ _ _ H) as M. unfold flat in *. cbn [flat_map]. rewrite map_app. split.
  - intros y Hy. apply C, in_app_or in Hy as [Hy|Hy]; [apply in_or_app; left; apply in_or_app; right; exact Hy|]. apply A, in_app_or in Hy as [Hy|Hy]; apply in_or_app; [left; apply in_or_app; left; exact Hy|right; exact Hy].
  - intros (N & Dj). destruct (nodup_app_split _ _ N) as (N1 & N2 & N3).
    assert (I1 : incl (map fst (flat_proto (fst x) (snd x))) (fst s1)) by (apply B; split; [exact N1|intros g Hg; apply Dj, in_or_app; left; exact Hg]).
    intros y Hy. apply in_app_or in Hy as [Hy|Hy].
    + apply M, in_or_app. right. apply I1, Hy.
    + apply D; [|exact Hy]. split; [exact N2|]. intros g Hg Q. apply A, in_app_or in Q as [Q|Q]; [exact (N3 g Q Hg)|]. apply (Dj g); [apply in_or_app; right; exact Hg|exact Q].
Qed.
Lemma proto_all p : all_done p.
Proof.
  induction p as [m inner b IH|m u] using pdef_nest; intros env nm s s'; rewrite !write_proto_eq, flat_proto_eq; cbn [p_inner w_table flat flat_map app];
    (destruct (among nm (fst s)) eqn:E; [intros [= <-]; split; [apply incl_appr, incl_refl|intros (_ & Q); exfalso; apply (Q nm); [rewrite ?map_app; first [left; reflexivity|apply in_or_app; right; left; reflexivity]|apply among_in; exact E]]|]); intros H.
  - destruct (w_table _ _ _ _ _ _ _ _) as [s1|] eqn:W; [|discriminate]. destruct (proto_text _ _ _ _ _ _ _); [|discriminate]. injection H as <-. cbn [fst].
    destruct (table_all inner IH _ _ _ _ W) as (A & B). pose proof (w_table_done _ _ _ _ _ W) as M. cbn [fst] in *. rewrite map_app. cbn [map fst]. split.
    + intros y Hy. apply A, in_app_or in Hy as [Hy|[<-|Hy]]; apply in_or_app; [left; apply in_or_app; left; exact Hy|left; apply in_or_app; right; left; reflexivity|right; exact Hy].
    + intros (N & Dj). destruct (nodup_app_split _ _ N) as (N1 & _ & N3). intros y Hy. apply in_app_or in Hy as [Hy|[<-|[]]].
      * apply B; [|exact Hy]. split; [exact N1|]. intros g Hg [<-|Q]; [apply (N3 nm Hg); left; reflexivity|]. apply (Dj g); [apply in_or_app; left; exact Hg|exact Q].
      * apply M, in_or_app. right. left. reflexivity.
  - destruct (proto_text _ _ _ _ _ _ _); [|discriminate]. injection H as <-. cbn [fst map]. split; [apply incl_refl|]. intros _ y [<-|[]]. left. reflexivity.
Qed.
Lemma w_table_all l env before s s' : w_table P base fstr st env before l s = Some s' -> apart (map fst (flat l)) (fst s) -> incl (map fst (flat l)) (fst s').
Proof. intros H. apply (table_all l) in H; [apply H|]. apply Forall_forall. intros x _. apply proto_all. Qed.
(** the PROTO [q] inside [B] *)
Definition within (pre : list (text * pdef)) (B : text) (mem : list (text * member)) (i1 : list (text * pdef)) (nm : text) (q : pdef) (i2 : list (text * pdef)) (body : scene) (post : list (text * pdef)) : list (text * pdef) :=
  pre ++ (B, PDef mem (i1 ++ (nm, q) :: i2) body) :: post.
Lemma skipped env before nm q q' l s : among nm (fst s) = true -> pfields q = pfields q' ->
  w_table P base fstr st env before ((nm, q) :: l) s = w_table P base fstr st env before ((nm, q') :: l) s.
Proof.
  intros A E. cbn [w_table fst snd]. rewrite !write_proto_eq, A. apply w_table_looks; [reflexivity|].
  apply looks_app; [reflexivity|]. unfold looks. cbn [map fst snd]. rewrite E. reflexivity.
Qed.
Lemma confused pre B mem i1 nm q q' i2 body post s : fst s = [] ->
  In nm (map fst pre ++ B :: map fst i1) \/ NoDup (map fst (flat pre)) /\ In nm (map fst (flat pre)) -> pfields q = pfields q' ->
  write_table P fstr base st [] (within pre B mem i1 nm q i2 body post) s = write_table P fstr base st [] (within pre B mem i1 nm q' i2 body post) s.
Proof.
  intros S0 Hn E. rewrite !write_table_w. unfold within. rewrite !w_table_split. destruct (w_table P base fstr st [] [] pre s) as [s1|] eqn:W; [|reflexivity].
  pose proof (w_table_done _ _ _ _ _ W) as D. cbn [w_table fst snd app]. rewrite app_nil_r.
  assert (writes pre B (PDef mem (i1 ++ (nm, q) :: i2) body) s1 = writes pre B (PDef mem (i1 ++ (nm, q') :: i2) body) s1) as ->.
  { rewrite !write_proto_eq. cbn [p_inner]. destruct (among B (fst s1)); [reflexivity|]. rewrite !w_table_split.
    destruct (w_table P base fstr st pre [] i1 (B :: fst s1, snd s1)) as [s2|] eqn:W2; [|reflexivity]. pose proof (w_table_done _ _ _ _ _ W2) as D2. cbn [fst] in D2.
    rewrite (skipped _ _ nm q q'); [|apply among_in|exact E].
    - clear W W2 D D2. destruct (w_table _ _ _ _ _ _ _ _) as [s3|]; [|reflexivity].
      assert (proto_text P fstr base st ((i1 ++ (nm, q) :: i2) ++ pre) B (PDef mem (i1 ++ (nm, q) :: i2) body) = proto_text P fstr base st ((i1 ++ (nm, q') :: i2) ++ pre) B (PDef mem (i1 ++ (nm, q') :: i2) body)) as ->; [|reflexivity].
      rewrite (text_looks _ ((i1 ++ (nm, q') :: i2) ++ pre)); [reflexivity|]. apply looks_app; [|reflexivity]. apply looks_app; [reflexivity|].
      unfold looks. cbn [map fst snd]. rewrite E. reflexivity.
    - apply D2. destruct Hn as [Hn|[Nd Hn]]; [|apply in_or_app; right; right; apply (w_table_all _ _ _ _ _ W); [split; [exact Nd|rewrite S0; intros g _ []]|exact Hn]].
      apply in_app_or in Hn as [Hn|[<-|Hn]]; apply in_or_app; [right; right; apply D, in_or_app; left; exact Hn|right; left; reflexivity|left; exact Hn]. }
  destruct (writes pre B _ s1); [|reflexivity]. apply w_table_looks; [reflexivity|]. apply looks_app; [reflexivity|reflexivity].
Qed.
End Confused.
Theorem C75_bodies_are_confused_refuted : forall P fstr base st pre B mem i1 nm p p2 i2 body post S,
  In nm (map fst pre ++ B :: map fst i1) \/ NoDup (map fst (flat pre)) /\ In nm (map fst (flat pre)) ->
  pfields p = pfields p2 ->
  write_file P fstr base st (within pre B mem i1 nm p i2 body post, S) = write_file P fstr base st (within pre B mem i1 nm p2 i2 body post, S).
Proof.
  intros P fstr base st pre B mem i1 nm p p2 i2 body post S Hn E. unfold write_file. cbn [fst snd]. rewrite (confused P fstr base st pre B mem i1 nm p p2 i2 body post ([], header ++ [10%N]) eq_refl Hn E).
  assert (types base (within pre B mem i1 nm p i2 body post) = types base (within pre B mem i1 nm p2 i2 body post)) as ->; [|reflexivity].
  unfold types, within. rewrite !map_app. reflexivity.
Qed.
Print Assumptions C75_bodies_are_confused_refuted.

(** the Dot of two_dots, with a Box in its body or with anything else *)
Example C75_demo : exists A mem body S p p2, file_on bstd two_dots = Base.Ok (within [(lit "A", A)] (lit "B") mem [] (lit "Dot") p [] body [], S) /\
  p <> p2 /\ pfields p = pfields p2 /\ NoDup (map fst (flat [(lit "A", A)])) /\ In (lit "Dot") (map fst (flat [(lit "A", A)])) /\
  write_file P_ex exact_str bstd set_defaults (within [(lit "A", A)] (lit "B") mem [] (lit "Dot") p [] body [], S) <> None.
Proof.
  assert (Q : match file_on bstd two_dots with
              | Base.Ok (([(a, PDef m0 [(d0, p2)] b0); (b, PDef mem [(d, p)] body)]), sc) =>
                  (a, b, d, d0, match s_node (p_body p) 0 with Some nd => n_gi nd | None => [] end, match s_node (p_body p2) 0 with Some nd => n_gi nd | None => [] end,
                   pfields p, pfields p2, map fst (flat [(a, PDef m0 [(d0, p2)] b0)]), match write_file P_ex exact_str bstd set_defaults (within [(a, PDef m0 [(d0, p2)] b0)] b mem [] d p [] body [], sc) with Some _ => true | None => false end) =
                  (lit "A", lit "B", lit "Dot", lit "Dot", lit "Box", lit "Sphere", [mkfd url (KVal MFString (PSeq KList []))], [mkfd url (KVal MFString (PSeq KList []))], [lit "Dot"; lit "A"], true)
              | _ => False
              end) by (vm_compute; reflexivity).
  destruct (file_on bstd two_dots) as [[tab sc]|]; [|destruct Q].
  destruct tab as [|[a [m0 [|[d0 p2] [|]] b0|]] [|[b [mem [|[d p] [|]] body|]] [|]]]; try (destruct Q; fail).
  injection Q as -> -> -> -> Qp Qp2 Qf Qf2 Qn Qw. exists (PDef m0 [(lit "Dot", p2)] b0), mem, body, sc, p, p2. split; [reflexivity|].
  split; [intros <-; rewrite Qp in Qp2; discriminate|]. split; [congruence|].
  assert (Qn2 : map fst (flat [(lit "A", PDef m0 [(lit "Dot", p2)] b0)]) = [lit "Dot"; lit "A"]) by exact Qn. rewrite Qn2.
  split; [repeat constructor; cbn; intuition discriminate|]. split; [left; reflexivity|]. clear - Qw. destruct (write_file P_ex exact_str bstd set_defaults _); discriminate.
Qed.
(** Button's map is of an event: no file of C73 has it after loading *)
Example C76_demo : exists F nm p m, loads P_ex bstd button (Base.Ok F) /\ In (nm, p) (fst F) /\ imap (p_body p) m (lit "pressed") (lit "pushed") /\
  match s_node (p_body p) m with Some nd => n_gi nd | None => [] end = lit "Knob" /\ proto (types bstd (fst F)) (lit "Knob") = Some [mkfd url (KVal MFString (PSeq KList []))].
Proof.
  assert (Q : match file_on bstd button with
              | Base.Ok ([(k, pk); (b, pb)], sc) => (k, s_is (p_body pb), match s_node (p_body pb) 0 with Some nd => n_gi nd | None => [] end, pfields pk) =
                  (lit "Knob", [(lit "pushed", [(0, lit "pressed")])], lit "Knob", [mkfd url (KVal MFString (PSeq KList []))])
              | _ => False
              end) by (vm_compute; reflexivity).
  destruct (file_on bstd button) as [[tab sc]|] eqn:F; [|destruct Q]. destruct tab as [|[k pk] [|[b pb] [|]]]; try (destruct Q; fail).
  injection Q as -> Qi Qg Qf. exists ([(lit "Knob", pk); (b, pb)], sc), b, pb, 0. split; [exact (file_on_loads _ _ _ F)|]. split; [right; left; reflexivity|].
  split; [exists [(0, lit "pressed")]; rewrite Qi; split; [left; reflexivity|left; reflexivity]|]. split; [exact Qg|]. cbn. rewrite Qf. reflexivity.
Qed.
