(** Model of the cached transform matrices:
    vrml/vrml97/nodepath.py 34-101 (_NodePath.transformMatrix, transformChildren),
    vrml/vrml97/basenodes.py 575-614 (Transform.localMatrices),
    on top of the cache of Cache_Model.v.

    Field values [V], matrices [M], the matrix computation [localM]
    (transformmatrix.localMatrices) and [compress] (compressMatrices) are
    parameters here; Matrix_Model.v has them concretely.

    Simplifications: every Transforming item of a path is a Transform (a
    Billboard has no localMatrices); paths are not mutated after creation;
    [path_of] lists the Transforming items of a path; a field change and its
    notification happen together (no other receiver queries in between). *)
From Verif Require Import Base Cache_Model.

Record flags := { fl_t : bool; fl_s : bool; fl_r : bool }.   (* translate, scale, rotate *)
Definition flags_eqb (a b : flags) : bool :=
  Bool.eqb (fl_t a) (fl_t b) && Bool.eqb (fl_s a) (fl_s b) && Bool.eqb (fl_r a) (fl_r b).

Definition f_translation := 0.
Definition f_center := 1.
Definition f_rotation := 2.
Definition f_scale := 3.
Definition f_scaleOrientation := 4.

(** cache keys: ('local_matrices', t, s, r), ('matrix' / 'inverse_matrix', t, s, r), others *)
Inductive ckey := KLocal (fl : flags) | KPath (inverse : bool) (fl : flags) | KOther (n : nat).
Definition ckey_eqb (a b : ckey) : bool :=
  match a, b with
  | KLocal x, KLocal y => flags_eqb x y
  | KPath i x, KPath j y => Bool.eqb i j && flags_eqb x y
  | KOther n, KOther m => Nat.eqb n m
  | _, _ => false
  end.

Section PathMatrix.
Context {V M : Type}.
(** transformmatrix.localMatrices with keyword arguments: per argument, [None] = not passed,
    [Some None] = passed as None, in the order translation, center, rotation,
    scale, scaleOrientation *)
Variable localM : option (option V) -> option (option V) -> option (option V) ->
                  option (option V) -> option (option V) -> option M * option M.
Variable compress : list (option M) -> option M.
Variable ident : M.
Variable path_of : nat -> option (list nat).    (* Some items for a path object *)

Inductive cdata := DLocal (fi : option M * option M) | DPath (m : M) | DOther (n : nat).
Notation cstate := (Cache_Model.state ckey cdata).

Variable pick : cstate -> nat.                  (* where the allocator puts a new object *)

(** bool(client): a path is a list, false when empty; nodes are true *)
Definition truthy (o : nat) : bool := match path_of o with Some [] => false | _ => true end.

Definition cstep : cstate -> op ckey cdata -> cstate := step ckey_eqb truthy.

Record state := { cs : cstate; vals : nat -> nat -> option V }.   (* raw __dict__ values *)
Definition with_cs (st : state) (c : cstate) : state := {| cs := c; vals := vals st |}.

(** basenodes.py 593-602 *)
Definition local_fields (fl : flags) : list nat :=
  (if fl_t fl then [f_translation] else []) ++
  (if fl_s fl || fl_r fl then [f_center] else []) ++
  (if fl_s fl then [f_scale; f_scaleOrientation] else []) ++
  (if fl_r fl then [f_rotation] else []).
(** nodepath.py 71-79 *)
Definition path_fields (fl : flags) : list nat :=
  (if fl_t fl then [f_translation] else []) ++
  (if fl_s fl then [f_scale; f_scaleOrientation] else []) ++
  (if fl_r fl then [f_rotation; f_center] else []).

(** basenodes.py 603-606 *)
Definition local_compute (fl : flags) (v : nat -> option V) : option M * option M :=
  let get f := if existsb (Nat.eqb f) (local_fields fl) then Some (v f) else None in
  localM (get f_translation) (get f_center) (get f_rotation) (get f_scale) (get f_scaleOrientation).

Definition depend_all (c : cstate) (h n : nat) (fs : list nat) : cstate :=
  fold_left (fun c f => cstep c (Depend h n f)) fs c.

Definition data_of (c : cstate) (h : nat) : option cdata :=
  match hold c h with Some x => h_data x | None => None end.

(** Transform.localMatrices, basenodes.py 575-614; returns the holder and its data *)
Definition localMatrices (st : state) (n : nat) (fl : flags) : state * nat * (option M * option M) :=
  let key := KLocal fl in
  let d := local_compute fl (vals st n) in
  match getHolder ckey_eqb (cs st) n key with
  | None =>
      let h := next (cs st) in
      let c := cstep (cs st) (NewHolder n key (pick (cs st)) None) in
      let c := depend_all c h n (local_fields fl) in
      (with_cs st (cstep c (SetData h (Some (DLocal d)))), h, d)
  | Some h =>
      match data_of (cs st) h with
      | Some (DLocal d') => (st, h, d')
      | _ => (with_cs st (cstep (cs st) (SetData h (Some (DLocal d)))), h, d)
      end
  end.

Definition side (inverse : bool) (fi : option M * option M) : option M := if inverse then snd fi else fst fi.

(** the get_mat calls of nodepath.py 68-84, in order *)
Fixpoint get_mats (st : state) (hp : nat) (doConnect inverse : bool) (fl : flags) (items : list nat)
    : state * list (option M) :=
  match items with
  | [] => (st, [])
  | n :: items =>
      let '(st, hc, fi) := localMatrices st n fl in
      let st := if doConnect
                then with_cs st (depend_all (cstep (cs st) (DependObj hp hc)) hp n (path_fields fl))
                else st in
      let '(st, ms) := get_mats st hp doConnect inverse fl items in
      (st, side inverse fi :: ms)
  end.

(** _NodePath.transformMatrix, nodepath.py 34-88 *)
Definition transformMatrix (st : state) (p : nat) (fl : flags) (inverse : bool) : state * M :=
  let nodes := match path_of p with Some l => l | None => [] end in
  let items := if inverse then rev nodes else nodes in
  let key := KPath inverse fl in
  let finish (r : state * list (option M)) (hp : nat) :=
    let m := match compress (snd r) with Some m => m | None => ident end in
    (with_cs (fst r) (cstep (cs (fst r)) (SetData hp (Some (DPath m)))), m) in
  match getHolder ckey_eqb (cs st) p key with
  | None =>
      let hp := next (cs st) in
      let st := with_cs st (cstep (cs st) (NewHolder p key (pick (cs st)) None)) in
      finish (get_mats st hp true inverse fl items) hp
  | Some hp =>
      match data_of (cs st) hp with
      | Some (DPath m) => (st, m)
      | _ => finish (get_mats st hp false inverse fl items) hp
      end
  end.

(** what a computation without any cache yields *)
Definition fresh_matrix (v : nat -> nat -> option V) (p : nat) (fl : flags) (inverse : bool) : M :=
  let nodes := match path_of p with Some l => l | None => [] end in
  let items := if inverse then rev nodes else nodes in
  match compress (map (fun n => side inverse (local_compute fl (v n))) items) with
  | Some m => m | None => ident
  end.

Definition setval (v : nat -> nat -> option V) (n f : nat) (x : option V) : nat -> nat -> option V :=
  fun n' f' => if Nat.eqb n' n && Nat.eqb f' f then x else v n' f'.

Variable dflt : nat -> V.                       (* coerced field defaults *)

Definition all_live (c : cstate) (p : nat) : bool :=
  live c p && match path_of p with Some l => forallb (live c) l | None => false end.

(** Histories: field changes (set, del or routed), default materialisation on
    reading a field (no notification), matrix queries, allocation, collection,
    and other users of the cache. *)
Inductive hop :=
| HSet (n f : nat) (x : option V)               (* None: del *)
| HRead (n f : nat)
| HQuery (p : nat) (fl : flags) (inverse : bool)
| HLocal (n : nat) (fl : flags)
| HNew (a : nat)
| HCollect (o : nat)
| HOther (c k a : nat).                         (* another cache user's holder *)

Definition hstep (st : state) (o : hop) : state :=
  match o with
  | HSet n f x =>
      if live (cs st) n
      then {| cs := cstep (cs st) (Notify n f); vals := setval (vals st) n f x |} else st
  | HRead n f =>
      match vals st n f with
      | None => {| cs := cs st; vals := setval (vals st) n f (Some (dflt f)) |}
      | Some _ => st
      end
  | HQuery p fl i => if all_live (cs st) p then fst (transformMatrix st p fl i) else st
  | HLocal n fl => if live (cs st) n then fst (fst (localMatrices st n fl)) else st
  | HNew a => with_cs st (cstep (cs st) (New a))
  | HCollect o => with_cs st (cstep (cs st) (Collect o))
  | HOther c k a => with_cs st (cstep (cs st) (NewHolder c (KOther k) a None))
  end.
Definition hinit : state := {| cs := Cache_Model.empty; vals := fun _ _ => None |}.
Definition hrun (st : state) (os : list hop) : state := fold_left hstep os st.
End PathMatrix.
Arguments state : clear implicits.
Arguments cdata : clear implicits.
Arguments hop : clear implicits.
