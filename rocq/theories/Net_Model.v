(** Model of the routes of a scene over time.

    vrml/vrml97/scenegraph.py 33-70 (SceneGraph( routes=... )), 87-89 (getDEF),
    111-154 (addRoute); vrml/route.py 19-61 (ROUTE.__init__, bind, _bind), 62-107
    (forward, _forward); vrml/field.py 316-329, 463-476 (watch);
    vrml/node.py 346-355 (None becomes NULL).

    Nodes, ROUTE objects and functions are numbers.  [port n name] is the field or
    event getField( n, name ) finds; [None] if it raises AttributeError or gives
    something that is neither.  (A ROUTE from such an attribute binds to a signal
    that nobody sends; a ROUTE to it raises AttributeError, having no __set__.)

    The dispatcher holds its receivers weakly: a receiver that is neither in
    scene.routes nor held by the user is gone at once, with its connections
    (CPython's reference counts; ROUTEs are in no reference cycle).

    Simplifications: one scene; IS objects are in Route_Model; receivers are
    passive; no ROUTE leads to a field of a ROUTE; destination fields and events
    as in Route_Model. *)
From Verif Require Import Base Text PyDict Route_Model.
Local Open Scope nat_scope.

(** the fields of a ROUTE; NULL is [None] (route.py 14-18) *)
Record robj := { r_src : option nat; r_sf : text; r_dst : option nat; r_df : text }.
(** what can be connected and what can be in scene.routes: a ROUTE object, or a
    function (in scene.routes: the tuple with the function in it) *)
Inductive recv := Route (r : nat) | Func (f : nat).
Definition recv_eqb (a b : recv) : bool :=
  match a, b with Route x, Route y => Nat.eqb x y | Func x, Func y => Nat.eqb x y | _, _ => false end.
Definition has (l : list recv) (x : recv) : bool := existsb (recv_eqb x) l.

Record net := {
  n_defs : list (text * nat);            (* scene.defNames *)
  n_next : nat;                          (* ROUTE objects are numbered *)
  n_obj : nat -> robj;
  n_routes : list recv;                  (* scene.routes *)
  n_held : list recv;                    (* what the user refers to *)
  n_conn : list (cell * recv) }.         (* the dispatcher's table, in order *)
Definition rnull : robj := {| r_src := None; r_sf := []; r_dst := None; r_df := [] |}.
Definition net0 : net :=
  {| n_defs := []; n_next := 0; n_obj := fun _ => rnull; n_routes := []; n_held := []; n_conn := [] |}.

Definition alive (n : net) (x : recv) : bool := has (n_routes n) x || has (n_held n) x.
Definition with_conn (n : net) (c : list (cell * recv)) : net :=
  {| n_defs := n_defs n; n_next := n_next n; n_obj := n_obj n; n_routes := n_routes n; n_held := n_held n; n_conn := c |}.
Definition with_obj (n : net) (r : nat) (o : robj) : net :=
  {| n_defs := n_defs n; n_next := n_next n; n_obj := fun k => if Nat.eqb k r then o else n_obj n k;
     n_routes := n_routes n; n_held := n_held n; n_conn := n_conn n |}.
Definition with_routes (n : net) (l : list recv) : net :=
  {| n_defs := n_defs n; n_next := n_next n; n_obj := n_obj n; n_routes := l; n_held := n_held n; n_conn := n_conn n |}.
Definition with_held (n : net) (l : list recv) : net :=
  {| n_defs := n_defs n; n_next := n_next n; n_obj := n_obj n; n_routes := n_routes n; n_held := l; n_conn := n_conn n |}.
(** connections of receivers that are gone are dropped *)
Definition collect (n : net) : net := with_conn n (filter (fun p => alive n (snd p)) (n_conn n)).

(** dispatcher.connect: a receiver that is connected already moves to the end *)
Definition connect (l : list (cell * recv)) (c : cell) (x : recv) : list (cell * recv) :=
  filter (fun p => negb (cell_eqb (fst p) c && recv_eqb (snd p) x)) l ++ [(c, x)].

Section Net.
Variable port : nat -> text -> option nat.

(** route.py 34-61: for all three signals of the source field *)
Definition bind (n : net) (r : nat) : net :=
  match r_src (n_obj n r), r_sf (n_obj n r) with
  | Some s, (_ :: _) as sf =>
      match port s sf with
      | Some p => with_conn n (connect (n_conn n) (s, p) (Route r))
      | None => n                                       (* printed *)
      end
  | _, _ => n                                           (* "NULL ROUTE bound" *)
  end.
(** route.py 19-33: ROUTE( source=..., ... ), held by the caller *)
Definition new_route (n : net) (o : robj) : net * nat :=
  let r := n_next n in
  let n1 := with_obj n r o in
  (bind {| n_defs := n_defs n1; n_next := S r; n_obj := n_obj n1; n_routes := n_routes n1;
           n_held := n_held n1 ++ [Route r]; n_conn := n_conn n1 |} r, r).

(** an end of a route as given to addRoute: a node, a DEF name, None *)
Inductive endp := ENode (n : nat) | EName (t : text) | ENone.
(** scenegraph.py 131-134, 148-149 *)
Definition resolve (n : net) (e : endp) : option nat :=
  match e with ENode k => Some k | EName t => dget text_eqb (n_defs n) t | ENone => None end.

(** scenegraph.py 153 *)
Definition append (n : net) (x : recv) : net := with_routes n (n_routes n ++ [x]).
(** scenegraph.py 124-140, 153: four elements.  The new ROUTE is returned; the
    user refers to it only if they keep it ([Hold]) *)
Definition addRoute4 (n : net) (a : endp) (sf : text) (b : endp) (df : text) : net * nat :=
  let '(n1, r) := new_route n {| r_src := resolve n a; r_sf := sf; r_dst := resolve n b; r_df := df |} in
  (with_held (append n1 (Route r)) (n_held n), r).
(** scenegraph.py 141-153: three elements, the third a function; only 'set' and
    'del' are watched, see [receivers] *)
Definition addRoute3 (n : net) (a : endp) (sf : text) (f : nat) : net * res unit :=
  match resolve n a with
  | None => (n, Exc AttributeError)
  | Some s => match port s sf with
              | None => (n, Exc AttributeError)
              | Some p => (append (with_conn n (connect (n_conn n) (s, p) (Func f))) (Func f), Ok tt)
              end
  end.

Inductive op :=
| Register (t : text) (k : nat)                        (* scene.defNames[ t ] = k *)
| Add4 (a : endp) (sf : text) (b : endp) (df : text)   (* scene.addRoute( a, sf, b, df ) *)
| Make (o : robj)                                      (* r = ROUTE( ... ) *)
| AddObj (r : nat)                                     (* scene.addRoute( r ) *)
| Add3 (a : endp) (sf : text) (f : nat)                (* scene.addRoute( a, sf, f ) *)
| Pop (i : nat)                                        (* scene.routes.pop( i ) *)
| Hold (x : recv) | Release (x : recv)                 (* a variable refers to x / no longer *)
| SetDst (r : nat) (d : option nat) | SetDf (r : nat) (t : text)   (* r.destination = d, r.destinationField = t *)
| SetSrc (r : nat) (s : option nat) | SetSf (r : nat) (t : text)   (* r.source = s, r.sourceField = t *)
| Bind (r : nat).                                      (* r.bind() *)

Definition remove_nth {A} (l : list A) (i : nat) : list A := firstn i l ++ skipn (S i) l.
Fixpoint remove_one (l : list recv) (x : recv) : list recv :=
  match l with [] => [] | y :: l' => if recv_eqb y x then l' else y :: remove_one l' x end.

(** one operation; operations on a ROUTE need a reference to it *)
Definition step (n : net) (o : op) : net :=
  let guard r n' := if alive n (Route r) then n' else n in
  match o with
  | Register t k => {| n_defs := dset text_eqb (n_defs n) t k; n_next := n_next n; n_obj := n_obj n;
                       n_routes := n_routes n; n_held := n_held n; n_conn := n_conn n |}
  | Add4 a sf b df => fst (addRoute4 n a sf b df)
  | Make o => fst (new_route n o)
  | AddObj r => guard r (append n (Route r))
  | Add3 a sf f => fst (addRoute3 n a sf f)
  | Pop i => collect (with_routes n (remove_nth (n_routes n) i))
  | Hold (Route r) => guard r (with_held n (n_held n ++ [Route r]))
  | Hold (Func f) => with_held n (n_held n ++ [Func f])
  | Release x => collect (with_held n (remove_one (n_held n) x))
  | SetDst r d => guard r (let b := n_obj n r in with_obj n r {| r_src := r_src b; r_sf := r_sf b; r_dst := d; r_df := r_df b |})
  | SetDf r t => guard r (let b := n_obj n r in with_obj n r {| r_src := r_src b; r_sf := r_sf b; r_dst := r_dst b; r_df := t |})
  | SetSrc r s => guard r (let b := n_obj n r in with_obj n r {| r_src := s; r_sf := r_sf b; r_dst := r_dst b; r_df := r_df b |})
  | SetSf r t => guard r (let b := n_obj n r in with_obj n r {| r_src := r_src b; r_sf := t; r_dst := r_dst b; r_df := r_df b |})
  | Bind r => guard r (bind n r)
  end.
Definition run (n : net) (os : list op) : net := fold_left step os n.
(** scenegraph.py 68-70: SceneGraph( defNames=..., routes=... ) *)
Definition scene_with (defs : list (text * nat)) (rs : list (endp * text * (endp * text))) : net :=
  fold_left (fun n q => let '(a, sf, (b, df)) := q in fst (addRoute4 n a sf b df)) rs
    {| n_defs := defs; n_next := 0; n_obj := fun _ => rnull; n_routes := []; n_held := []; n_conn := [] |}.

(** ** Events *)
Context {V : Type}.
Variable kind_of : cell -> kind.
Variable coerce : cell -> V -> res V.
Variable deflt : cell -> res V.
Variable none : V.

(** a call of a watching function: which, for which cell, with which value ('del'
    messages have none) *)
Record nstate := { base : Route_Model.state V; calls : list (nat * cell * option V) }.
Definition on_base (s : nstate) (b : Route_Model.state V) : nstate := {| base := b; calls := calls s |}.
Definition called (s : nstate) (f : nat) (c : cell) (v : option V) : nstate :=
  {| base := base s; calls := calls s ++ [(f, c, v)] |}.
Inductive noutcome :=
| NDone (s : nstate) (vis : list cell)
| NRaised (e : exn) (s : nstate)
| NOutOfFuel.

Definition sent_value (g : signal V) : option V := match g with SSet v => Some v | SRoute v => Some v | SDel => None end.
(** the receivers of a message, in order; functions are connected to 'set' and
    'del' only (scenegraph.py 151-152), ROUTEs to 'route' too (route.py 54) *)
Definition receivers (n : net) (c : cell) (g : signal V) : list recv :=
  filter (fun x => match x, g with Func _, SRoute _ => false | _, _ => true end)
    (map snd (filter (fun p => cell_eqb (fst p) c) (n_conn n))).

(** dispatcher.send and ROUTE.forward, as [Route_Model.deliver], with the
    destination looked up when the event arrives (route.py 62-107) *)
Fixpoint ndeliver (fuel : nat) (n : net) (s : nstate) (vis : list cell) (c : cell) (g : signal V) : noutcome :=
  match fuel with
  | O => NOutOfFuel
  | S k =>
    fold_left (fun o x =>
      match o with
      | NDone s vis =>
        match x with
        | Func f => NDone (called s f c (sent_value g)) vis
        | Route r =>
          match fetch deflt (base s) c g with
          | (b, Exc e) => NRaised e (on_base s b)
          | (b, Ok v) =>
            let s := on_base s b in
            match r_dst (n_obj n r), r_df (n_obj n r) with
            | Some d, (_ :: _) as df =>
              match port d df with
              | None => NRaised AttributeError s
              | Some p =>
                let d := (d, p) in
                let ev := if fresh g then [] else vis in
                if mem d ev then NDone s vis
                else
                  let ev1 := d :: ev in
                  let s := on_base s (note (base s) d v) in
                  let r :=
                    match kind_of d with
                    | KField =>
                        match coerce d v with
                        | Ok w => ndeliver k n (on_base s (put (base s) d w)) ev1 d (SRoute w)
                        | Exc e => if swallowed e then ndeliver k n s ev1 d (SRoute v) else NRaised e s
                        end
                    | KEvent =>
                        match ndeliver k n (on_base s (put (base s) d v)) [] d (SSet v) with
                        | NDone s' _ => ndeliver k n s' ev1 d (SRoute none)
                        | o => o
                        end
                    end in
                  match r with
                  | NDone s' ev2 => NDone s' (if fresh g then vis else ev2)
                  | o => o
                  end
              end
            | _, _ => NDone s vis
            end
          end
        end
      | o => o
      end) (receivers n c g) (NDone s vis)
  end.

(** node.f = v; del node.f (as [Route_Model.user_set], [user_del]) *)
Definition nset (fuel : nat) (n : net) (s : nstate) (c : cell) (v : V) : noutcome :=
  match kind_of c with
  | KField => match coerce c v with
              | Ok w => ndeliver fuel n (on_base s (put (base s) c w)) [] c (SSet w)
              | Exc e => NRaised (match e with TypeError => ValueError | _ => e end) s
              end
  | KEvent => ndeliver fuel n (on_base s (put (base s) c v)) [] c (SSet v)
  end.
Definition ndel (fuel : nat) (n : net) (s : nstate) (c : cell) : noutcome :=
  match store (base s) c with
  | None => NRaised AttributeError s
  | Some _ => ndeliver fuel n (on_base s {| store := fun c' => if cell_eqb c' c then None else store (base s) c';
                                            trace := trace (base s) |}) [] c SDel
  end.
End Net.
Arguments nstate : clear implicits.
Arguments noutcome : clear implicits.

(** linearise.py 126, 427-452: writing reads .source of every element of
    scene.routes, which a tuple has not *)
Definition routes_for_writing (n : net) : res (list robj) :=
  fold_right (fun x acc => match x with
    | Func _ => Exc AttributeError
    | Route r => match acc with Ok l => Ok (n_obj n r :: l) | Exc e => Exc e end end) (Ok []) (n_routes n).
