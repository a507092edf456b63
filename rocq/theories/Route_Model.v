(** Model of event routing.

    vrml/route.py 34-107 (ROUTE.bind/_bind/forward/_forward), 138-166 (IS),
    vrml/event.py 3-23 (Event.visited), vrml/field.py 108-144 (fset with
    notify=0), 394-407 (field.Event.__set__).

    A cell is a (node, field-or-event) pair.  A connection (a, b) means: on a
    'set', 'del' or 'route' message of cell a, forward to cell b.  Messages are
    delivered synchronously, in connection order (PyDispatcher's send).

    Simplifications: route objects stay alive; both endpoints exist and their
    names resolve (getField returns the port object); destination fields are
    plain fields (MFNode and weak fields have their own fset); event ports have
    no on_<name> handler; no other receivers act on the messages; recursion
    depth is the [fuel], a run that exceeds it is [OutOfFuel]. *)
From Verif Require Import Base.

Definition cell := (nat * nat)%type.        (* (node, port) *)
Definition cell_eqb (a b : cell) : bool := Nat.eqb (fst a) (fst b) && Nat.eqb (snd a) (snd b).
Definition mem (c : cell) (l : list cell) : bool := existsb (cell_eqb c) l.

Inductive kind := KField | KEvent.

Inductive link :=
| LRoute (src dst : cell)                   (* a ROUTE object *)
| LIS (src dst : cell).                     (* an IS object *)

(** route.py 34-61: ROUTE binds its source; 147-151: IS binds both ends;
    152-166: an IS forwards to its destination when the sender is its source
    node, otherwise to its source.  (An IS from a cell to itself connects the
    same receiver twice, which the dispatcher keeps once.) *)
Definition conns1 (l : link) : list (cell * cell) :=
  match l with
  | LRoute a b => [(a, b)]
  | LIS a b => if cell_eqb a b then [(a, b)]
               else [(a, b); (b, if Nat.eqb (fst b) (fst a) then b else a)]
  end.
Definition connections (ls : list link) : list (cell * cell) := flat_map conns1 ls.

Section Route.
Context {V : Type}.
Variable kind_of : cell -> kind.
Variable coerce : cell -> V -> res V.
Variable deflt : cell -> res V.             (* coerced default *)
Variable none : V.                          (* Python's None *)
Variable conns : list (cell * cell).

Definition targets (c : cell) : list cell :=
  map snd (filter (fun p => cell_eqb (fst p) c) conns).

Record state := {
  store : cell -> option V;
  trace : list (cell * V)                   (* values handed to a target, in order *)
}.
Definition put (s : state) (c : cell) (v : V) : state :=
  {| store := fun c' => if cell_eqb c' c then Some v else store s c'; trace := trace s |}.
Definition note (s : state) (c : cell) (v : V) : state :=
  {| store := store s; trace := trace s ++ [(c, v)] |}.

Inductive outcome :=
| Done (s : state) (vis : list cell)
| Raised (e : exn) (s : state)
| OutOfFuel.

Inductive signal := SSet (v : V) | SDel | SRoute (v : V).
Definition fresh (g : signal) : bool := match g with SRoute _ => false | _ => true end.

(** route.py 82-84: a 'del' message makes the forwarder read the source again
    (materialising its default) *)
Definition fetch (s : state) (c : cell) (g : signal) : state * res V :=
  match g with
  | SSet v => (s, Ok v)
  | SRoute v => (s, Ok v)
  | SDel => match store s c with
            | Some v => (s, Ok v)
            | None => match deflt c with
                      | Ok v => (put s c v, Ok v)
                      | Exc e => (s, Exc e)
                      end
            end
  end.

Definition swallowed (e : exn) : bool :=
  match e with ValueError | TypeError => true | _ => false end.

(** [deliver fuel s vis c g]: dispatcher.send of message g of cell c.  For a
    'route' message [vis] is the visited table of the event carried along;
    'set' and 'del' messages carry no event, each forwarder makes its own
    (route.py 79-81). *)
Fixpoint deliver (fuel : nat) (s : state) (vis : list cell) (c : cell) (g : signal) : outcome :=
  match fuel with
  | O => OutOfFuel
  | S k =>
    fold_left (fun o d =>
      match o with
      | Done s vis =>
        (* route.py 72-107, one forwarder *)
        match fetch s c g with
        | (s, Exc e) => Raised e s
        | (s, Ok v) =>
          let ev := if fresh g then [] else vis in
          if mem d ev then Done s vis
          else
            let ev1 := d :: ev in
            let s := note s d v in
            let r :=
              match kind_of d with
              | KField =>
                  match coerce d v with
                  | Ok w => deliver k (put s d w) ev1 d (SRoute w)
                  | Exc e => if swallowed e then deliver k s ev1 d (SRoute v) else Raised e s
                  end
              | KEvent =>
                  (* field.py 394-407: store, send 'set' without event, return None *)
                  match deliver k (put s d v) [] d (SSet v) with
                  | Done s' _ => deliver k s' ev1 d (SRoute none)
                  | o => o
                  end
              end in
            match r with
            | Done s' ev2 => Done s' (if fresh g then vis else ev2)
            | o => o
            end
        end
      | o => o
      end) (targets c) (Done s vis)
  end.

(** [node.f = v] on a cell (field.py 108-144; for an event port field.py 394-407) *)
Definition user_set (fuel : nat) (s : state) (c : cell) (v : V) : outcome :=
  match kind_of c with
  | KField => match coerce c v with
              | Ok w => deliver fuel (put s c w) [] c (SSet w)
              | Exc e => Raised (match e with TypeError => ValueError | _ => e end) s
              end
  | KEvent => deliver fuel (put s c v) [] c (SSet v)
  end.
(** [del node.f] with the accelerated field *)
Definition user_del (fuel : nat) (s : state) (c : cell) : outcome :=
  match store s c with
  | None => Raised AttributeError s
  | Some _ => deliver fuel {| store := fun c' => if cell_eqb c' c then None else store s c';
                              trace := trace s |} [] c SDel
  end.
End Route.
Arguments state : clear implicits.
Arguments outcome : clear implicits.
Arguments signal : clear implicits.
