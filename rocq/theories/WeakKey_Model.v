(** Tables with weak keys: [WeakKeyDictionary] of vrml/weakkeydictfix.py, the
    type of [node.ISMAPS] (vrml/node.py 559), which keeps for each prototype
    the connections its body makes to its interface.

    The class overrides [__init__] and [__delitem__] of the standard library's
    weakref.WeakKeyDictionary (CPython 3.9 to 3.13) and inherits the rest; the
    inherited methods are modelled from their source.  The overriding
    [__init__] does not call the inherited one and so does not create
    [_pending_removals], [_iterating] and [_dirty_len].

    Objects are numbers, never reused; [keq o] is the equality class of [o]
    ([a == b] exactly when [keq a = keq b], with equal hashes), [holds o] are
    the objects [o] refers to strongly.  The collector is an explicit step
    [Die os]: objects no longer reachable die together, their weakrefs are
    cleared, and the callbacks of those weakrefs run afterwards one by one
    ([Callback o]); other code may run in between, as it does when a cycle of
    garbage is collected. *)
From Verif Require Import Base.
From Coq Require Import List Arith Bool.
Import ListNotations.

(** Keys: an object that can be weakly referenced, or one that cannot
    (a number, a string, a tuple). *)
Inductive key := KObj (o : nat) | KPlain.

Inductive op :=
(* the program: create or obtain an object; give one up *)
| Hold (o : nat) | Drop (o : nat)
(* the collector *)
| Die (os : list nat) | Callback (o : nat)
(* the table *)
| Set_ (k : key) (v : nat) | GetItem (k : key) | Get (k : key) | Contains (k : key)
| Del (k : key) | Pop (k : key) | SetDefault (k : key) (v : nat) | PopItem
| Update (l : list (key * nat)) | Clear | KeyRefs
| Len | Truth | Iter | Keys | Values | Items | Copy | EqTo | UpdateFromTable.

(** What a call returns; [RItem] is the pair [popitem] returns, [RRefs] the
    objects the weakrefs of [keyrefs] were made for. *)
Inductive out :=
| RNone | RVal (v : nat) | RBool (b : bool) | RItem (k v : nat) | RRefs (ks : list nat)
| RLen (n : nat).

(** The attributes the inherited methods use besides [data] and [_remove] *)
Inductive attr := DirtyLen | PendingRemovals | Iterating.
Definition attr_eqb (a b : attr) : bool :=
  match a, b with
  | DirtyLen, DirtyLen | PendingRemovals, PendingRemovals | Iterating, Iterating => true
  | _, _ => false
  end.

(** [data] is the dictionary in insertion order, each key a weakref named by
    the object it was made for; [dead] says which objects are gone, [pend]
    whose callbacks are still to run, [roots] what the program holds, [attrs]
    which attributes the table has. *)
Record st := { data : list (nat * nat); dead : nat -> bool; pend : list nat;
               roots : list nat; attrs : list attr }.

Definition with_data (s : st) (d : list (nat * nat)) : st :=
  {| data := d; dead := dead s; pend := pend s; roots := roots s; attrs := attrs s |}.
Definition with_dirty (s : st) : st :=
  {| data := data s; dead := dead s; pend := pend s; roots := roots s; attrs := DirtyLen :: attrs s |}.

(** attribute lookup on the table *)
Definition has (s : st) (a : attr) : bool := existsb (attr_eqb a) (attrs s).

(** weakkeydictfix.py 13-30 with [dict=None]: only [data] and [_remove] are
    created *)
Definition empty : st :=
  {| data := []; dead := fun _ => false; pend := []; roots := []; attrs := [] |}.

Section Table.
Variable keq : nat -> nat.
Variable holds : nat -> list nat.

(** Does the entry's weakref [e] equal a weakref to the live object [k]?
    Live weakrefs compare as their objects do; a dead one is equal to nothing
    but itself. *)
Definition same (d : nat -> bool) (k e : nat) : bool :=
  negb (d e) && (keq k =? keq e).

(** dict lookup, assignment (an equal key stays, its value is replaced),
    deletion *)
Fixpoint find (d : nat -> bool) (k : nat) (l : list (nat * nat)) : option nat :=
  match l with
  | [] => None
  | (e, v) :: l' => if same d k e then Some v else find d k l'
  end.
Fixpoint assign (d : nat -> bool) (k v : nat) (l : list (nat * nat)) : list (nat * nat) :=
  match l with
  | [] => [(k, v)]
  | (e, w) :: l' => if same d k e then (e, v) :: l' else (e, w) :: assign d k v l'
  end.
Fixpoint remove (d : nat -> bool) (k : nat) (l : list (nat * nat)) : list (nat * nat) :=
  match l with
  | [] => []
  | (e, w) :: l' => if same d k e then l' else (e, w) :: remove d k l'
  end.

(** weakref.WeakKeyDictionary.popitem: take entries off the end until one's
    key is alive.  [l] is the dictionary with its newest entry first. *)
Fixpoint popitem (d : nat -> bool) (l : list (nat * nat)) :
    list (nat * nat) * option (nat * nat) :=
  match l with
  | [] => ([], None)
  | (e, v) :: l' => if d e then popitem d l' else (l', Some (e, v))
  end.

(** weakref.WeakKeyDictionary.update: assign in order until a key cannot be
    weakly referenced *)
Fixpoint update (d : nat -> bool) (l : list (key * nat)) (t : list (nat * nat)) :
    list (nat * nat) * res out :=
  match l with
  | [] => (t, Ok RNone)
  | (KPlain, _) :: _ => (t, Exc TypeError)
  | (KObj k, v) :: l' => update d l' (assign d k v t)
  end.

(** weakkeydictfix.py 20-28: the callback of the dead object's weakref.  A dead
    weakref is looked up by identity; a missing entry (KeyError) is ignored. *)
Definition callback (k : nat) (l : list (nat * nat)) : list (nat * nat) :=
  filter (fun e => negb (fst e =? k)) l.

Definition is_dead (d : nat -> bool) (os : list nat) (o : nat) : bool :=
  existsb (Nat.eqb o) os || d o.

Definition missing (k : option nat) : res out :=
  match k with Some v => Ok (RVal v) | None => Exc KeyError end.

(** weakref.WeakKeyDictionary.__len__: reads [_dirty_len] and
    [_pending_removals] (which this class never fills) *)
Definition len (s : st) (r : out) : res out :=
  if has s DirtyLen && has s PendingRemovals then Ok r else Exc AttributeError.

(** weakref._IterationGuard.__enter__ adds itself to [_iterating] *)
Definition guarded (s : st) (r : out) : res out :=
  if has s Iterating then Ok r else Exc AttributeError.

Definition live (s : st) : list nat :=
  filter (fun k => negb (dead s k)) (map fst (data s)).

(** One step of the program, the collector or the table; weakkeydictfix.py
    5-36 and the methods inherited from weakref.WeakKeyDictionary *)
Definition exec (s : st) (a : op) : st * res out :=
  let d := dead s in
  match a with
  | Hold o => ({| data := data s; dead := d; pend := pend s; roots := o :: roots s;
                  attrs := attrs s |}, Ok RNone)
  | Drop o => ({| data := data s; dead := d; pend := pend s;
                  roots := List.remove Nat.eq_dec o (roots s); attrs := attrs s |}, Ok RNone)
  | Die os => ({| data := data s; dead := is_dead d os; pend := os ++ pend s;
                  roots := roots s; attrs := attrs s |}, Ok RNone)
  | Callback o => ({| data := callback o (data s); dead := d;
                      pend := List.remove Nat.eq_dec o (pend s);
                      roots := roots s; attrs := attrs s |}, Ok RNone)
  (* weakref.ref(key) raises for such keys, __contains__ catches that;
     pop first sets _dirty_len *)
  | Contains KPlain => (s, Ok (RBool false))
  | Pop KPlain => (with_dirty s, Exc TypeError)
  | Set_ KPlain _ | GetItem KPlain | Get KPlain | Del KPlain | SetDefault KPlain _ =>
      (s, Exc TypeError)
  | Set_ (KObj k) v => (with_data s (assign d k v (data s)), Ok RNone)
  | GetItem (KObj k) => (s, missing (find d k (data s)))
  | Get (KObj k) => (s, match find d k (data s) with Some v => Ok (RVal v) | None => Ok RNone end)
  | Contains (KObj k) => (s, Ok (RBool (match find d k (data s) with Some _ => true | None => false end)))
  (* weakkeydictfix.py 31-36 *)
  | Del (KObj k) => match find d k (data s) with
                    | Some _ => (with_data s (remove d k (data s)), Ok RNone)
                    | None => (s, Exc KeyError)
                    end
  | Pop (KObj k) => (with_dirty (with_data s (remove d k (data s))), missing (find d k (data s)))
  | SetDefault (KObj k) v => match find d k (data s) with
                             | Some w => (s, Ok (RVal w))
                             | None => (with_data s (assign d k v (data s)), Ok (RVal v))
                             end
  | PopItem => let '(l, r) := popitem d (rev (data s)) in
               (with_dirty (with_data s (rev l)),
                match r with Some (k, v) => Ok (RItem k v) | None => Exc KeyError end)
  | Update l => let '(t, r) := update d l (data s) in (with_data s t, r)
  (* MutableMapping.clear: popitem until KeyError *)
  | Clear => (with_dirty (with_data s []), Ok RNone)
  | KeyRefs => (s, Ok (RRefs (map fst (data s))))
  (* the standard library's __len__; bool() asks for the length, and so does
     list() before it iterates *)
  | Len => (s, len s (RLen (length (data s))))
  | Truth => (s, len s (RBool (negb (length (data s) =? 0))))
  | Iter | Keys | Values | Items => (s, guarded s (RRefs (live s)))
  (* copy() gives a new table, == compares dict(self.items()); what they would
     return is not modelled further *)
  | Copy | EqTo => (s, guarded s RNone)
  (* update (or the constructor) given another such table [t], of which only
     that it too lacks the attribute matters: it asks [t] for its items *)
  | UpdateFromTable => (s, guarded s RNone)
  end.

(** Strong reachability *)
Inductive reach (from : list nat) : nat -> Prop :=
| reach_root : forall o, In o from -> reach from o
| reach_step : forall o o', reach from o -> In o' (holds o) -> reach from o'.

(** What the program holds and what the table holds: its values, not its keys *)
Definition strong (s : st) : list nat := roots s ++ map snd (data s).

Definition held (s : st) (k : key) : Prop :=
  match k with KObj o => In o (roots s) | KPlain => True end.

(** Which steps can happen: objects passed in calls are held by the program,
    an object obtained is not dead, only unreachable objects die. *)
Definition enabled (s : st) (a : op) : Prop :=
  match a with
  | Hold o => dead s o = false
  | Die os => NoDup os /\ forall o, In o os -> dead s o = false /\ ~ reach (strong s) o
  | Callback o => In o (pend s)
  | Set_ k v | SetDefault k v => held s k /\ In v (roots s)
  | GetItem k | Get k | Contains k | Del k | Pop k => held s k
  | Update l => forall k v, In (k, v) l -> held s k /\ In v (roots s)
  | _ => True
  end.

(** A history: the calls made and what each gave, oldest first. *)
Inductive run : list (op * res out) -> st -> Prop :=
| run_nil : run [] empty
| run_snoc : forall h s a, run h s -> enabled s a ->
    run (h ++ [(a, snd (exec s a))]) (fst (exec s a)).
End Table.
