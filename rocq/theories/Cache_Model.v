(** Model of the scenegraph cache: vrml/cache.py.

    Objects (clients, dependencies and CacheHolder instances alike) are numbered
    in order of creation; [addr o] is what id(o) returns, and may be reused once
    o has been collected.  [live] says which objects have not been collected.
    There is one cache (the module's CACHE), alive for ever.

    Simplifications: the outer dictionary is a total map from addresses; keys of
    the inner dictionaries compare by [keqb]; the dispatcher is the set of
    (signal, sender, receiver) connections, kept with the receiving holder
    (receivers and senders are held weakly by PyDispatcher, so dead ones never
    send or receive); 'set', 'del' and 'route' messages of a field are one
    notification, since depend() registers all three together (cache.py 181-196). *)
From Verif Require Import Base PyDict.

Section Cache.
Context {K D : Type}.
Variable keqb : K -> K -> bool.
Variable truthy : nat -> bool.              (* bool(client), cache.py 220 *)

(** cache.py 137-157 *)
Record holder := {
  h_client : nat;                           (* weakref to the client *)
  h_key : K;
  h_data : option D;                        (* None is Python's None *)
  h_sigs : list (nat * nat);                (* depend_signal: (sender, field) *)
  h_objs : list nat                         (* depend_object: weakrefs *)
}.

Record state := {
  next : nat;                               (* objects 0 .. next-1 were created *)
  live : nat -> bool;
  addr : nat -> nat;
  hold : nat -> option holder;              (* the CacheHolder objects *)
  cache : nat -> option (list (K * nat))    (* id(client) -> key -> holder *)
}.

Definition empty : state :=
  {| next := 0; live := fun _ => false; addr := fun _ => 0; hold := fun _ => None; cache := fun _ => None |}.

Definition upd {A} (f : nat -> A) (n : nat) (a : A) : nat -> A := fun m => if Nat.eqb m n then a else f m.

Definition set_hold (s : state) (h : nat) (x : holder) : state :=
  {| next := next s; live := live s; addr := addr s; hold := upd (hold s) h (Some x); cache := cache s |}.
Definition set_cache (s : state) (a : nat) (x : option (list (K * nat))) : state :=
  {| next := next s; live := live s; addr := addr s; hold := hold s; cache := upd (cache s) a x |}.
Definition with_data (x : holder) (d : option D) : holder :=
  {| h_client := h_client x; h_key := h_key x; h_data := d; h_sigs := h_sigs x; h_objs := h_objs x |}.

Definition free_addr (s : state) (a : nat) : bool :=
  forallb (fun o => negb (live s o && Nat.eqb (addr s o) a)) (seq 0 (next s)).
Definition alloc (s : state) (a : nat) : state :=
  {| next := S (next s); live := upd (live s) (next s) true; addr := upd (addr s) (next s) a;
     hold := hold s; cache := cache s |}.

(** Cache.getHolder, cache.py 61-66 *)
Definition getHolder (s : state) (c : nat) (k : K) : option nat :=
  match cache s (addr s c) with
  | Some cur => dget keqb cur k
  | None => None
  end.
(** Cache.getData, cache.py 67-74; [Some None] is a returned None, [None] is the default *)
Definition getData (s : state) (c : nat) (k : K) : option (option D) :=
  match getHolder s c k with
  | Some h => match hold s h with Some x => Some (h_data x) | None => None end
  | None => None
  end.

(** CacheHolder.__init__, cache.py 137-164 *)
Definition new_holder (s : state) (c : nat) (k : K) (a : nat) (d : option D) : state :=
  let h := next s in
  let s := alloc s a in
  let s := set_hold s h {| h_client := c; h_key := k; h_data := d; h_sigs := []; h_objs := [] |} in
  let cur := match cache s (addr s c) with Some cur => cur | None => [] end in
  set_cache s (addr s c) (Some (dset keqb cur k h)).

(** CacheHolder.__call__, cache.py 224-264 *)
Definition call (s : state) (h : nat) : state :=
  match hold s h with
  | None => s
  | Some x =>
      if live s (h_client x) then
        let ca := addr s (h_client x) in
        let s := set_hold s h (with_data x None) in
        match cache s ca with
        | None => s
        | Some cur =>
            match dget keqb cur (h_key x) with
            | None => s                                    (* KeyError *)
            | Some _ =>
                let cur := ddel keqb cur (h_key x) in
                let s := set_cache s ca (match cur with [] => None | _ => Some cur end) in
                set_hold s h {| h_client := h_client x; h_key := h_key x; h_data := None;
                                h_sigs := h_sigs x; h_objs := [] |}
            end
        end
      else s
  end.

(** CacheHolder.clear, cache.py 218-223 *)
Definition clear (s : state) (h : nat) : state :=
  match hold s h with
  | None => s
  | Some x => if live s (h_client x) && truthy (h_client x) then set_hold s h (with_data x None)
              else call s h
  end.

Definition mem2 (p : nat * nat) (l : list (nat * nat)) : bool :=
  existsb (fun q => Nat.eqb (fst q) (fst p) && Nat.eqb (snd q) (snd p)) l.
Definition memn (n : nat) (l : list nat) : bool := existsb (Nat.eqb n) l.

(** the live holders satisfying p, in order of creation *)
Definition holders (s : state) (p : holder -> bool) : list nat :=
  filter (fun h => live s h && match hold s h with Some x => p x | None => false end) (seq 0 (next s)).

(** a 'set'/'del'/'route' message of field f of node n, cache.py 166-209 *)
Definition notify (s : state) (n f : nat) : state :=
  fold_left clear (holders s (fun x => mem2 (n, f) (h_sigs x))) s.

Definition in_cache (s : state) (h : nat) : bool :=
  match hold s h with
  | None => false
  | Some x => match cache s (addr s (h_client x)) with
              | Some cur => match dget keqb cur (h_key x) with Some h' => Nat.eqb h' h | None => false end
              | None => false
              end
  end.

(** collection of object o (not a holder the cache keeps alive): weakref
    callbacks of holders having o as client (cleaner, cache.py 95-103) and of
    holders depending on its existence (cache.py 210-217) *)
Definition collect (s : state) (o : nat) : state :=
  let s1 := {| next := next s; live := upd (live s) o false; addr := addr s; hold := hold s; cache := cache s |} in
  let s2 := match holders s1 (fun x => Nat.eqb (h_client x) o) with
            | [] => s1
            | _ => set_cache s1 (addr s1 o) None
            end in
  fold_left call (holders s2 (fun x => memn o (h_objs x))) s2.

(** What a program (and the collector) can do.  A step whose objects are not
    live, or whose address is in use, cannot occur and changes nothing. *)
Inductive op :=
| New (a : nat)                             (* allocate an object at address a *)
| NewHolder (c : nat) (k : K) (a : nat) (d : option D)
| SetData (h : nat) (d : option D)          (* holder.set / holder.data = *)
| Depend (h n f : nat)                      (* holder.depend(node, field) *)
| DependObj (h n : nat)                     (* holder.depend(node) *)
| Notify (n f : nat)
| Clear (h : nat)
| Call (h : nat)
| Collect (o : nat).

Definition is_holder (s : state) (h : nat) : bool :=
  live s h && match hold s h with Some _ => true | None => false end.

Definition step (s : state) (o : op) : state :=
  match o with
  | New a => if free_addr s a then alloc s a else s
  | NewHolder c k a d => if live s c && free_addr s a then new_holder s c k a d else s
  | SetData h d =>
      match hold s h with
      | Some x => if live s h then set_hold s h (with_data x d) else s
      | None => s
      end
  | Depend h n f =>
      match hold s h with
      | Some x => if live s h && live s n then
          set_hold s h {| h_client := h_client x; h_key := h_key x; h_data := h_data x;
                          h_sigs := h_sigs x ++ [(n, f)]; h_objs := h_objs x |} else s
      | None => s
      end
  | DependObj h n =>
      match hold s h with
      | Some x => if live s h && live s n then
          set_hold s h {| h_client := h_client x; h_key := h_key x; h_data := h_data x;
                          h_sigs := h_sigs x; h_objs := h_objs x ++ [n] |} else s
      | None => s
      end
  | Notify n f => if live s n then notify s n f else s
  | Clear h => if is_holder s h then clear s h else s
  | Call h => if is_holder s h then call s h else s
  | Collect o => if live s o && negb (in_cache s o) then collect s o else s
  end.
Definition run (s : state) (os : list op) : state := fold_left step os s.
End Cache.
Arguments state : clear implicits.
Arguments holder : clear implicits.
Arguments op : clear implicits.
