(** Model of DEF names, prototype lookup, pre-scan of routes and root
    propagation.

    vrml/vrml97/scenegraph.py 71-105 (getProto, getDEF, regDefName), 106-110
    (addProto); vrml/vrml97/linearise.py 427-439 (_preroute);
    vrml/node.py 322-341, 398-431 (_SFNode.fset and RootScenegraphNode.fset).

    Nodes are numbers.  Simplification: names passed to regDefName are strings
    (SFString.coerce leaves a str unchanged). *)
From Verif Require Import Base Text PyDict.
Local Open Scope nat_scope.

(** ** DEF table of one scenegraph *)
Record dstate := {
  defs : list (text * nat);        (* self.defNames *)
  ndef : nat -> text               (* each node's own DEF field ('' when unset) *)
}.
Definition dempty : dstate := {| defs := []; ndef := fun _ => [] |}.
Definition set_def (f : nat -> text) (n : nat) (d : text) : nat -> text :=
  fun m => if Nat.eqb m n then d else f m.

(** scenegraph.py 87-89 *)
Definition getDEF (s : dstate) (name : text) : option nat := dget text_eqb (defs s) name.

(** scenegraph.py 91-105 *)
Definition regDefName (s : dstate) (name : text) (obj : nat) : dstate :=
  let current := ndef s obj in
  let t := match dget text_eqb (defs s) current with
           | Some o => if Nat.eqb o obj then ddel text_eqb (defs s) current else defs s
           | None => defs s
           end in
  {| defs := dset text_eqb t name obj; ndef := set_def (ndef s) obj name |}.

(** a user's [node.DEF = name] (vrml/node.py 48), which does not go through the
    scenegraph *)
Definition assignDEF (s : dstate) (name : text) (obj : nat) : dstate :=
  {| defs := defs s; ndef := set_def (ndef s) obj name |}.

Definition reg_all (s : dstate) (h : list (text * nat)) : dstate :=
  fold_left (fun s p => regDefName s (fst p) (snd p)) h s.

(** ** _preroute (linearise.py 427-439)
    [proto n] is protoName(n).  The [while 1] loop is run with fuel; the
    theorems show that the fuel used by [fresh_name] always suffices. *)
Definition auto_name (p : text) (count : nat) : text := p ++ lit "_" ++ dec count.
Fixpoint find_count (s : dstate) (p : text) (fuel count : nat) : option nat :=
  match fuel with
  | O => None
  | S k => match getDEF s (auto_name p count) with
           | None => Some count
           | Some _ => find_count s p k (S count)
           end
  end.
Definition preroute_child (proto : nat -> text) (s : dstate) (child : nat) : option dstate :=
  match ndef s child with
  | [] => match find_count s (proto child) (S (List.length (defs s))) 0 with
          | Some c => Some (regDefName s (auto_name (proto child) c) child)
          | None => None                     (* loop did not end within the fuel *)
          end
  | _ => Some s
  end.
Definition preroute (proto : nat -> text) (s : dstate) (r : nat * nat) : option dstate :=
  match preroute_child proto s (fst r) with
  | Some s1 => preroute_child proto s1 (snd r)
  | None => None
  end.
(** linearise.py 126: all routes of the scenegraph, in order *)
Fixpoint preroutes (proto : nat -> text) (s : dstate) (rs : list (nat * nat)) : option dstate :=
  match rs with
  | [] => Some s
  | r :: rs' => match preroute proto s r with
                | Some s1 => preroutes proto s1 rs'
                | None => None
                end
  end.

(** ** Prototype lookup (scenegraph.py 71-85, 106-110)
    A scenegraph is created with an existing scenegraph (or None) as root; the
    root is held by weak reference. *)
Record gstate := {
  gnext : nat;
  protos : nat -> list (text * nat);
  groot : nat -> option nat;
  galive : nat -> bool
}.
Definition gempty : gstate :=
  {| gnext := 0; protos := fun _ => []; groot := fun _ => None; galive := fun _ => false |}.
Definition gset {A} (f : nat -> A) k x : nat -> A := fun j => if Nat.eqb j k then x else f j.
Inductive gop := GNew (root : option nat) | GAddProto (g : nat) (name : text) (p : nat)
              | GCollect (g : nat).
Definition gstep (s : gstate) (o : gop) : gstate :=
  match o with
  | GNew r =>
      let ok := match r with Some g => galive s g | None => true end in
      if ok then {| gnext := S (gnext s); protos := gset (protos s) (gnext s) [];
                    groot := gset (groot s) (gnext s) r; galive := gset (galive s) (gnext s) true |}
      else s
  | GAddProto g name p =>
      if galive s g then
        {| gnext := gnext s; protos := gset (protos s) g (dset text_eqb (protos s g) name p);
           groot := groot s; galive := galive s |}
      else s
  | GCollect g => {| gnext := gnext s; protos := protos s; groot := groot s;
                     galive := gset (galive s) g false |}
  end.
Definition grun (s : gstate) (os : list gop) : gstate := fold_left gstep os s.

(** scenegraph.py 71-85; the recursion over roots is run with fuel *)
Fixpoint getProto_fuel (fuel : nat) (s : gstate) (g : nat) (name : text) : option (option nat) :=
  match fuel with
  | O => None
  | S k =>
      match dget text_eqb (protos s g) name with
      | Some p => Some (Some p)
      | None => match groot s g with
                | None => Some None
                | Some r => if galive s r then getProto_fuel k s r name else Some None
                end
      end
  end.
Definition getProto (s : gstate) (g : nat) (name : text) : option (option nat) :=
  getProto_fuel (S g) s g name.

(** ** Root propagation (node.py 398-431)
    [kids n] are the nodes held by n's SFNode fields and MFNode lists in
    getFields order (NULL being a node without children).  DEF is the first
    field listed, so a node is registered before its children are visited.
    Simplifications: the value [v] is a live SceneGraph; a call that runs out of
    fuel is [None] (RecursionError in Python). *)
Record rstate := { rroot : nat -> option nat; rdefs : dstate }.

Section Root.
Variable kids : nat -> list nat.

Definition visit1 (s : rstate) (v n : nat) : rstate :=
  {| rroot := gset (rroot s) n (Some v);
     rdefs := regDefName (rdefs s) (ndef (rdefs s) n) n |}.

Fixpoint set_root (fuel : nat) (s : rstate) (v n : nat) : option rstate :=
  match fuel with
  | O => None
  | S k =>
      (* node.py 334-340: store, then give the scenegraph itself a root if it
         has none *)
      let s0 := {| rroot := gset (rroot s) n (Some v); rdefs := rdefs s |} in
      let s1 := match rroot s0 v with
                | Some _ => Some s0
                | None => set_root k s0 v v
                end in
      (* node.py 407-430 *)
      match s1 with
      | None => None
      | Some s1 =>
          let s2 := {| rroot := rroot s1; rdefs := regDefName (rdefs s1) (ndef (rdefs s1) n) n |} in
          fold_left (fun os c => match os with Some s => set_root k s v c | None => None end)
                    (kids n) (Some s2)
      end
  end.
End Root.
