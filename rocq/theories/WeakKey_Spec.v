(** What a table with weak keys should be, without weakrefs: what each object
    was last given, read off the history of calls. *)
From Coq Require Import List Arith.
From Verif Require Import Base WeakKey_Model.
Import ListNotations.

Definition put (m : nat -> option nat) (k : nat) (v : option nat) : nat -> option nat :=
  fun x => if x =? k then v else m x.

Fixpoint put_all (m : nat -> option nat) (l : list (key * nat)) : nat -> option nat :=
  match l with
  | (KObj k, v) :: l' => put_all (put m k (Some v)) l'
  | _ => m
  end.

(** What one call does to an ordinary dictionary with the same keys *)
Definition effect (m : nat -> option nat) (a : op * res out) : nat -> option nat :=
  match a with
  | (Set_ (KObj k) v, _) => put m k (Some v)
  | (Del (KObj k), _) => put m k None
  | (Pop (KObj k), _) => put m k None
  | (SetDefault (KObj k) v, _) => match m k with Some _ => m | None => put m k (Some v) end
  | (PopItem, Base.Ok (RItem k _)) => put m k None
  | (Update l, _) => put_all m l
  | (Clear, _) => fun _ => None
  | _ => m
  end.

(** What each object was last given *)
Definition given (h : list (op * res out)) : nat -> option nat :=
  fold_left effect h (fun _ => None).

(** Which objects are gone *)
Definition gone (h : list (op * res out)) (o : nat) : Prop :=
  exists os r, In (Die os, r) h /\ In o os.

(** The answer an ordinary dictionary [m] over the objects that are not
    [g]one gives to a call *)
Definition answer (m : nat -> option nat) (g : nat -> Prop) (a : op) (r : res out) : Prop :=
  match a with
  | GetItem (KObj k) | Pop (KObj k) =>
      r = match m k with Some v => Base.Ok (RVal v) | None => Exc KeyError end
  | Get (KObj k) => r = match m k with Some v => Base.Ok (RVal v) | None => Base.Ok RNone end
  | Contains (KObj k) => r = Base.Ok (RBool (match m k with Some _ => true | None => false end))
  | Contains KPlain => r = Base.Ok (RBool false)
  | Del (KObj k) => r = match m k with Some _ => Base.Ok RNone | None => Exc KeyError end
  | SetDefault (KObj k) v => r = Base.Ok (RVal (match m k with Some w => w | None => v end))
  | Set_ (KObj _) _ | Clear => r = Base.Ok RNone
  | Set_ KPlain _ | GetItem KPlain | Get KPlain | Del KPlain | Pop KPlain
  | SetDefault KPlain _ => r = Exc TypeError
  | Update l => r = if existsb (fun e => match fst e with KPlain => true | _ => false end) l
                    then Exc TypeError else Base.Ok RNone
  | PopItem => (exists k v, r = Base.Ok (RItem k v) /\ ~ g k /\ m k = Some v) \/
               (r = Exc KeyError /\ forall k, ~ g k -> m k = None)
  | _ => True
  end.

(** The callbacks of everything that died have run *)
Definition settled (s : st) : Prop := pend s = [].

(** Calls that need the number or the list of entries *)
Definition counts (a : op) : bool :=
  match a with
  | Len | Truth | Iter | Keys | Values | Items | Copy | EqTo | UpdateFromTable => true
  | _ => false
  end.
