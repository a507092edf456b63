(** Python dict semantics as an insertion-ordered association list with unique
    keys: d.get(k), d[k] = v (keeps the position of an existing key),
    del d[k]. *)
From Verif Require Import Base.

Section Dict.
Context {K V : Type}.
Variable eqb : K -> K -> bool.

Fixpoint dget (d : list (K * V)) (k : K) : option V :=
  match d with
  | [] => None
  | (k', v) :: d' => if eqb k' k then Some v else dget d' k
  end.
Fixpoint dset (d : list (K * V)) (k : K) (v : V) : list (K * V) :=
  match d with
  | [] => [(k, v)]
  | (k', v') :: d' => if eqb k' k then (k', v) :: d' else (k', v') :: dset d' k v
  end.
Fixpoint ddel (d : list (K * V)) (k : K) : list (K * V) :=
  match d with
  | [] => []
  | (k', v') :: d' => if eqb k' k then d' else (k', v') :: ddel d' k
  end.
(** d.update(dict(items)) *)
Definition dupdate (d items : list (K * V)) : list (K * V) :=
  fold_left (fun d kv => dset d (fst kv) (snd kv)) items d.
Definition dkeys (d : list (K * V)) : list K := map fst d.
End Dict.
