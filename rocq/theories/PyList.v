(** Semantics of CPython's builtin list, as used by vrml/olist.py,
    vrml/weaklist.py, vrml/nodepath.py.  This is (trusted) library semantics,
    transcribed from the language reference / Objects/listobject.c and
    Objects/sliceobject.c (PySlice_Unpack, PySlice_AdjustIndices).
    Python integers are [Z]; indices too large for Py_ssize_t do not occur. *)
From Verif Require Import Base.
Open Scope Z_scope.

(** slice(start, stop, step) *)
Record pyslice := { sl_start : option Z; sl_stop : option Z; sl_step : option Z }.

Definition slice2 (i j : Z) : pyslice :=
  {| sl_start := Some i; sl_stop := Some j; sl_step := None |}.

(** PySlice_AdjustIndices: clamp one bound. *)
Definition adjust_bound (len step : Z) (x : Z) : Z :=
  if x <? 0 then
    (if x + len <? 0 then (if step <? 0 then -1 else 0) else x + len)
  else if len <=? x then (if step <? 0 then len - 1 else len) else x.

(** slice.indices: [None] when step = 0 (Python raises ValueError). *)
Definition slice_indices (len : Z) (s : pyslice) : option (Z * Z * Z) :=
  let step := match sl_step s with Some k => k | None => 1 end in
  if step =? 0 then None else
  let start := match sl_start s with
               | Some x => adjust_bound len step x
               | None => if step <? 0 then len - 1 else 0 end in
  let stop := match sl_stop s with
              | Some x => adjust_bound len step x
              | None => if step <? 0 then -1 else len end in
  Some (start, stop, step).

(** number of selected positions *)
Definition slice_count (start stop step : Z) : nat :=
  if step <? 0
  then (if stop <? start then Z.to_nat ((start - stop - 1) / (- step) + 1) else 0%nat)
  else (if start <? stop then Z.to_nat ((stop - start - 1) / step + 1) else 0%nat).

Definition slice_positions (start stop step : Z) : list nat :=
  map (fun k => Z.to_nat (start + Z.of_nat k * step))
      (seq 0 (slice_count start stop step)).

Section PyList.
Context {A : Type}.
Variable eqb : A -> A -> bool.       (* Python's == (or is) *)

Definition lenZ (l : list A) : Z := Z.of_nat (length l).

(** Normalise an integer subscript: [None] is IndexError. *)
Definition norm_index (len i : Z) : option nat :=
  let j := if i <? 0 then i + len else i in
  if (j <? 0) || (len <=? j) then None else Some (Z.to_nat j).

Definition py_get (l : list A) (i : Z) : res A :=
  match norm_index (lenZ l) i with
  | None => Exc IndexError
  | Some n => match nth_error l n with Some x => Ok x | None => Exc IndexError end
  end.

Definition update_nth (n : nat) (x : A) (l : list A) : list A :=
  firstn n l ++ match skipn n l with [] => [] | _ :: t => x :: t end.

Definition remove_nth (n : nat) (l : list A) : list A :=
  firstn n l ++ skipn (S n) l.

Definition py_set (l : list A) (i : Z) (x : A) : res (list A) :=
  match norm_index (lenZ l) i with
  | None => Exc IndexError
  | Some n => Ok (update_nth n x l)
  end.

Definition py_del (l : list A) (i : Z) : res (list A) :=
  match norm_index (lenZ l) i with
  | None => Exc IndexError
  | Some n => Ok (remove_nth n l)
  end.

Definition py_append (l : list A) (x : A) : list A := l ++ [x].

(** list.insert clamps its index. *)
Definition py_insert (l : list A) (i : Z) (x : A) : list A :=
  let j := if i <? 0 then Z.max 0 (i + lenZ l) else Z.min i (lenZ l) in
  firstn (Z.to_nat j) l ++ x :: skipn (Z.to_nat j) l.

Definition py_pop (l : list A) (i : Z) : res (A * list A) :=
  match norm_index (lenZ l) i with
  | None => Exc IndexError
  | Some n => match nth_error l n with
              | Some x => Ok (x, remove_nth n l)
              | None => Exc IndexError end
  end.

(** list.remove: first equal element; [None] is ValueError. *)
Fixpoint py_remove (l : list A) (x : A) : option (list A) :=
  match l with
  | [] => None
  | y :: t => if eqb y x then Some t
              else match py_remove t x with Some t' => Some (y :: t') | None => None end
  end.

Fixpoint py_in (x : A) (l : list A) : bool :=
  match l with [] => false | y :: t => eqb y x || py_in x t end.

Fixpoint py_count (x : A) (l : list A) : nat :=
  match l with [] => 0%nat | y :: t => ((if eqb y x then 1 else 0) + py_count x t)%nat end.

Definition pick (l : list A) (ps : list nat) : list A :=
  flat_map (fun p => match nth_error l p with Some x => [x] | None => [] end) ps.

Definition py_get_slice (l : list A) (s : pyslice) : res (list A) :=
  match slice_indices (lenZ l) s with
  | None => Exc ValueError
  | Some (a, b, k) => Ok (pick l (slice_positions a b k))
  end.

(** delete all elements whose position is in [ps]; [n] is the position of the head *)
Fixpoint drop_positions (n : nat) (ps : list nat) (l : list A) : list A :=
  match l with
  | [] => []
  | x :: t => if existsb (Nat.eqb n) ps then drop_positions (S n) ps t
              else x :: drop_positions (S n) ps t
  end.

Definition py_del_slice (l : list A) (s : pyslice) : res (list A) :=
  match slice_indices (lenZ l) s with
  | None => Exc ValueError
  | Some (a, b, k) => Ok (drop_positions 0 (slice_positions a b k) l)
  end.

Fixpoint assign_positions (ps : list nat) (vs : list A) (l : list A) : list A :=
  match ps, vs with
  | p :: ps', v :: vs' => assign_positions ps' vs' (update_nth p v l)
  | _, _ => l
  end.

(** list_ass_subscript with a slice: contiguous when step = 1, otherwise the
    lengths must agree (else ValueError). *)
Definition py_set_slice (l : list A) (s : pyslice) (vs : list A) : res (list A) :=
  match slice_indices (lenZ l) s with
  | None => Exc ValueError
  | Some (a, b, k) =>
      if k =? 1 then
        Ok (firstn (Z.to_nat a) l ++ vs ++ skipn (Z.to_nat (Z.max a b)) l)
      else if Nat.eqb (length vs) (slice_count a b k)
           then Ok (assign_positions (slice_positions a b k) vs l)
           else Exc ValueError
  end.
End PyList.
