(** vrml/fieldtypes.py lines 35-59: flattening of list hierarchies.

    Lists are heap objects, so that the destructive updates and the sharing
    between the argument, its sub-lists and the result are visible: a heap
    gives the contents of list number 0, 1, ...; an item is either a
    reference to a list or something that is not a list. *)
From Verif Require Import Base.

Section Collapse.
Context {A : Type}.
Inductive item := IList (j : nat) | ILeaf (x : A).
Definition heap := list (list item).

(** contents of a list object *)
Definition get (h : heap) (j : nat) : list item := nth j h [].
Fixpoint set (h : heap) (j : nat) (l : list item) : heap :=
  match h, j with
  | [], _ => []
  | _ :: h', 0 => l :: h'
  | x :: h', S j' => x :: set h' j' l
  end.

(** fieldtypes.py 35-52 _collapse: for each index, while the item there is a
    list, replace it by that list's items ([inlist[ind:ind+1] = inlist[ind]]);
    IndexError ends the loop.  [fuel] bounds the number of iterations of the
    two loops together; None = not finished yet.  The bound maxint on the
    index (44) is larger than any list. *)
Fixpoint _collapse (fuel : nat) (h : heap) (id ind : nat) : option heap :=
  match fuel with
  | 0 => None
  | S f =>
      match nth_error (get h id) ind with
      | None => Some h
      | Some (IList j) =>
          _collapse f (set h id (firstn ind (get h id) ++ get h j ++ skipn (S ind) (get h id))) id ind
      | Some (ILeaf _) => _collapse f h id (S ind)
      end
  end.

(** fieldtypes.py 55-59 collapse: [list(inlist)] is a new list object; gives
    the final heap and the number of the returned list *)
Definition collapse (fuel : nat) (h : heap) (id : nat) : option (heap * nat) :=
  match _collapse fuel (h ++ [get h id]) (length h) 0 with
  | Some h' => Some (h', length h)
  | None => None
  end.
End Collapse.
Arguments item A : clear implicits.
Arguments heap A : clear implicits.
