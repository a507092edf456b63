(** What flattening means: the leaves of a finite nesting, left to right.
    [leaves_of h l ls]: the items [l], read in heap [h], form a finite forest
    whose leaves in order are [ls]. *)
From Verif Require Import Base Collapse_Model.

Section Spec.
Context {A : Type}.
Inductive leaves_of (h : heap A) : list (item A) -> list A -> Prop :=
| lv_nil : leaves_of h [] []
| lv_leaf x r ls : leaves_of h r ls -> leaves_of h (ILeaf x :: r) (x :: ls)
| lv_list j r ls1 ls2 :
    leaves_of h (nth j h []) ls1 -> leaves_of h r ls2 -> leaves_of h (IList j :: r) (ls1 ++ ls2).
(** every reference is to an existing list *)
Definition wf_heap (h : heap A) : Prop :=
  forall j i, In (IList j) (nth i h []) -> j < length h.
End Spec.
