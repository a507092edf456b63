(** Model of accelerate/src/frustcullaccel.pyx 7-38 (planeCull).

    The carrier and its operations are parameters: [F] with [add], [mul], [neg]
    and the comparison [ge] ([a >= b]); instantiated with rationals in the
    property file.  Rows are lists; an array of width w has all rows of length w. *)
From Verif Require Import Base.

Section Cull.
Context {F : Type}.
Variables (add mul : F -> F -> F) (neg : F -> F) (ge : F -> F -> bool) (zero : F).

Definition at_ (r : list F) (i : nat) : F := nth i r zero.
(** frustcullaccel.pyx 29-32 *)
Definition distance (plane point : list F) : F :=
  add (add (add (mul (at_ plane 0) (at_ point 0)) (mul (at_ plane 1) (at_ point 1)))
           (mul (at_ plane 2) (at_ point 2))) (at_ plane 3).
(** frustcullaccel.pyx 28-34: foundInFront after the loop over the points *)
Fixpoint in_front (plane : list F) (points : list (list F)) (minD : F) (found : bool) : bool :=
  match points with
  | [] => found
  | p :: ps => in_front plane ps minD (if ge (distance plane p) minD then true else found)
  end.
(** frustcullaccel.pyx 27-38 *)
Fixpoint cull_loop (planes points : list (list F)) (minD : F) : bool * option (list F) :=
  match planes with
  | [] => (false, None)
  | pl :: pls => if in_front pl points minD false then cull_loop pls points minD
                 else (true, Some pl)
  end.
(** frustcullaccel.pyx 20-26; [wp], [wq] are planes.shape[1], points.shape[1] *)
Definition plane_cull (wp wq : nat) (planes points : list (list F)) (minDistance : F)
  : res (bool * option (list F)) :=
  if negb (Nat.eqb wp 4) then Exc TypeError
  else if negb (Nat.eqb wq 3 || Nat.eqb wq 4) then Exc TypeError
  else Ok (cull_loop planes points (neg minDistance)).
End Cull.
