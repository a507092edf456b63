(** Specification vocabulary for C08-C13. *)
From Verif Require Import Base Field_Model.

Section Spec.
Context {V : Type}.
Variable fname : nat -> nat.
Variable coerce : nat -> V -> res V.
Variable deflt : nat -> res V.

(** The (client, storage name) an operation addresses. *)
Definition touches (o : op (V:=V)) : option (nat * nat) :=
  match o with
  | Get n f | Set_ n f _ | FSet n f _ _ | Del n f | FDel n f _ | Has n f => Some (n, fname f)
  | Default _ => None
  end.

(** Operations that may replace or remove the value of (n, name k). *)
Definition overwrites (n k : nat) (o : op (V:=V)) : Prop :=
  match o with
  | Set_ n' f v | FSet n' f v _ => n' = n /\ fname f = k /\ exists w, coerce f v = Ok w
  | Del n' f | FDel n' f _ => n' = n /\ fname f = k
  | _ => False
  end.
(** Operations that successfully store a value in (n, name k). *)
Definition writes (n k : nat) (o : op (V:=V)) : Prop :=
  match o with
  | Set_ n' f v | FSet n' f v _ => n' = n /\ fname f = k /\ exists w, coerce f v = Ok w
  | _ => False
  end.

Definition is_delete (o : op (V:=V)) : bool :=
  match o with Del _ _ | FDel _ _ _ => true | _ => false end.

(** What a successful notifying set announces; nothing else announces a set. *)
Definition announces (o : op (V:=V)) : list msg :=
  match o with
  | Set_ n f v | FSet n f v true =>
      match coerce f v with Ok w => [MSet f n w] | Exc _ => [] end
  | _ => []
  end.

Definition is_set_msg (m : msg (V:=V)) : bool :=
  match m with MSet _ _ _ => true | MDel _ _ => false end.

(** Last announced value of (n, field f). *)
Fixpoint last_heard (n f : nat) (ms : list (msg (V:=V))) : option V :=
  match ms with
  | [] => None
  | m :: t => match last_heard n f t with
              | Some v => Some v
              | None => match m with
                        | MSet f' n' v => if Nat.eqb n' n && Nat.eqb f' f then Some v else None
                        | MDel _ _ => None
                        end
              end
  end.
End Spec.
