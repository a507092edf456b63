(** What a file writes as the values of attributes, and which values fit a field.
    For P_Values. *)
From Coq Require Import Reals SpecFloat.
From Verif Require Import Base Text Coerce_Model Doc_Spec VrmlStr_Model Scene_Spec Build_Model Reading_Spec.
Local Open Scope nat_scope.
Local Open Scope list_scope.

(** the values written in an item, at any depth: the type of the node, the
    name of the attribute, the value *)
Fixpoint writings (i : sitem) : list (text * text * list sitem) :=
  match i with
  | SNode _ gi l => flat_map (fun p => match snd p with SVal its => (gi, fst p, its) :: flat_map writings its | SIs _ => [] end) l
  | SScript _ l => flat_map (fun x => match x with SSField _ _ _ (SVal its) | SSAttr _ (SVal its) => flat_map writings its | _ => [] end) l
  | _ => []
  end.
(** those in a file, also in the bodies of its PROTOs *)
Definition assigned (d : list sroot) (w : text * text * list sitem) : Prop := exists x i, scene_in d x /\ In (SRItem i) x /\ In w (writings i).


(** *** which values fit a field of each type *)
(** numbers; numbers without a decimal point *)
Definition numbers (l : list sitem) : Prop := Forall (fun i => exists n, i = SNum n) l.
Definition wholes (l : list sitem) : Prop := Forall (fun i => exists n, i = SNum n /\ ~ In 46%N n) l.
Definition fits (t : fty) (l : list sitem) : Prop :=
  match t with
  | SFBool | SFString => List.length l = 1
  | SFFloat | SFTime => numbers l /\ List.length l = 1
  | SFInt32 => wholes l /\ List.length l = 1
  | SFVec2f => numbers l /\ List.length l = 2
  | SFVec3f | SFColor => numbers l /\ List.length l = 3
  | SFRotation => numbers l /\ List.length l = 4
  | MFFloat | MFTime | MFFloat32 => numbers l
  | MFInt32 | MFUInt32 | SFImage => wholes l
  | MFVec2f => numbers l /\ exists k, List.length l = k * 2
  | MFVec3f | MFColor => numbers l /\ exists k, List.length l = k * 3
  | MFRotation => numbers l /\ exists k, List.length l = k * 4
  | MFString => True
  (** no value can be written for these *)
  | SFUInt32 | SFVec4f | SFVec2d | SFVec3d | SFVec4d | MFVec4f | MFVec2d | MFVec3d | MFVec4d => False
  end.
