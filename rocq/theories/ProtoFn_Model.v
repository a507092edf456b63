(** Model of vrml/protofunctions.py 103-175 (getField, getFields).

    A class is its MRO: a list of class dictionaries, most derived first
    ([cls.__mro__]), each an ordered dict from attribute name to attribute.
    An attribute is a field.Field instance, a field.Event instance (both carry
    the storage name [.name]) or anything else.

    Simplifications: attributes supplied by the metaclass (type) are not
    represented; getattr on a class returns the attribute itself (true for
    Field and Event, whose __get__ with client None returns self: field.py
    96-99, 409-412). *)
From Verif Require Import Base Text PyDict.

Inductive attr :=
| AField (ident : nat) (storage : text)
| AEvent (ident : nat) (storage : text)
| AOther (ident : nat).
Definition classdict := list (text * attr).
Definition mro := list classdict.

(** type.__getattribute__ without metaclass attributes: first class of the MRO
    having the name *)
Fixpoint class_getattr (m : mro) (name : text) : option attr :=
  match m with
  | [] => None
  | d :: m' => match dget text_eqb d name with
               | Some a => Some a
               | None => class_getattr m' name
               end
  end.

Definition wanted (events : bool) (a : attr) : bool :=
  match a with
  | AField _ _ => negb events
  | AEvent _ _ => events
  | AOther _ => false
  end.
(** protofunctions.py 162-174: [while mro: items.update(... mro[-1] ...); mro = mro[:-1]],
    that is from the base class to the most derived *)
Definition field_items (m : mro) (events : bool) : list (text * attr) :=
  fold_left (fun items d => dupdate text_eqb items (filter (fun kv => wanted events (snd kv)) d))
            (rev m) [].
(** protofunctions.py 149-175 *)
Definition getFields (m : mro) (events : bool) : list attr := map snd (field_items m events).

Definition storage (a : attr) : option text :=
  match a with AField _ n => Some n | AEvent _ n => Some n | AOther _ => None end.
Definition has_storage (l : list attr) (name : text) : bool :=
  existsb (fun a => match storage a with Some n => text_eqb n name | None => false end) l.

Inductive found := FAttr (a : attr) | FName (n : text).   (* the object / the string itself *)

Definition set_pre : text := lit "set_".
Definition changed_suf : text := lit "_changed".

(** protofunctions.py 103-146, by recursion on the length of the name *)
Fixpoint getField_fuel (fuel : nat) (m : mro) (name : text) : option (res found) :=
  match fuel with
  | O => None
  | S k =>
    Some match class_getattr m name with
    | Some a => Ok (FAttr a)
    | None =>
      if has_storage (getFields m false) name then Ok (FName name)
      else if has_storage (getFields m true) name then Ok (FName name)
      else if starts_with set_pre name then
        match getField_fuel k m (skipn 4 name) with Some r => r | None => Exc RecursionError end
      else if ends_with changed_suf name then
        match getField_fuel k m (firstn (List.length name - 8) name) with
        | Some r => r | None => Exc RecursionError end
      else Exc AttributeError
    end
  end.
Definition getField (m : mro) (name : text) : res found :=
  match getField_fuel (S (List.length name)) m name with
  | Some r => r
  | None => Exc RecursionError
  end.
