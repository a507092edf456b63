(** Model of prototype instantiation: /repo/vrml/node.py 171-218
    (PrototypedNode.instantiate), with links and cells as in Route_Model.

    [template.copy(copier)] copies the template scenegraph shallowly (C41): the
    instance's implementation tree consists of the template's own nodes, and the
    IS destinations recorded by the parser (vrml97/parseprocessor.py 176-186,
    326-338) are the template's nodes.  So the cells of the implementation are
    the same for every instance; this model needs no renaming of cells.

    Simplifications: a class with a template (lines 180-187 found one); routes of
    the template itself are part of the links the world starts with. *)
From Verif Require Import Base Route_Model.

Section Instantiate.
Context {V : Type}.
Variable kind_of : cell -> kind.
Variable coerce : cell -> V -> res V.
Variable resolves : cell -> bool.    (* getField(destination, name) finds it *)

(** one item of ismaps(cls): field name, its default (None: an event, which has
    no getDefault), and the list of (node, field) pairs it IS *)
Record mapping := { m_field : nat; m_default : option V; m_targets : list cell }.

Record world := { w_store : Route_Model.state V; w_links : list link }.

(** node.py 210-217: fset without notification; an unknown field or an event
    (which has no fset) is an AttributeError, which is swallowed; a value that is
    not accepted raises ValueError (field.py 128-139). *)
Definition push (s : Route_Model.state V) (c : cell) (v : V) : res (Route_Model.state V) :=
  if resolves c then
    match kind_of c with
    | KEvent => Ok s
    | KField => match coerce c v with
        | Ok w => Ok (put s c w)
        | Exc TypeError => Exc ValueError
        | Exc AttributeError => Ok s
        | Exc e => Exc e
        end
    end
  else Ok s.

(** node.py 198-217.  [dest] is the Python variable pair (destination,
    destinationField), which survives from one iteration of the outer loop to
    the next; None: not yet bound. *)
Fixpoint instantiate (w : world) (inst : nat) (dest : option cell) (ms : list mapping) : res world :=
  match ms with
  | [] => Ok w
  | m :: ms =>
      let links := w_links w ++ map (LIS (inst, m_field m)) (m_targets m) in
      let dest := match rev (m_targets m) with c :: _ => Some c | [] => dest end in
      match m_default m with
      | None => instantiate {| w_store := w_store w; w_links := links |} inst dest ms
      | Some v =>
          match dest with
          | None => Exc NameError           (* UnboundLocalError *)
          | Some c =>
              match push (w_store w) c v with
              | Ok s => instantiate {| w_store := s; w_links := links |} inst dest ms
              | Exc e => Exc e
              end
          end
      end
  end.
End Instantiate.
Arguments mapping : clear implicits.
Arguments world : clear implicits.
