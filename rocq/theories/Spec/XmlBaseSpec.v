(** The XML Base recommendation, for a given way to resolve references. *)
From Coq Require Import List ZArith.
Import ListNotations.

(** The base in force inside open elements, the innermost first, each with its
    xml:base attribute if it has one; None when some reference cannot be resolved. *)
Fixpoint base_of (resolve : list Z -> list Z -> option (list Z)) (loc : list Z)
  (path : list (option (list Z))) : option (list Z) :=
  match path with
  | [] => Some loc
  | None :: r => base_of resolve loc r
  | Some b :: r => match base_of resolve loc r with
                   | Some outer => resolve outer b
                   | None => None
                   end
  end.

(** The open elements after start and end events; None if an end has no start. *)
Fixpoint open_elements (evs : list (option (option (list Z)))) (path : list (option (list Z)))
  : option (list (option (list Z))) :=
  match evs with
  | [] => Some path
  | Some b :: r => open_elements r (b :: path)
  | None :: r => match path with [] => None | _ :: p => open_elements r p end
  end.
