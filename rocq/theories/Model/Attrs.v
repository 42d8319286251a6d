(** include/SAX/helpers/AttributesImpl.hpp.  Positions are unbounded naturals
    (unsigned int in the code). *)
From Verif.Model Require Import Base.

(** struct Attr, AttributesImpl.hpp:49-83. *)
Record attr := Attr { a_uri : str; a_local : str; a_qname : str; a_type : str; a_value : str }.

(** getLength, AttributesImpl.hpp:111-114. *)
Definition at_length (l : list attr) : nat := length l.

(** getURI, getLocalName, getQName, getType, getValue by position,
    AttributesImpl.hpp:124-192. *)
Definition at_field (f : attr -> str) (l : list attr) (i : nat) : str :=
  match nth_error l i with Some a => f a | None => [] end.

(** AttributeNamed, AttributesImpl.hpp:555-575, and the test on qualified names. *)
Definition is_named (uri local : str) (a : attr) : bool :=
  str_eqb (a_uri a) uri && str_eqb (a_local a) local.
Definition has_qname (q : str) (a : attr) : bool := str_eqb (a_qname a) q.

(** std::find_if over the deque, as the position found. *)
Fixpoint find_pos (f : attr -> bool) (l : list attr) : option nat :=
  match l with
  | [] => None
  | a :: r => if f a then Some O
              else match find_pos f r with Some i => Some (S i) | None => None end
  end.
(** getIndex, AttributesImpl.hpp:207-231; None is -1. *)
Definition index_of (l : list attr) (uri local : str) : option nat := find_pos (is_named uri local) l.
Definition index_of_q (l : list attr) (q : str) : option nat := find_pos (has_qname q) l.
(** getType, getValue by name, AttributesImpl.hpp:243-305: the field of the first
    attribute the loop meets. *)
Fixpoint first_field (g : attr -> bool) (f : attr -> str) (l : list attr) : str :=
  match l with
  | [] => []
  | a :: r => if g a then f a else first_field g f r
  end.
Definition type_of l uri local := first_field (is_named uri local) a_type l.
Definition type_of_q l q := first_field (has_qname q) a_type l.
Definition value_of l uri local := first_field (is_named uri local) a_value l.
Definition value_of_q l q := first_field (has_qname q) a_value l.

Fixpoint update (l : list attr) (i : nat) (f : attr -> attr) : list attr :=
  match l, i with
  | [], _ => []
  | a :: r, O => f a :: r
  | a :: r, S i' => a :: update r i' f
  end.
Fixpoint remove_nth (l : list attr) (i : nat) : list attr :=
  match l, i with
  | [], _ => []
  | _ :: r, O => r
  | a :: r, S i' => a :: remove_nth r i'
  end.

(** The manipulators, AttributesImpl.hpp:312-541.  None: badIndex threw
    std::out_of_range (547-553). *)
Inductive at_op :=
  | AClear
  | AAdd (a : attr)
  | AAddOrReplace (a : attr)
  | ASet (i : nat) (a : attr)
  | ARemove (i : nat)
  | ASetURI (i : nat) (s : str)
  | ASetLocal (i : nat) (s : str)
  | ASetQName (i : nat) (s : str)
  | ASetType (i : nat) (s : str)
  | ASetValue (i : nat) (s : str).
Definition set_value (v : str) (a : attr) : attr :=
  Attr (a_uri a) (a_local a) (a_qname a) (a_type a) v.
Definition checked (l : list attr) (i : nat) (r : list attr) : option (list attr) :=
  if Nat.ltb i (length l) then Some r else None.
Definition at_apply (o : at_op) (l : list attr) : option (list attr) :=
  match o with
  | AClear => Some []
  | AAdd a => Some (l ++ [a])
  | AAddOrReplace a =>
      Some match index_of l (a_uri a) (a_local a) with
           | Some i => update l i (set_value (a_value a))
           | None => l ++ [a]
           end
  | ASet i a => checked l i (update l i (fun _ => a))
  | ARemove i => checked l i (remove_nth l i)
  | ASetURI i s =>
      checked l i (update l i (fun a => Attr s (a_local a) (a_qname a) (a_type a) (a_value a)))
  | ASetLocal i s =>
      checked l i (update l i (fun a => Attr (a_uri a) s (a_qname a) (a_type a) (a_value a)))
  | ASetQName i s =>
      checked l i (update l i (fun a => Attr (a_uri a) (a_local a) s (a_type a) (a_value a)))
  | ASetType i s =>
      checked l i (update l i (fun a => Attr (a_uri a) (a_local a) (a_qname a) s (a_value a)))
  | ASetValue i s => checked l i (update l i (set_value s))
  end.

(** setAttributes, AttributesImpl.hpp:325-336: clear, then copy by position.  The
    argument may be the list itself ([self]), which clear() has emptied. *)
Definition set_attributes (self : bool) (l other : list attr) : list attr :=
  let src := if self then [] else other in
  map (fun i => Attr (at_field a_uri src i) (at_field a_local src i) (at_field a_qname src i)
                     (at_field a_type src i) (at_field a_value src i))
      (seq 0 (length src)).

(** A history; a rejected call leaves the list as it was and the history goes on. *)
Fixpoint at_run (ops : list at_op) (l : list attr) : list attr :=
  match ops with
  | [] => l
  | o :: r => at_run r match at_apply o l with Some l' => l' | None => l end
  end.
