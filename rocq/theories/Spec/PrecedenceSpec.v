(** XSLT 1.0, section 2.6: stylesheets form an import tree. *)
From Verif.Model Require Import Base Precedence.

(** A stylesheet with its own declarations (those it includes stand where it includes them) and
    the stylesheets that it and those it includes import, in order. *)
Inductive tree (T : Type) := Tree (own : list T) (imported : list (tree T)).
Arguments Tree {T} own imported.
Fixpoint own_of {T} (i : item T) : list T :=
  match i with Declares t => [t] | Includes l => concat (map own_of l) | Imports _ => [] end.
Fixpoint imported_of {T} (i : item T) : list (tree T) :=
  match i with
  | Declares _ => []
  | Includes l => concat (map imported_of l)
  | Imports l => [Tree (concat (map own_of l)) (concat (map imported_of l))]
  end.
Definition tree_of {T} (l : list (item T)) : tree T := Tree (concat (map own_of l)) (concat (map imported_of l)).

(** The address of a stylesheet in the tree: which import of which import.  A stylesheet has
    lower precedence than another if it comes before it in a post-order traversal. *)
Definition address := list nat.
Fixpoint visit {T} (a : address) (t : tree T) : list (address * list T) :=
  match t with
  | Tree own l => (fix go (i : nat) (l : list (tree T)) : list (address * list T) :=
      match l with [] => [] | t :: l => visit (a ++ [i]) t ++ go (S i) l end) O l ++ [(a, own)]
  end.
(** [a] imports [b], directly or not. *)
Definition imports_from (a b : address) : Prop := exists i c, b = a ++ i :: c.
(** The numbers that stand for an address. *)
Definition code (a : address) : precedence := 0 :: map (fun i => Z.of_nat i + 1) a.
