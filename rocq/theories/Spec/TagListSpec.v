(** The elements below a node that match, in document order. *)
From Verif.Model Require Import Base Dom.
From Verif.Spec Require Import DomSpec.

(** What getElementsByTagName (no namespace given) and getElementsByTagNameNS ask for; the
    name * stands for all. *)
Definition is_star (s : str) : Prop := s = [42].
Definition wanted (h : heap) (ns : option str) (tag : str) (n : nat) : Prop :=
  match ns with
  | None => is_star tag \/ tag = n_name (h n)
  | Some uri => (is_star uri \/ n_uri (h n) = Some uri) /\ (is_star tag \/ tag = n_local (h n))
  end.
(** [found h ns tag nodes l]: going through [nodes] and what is below them in document
    order, the elements wanted are [l]. *)
Inductive found (h : heap) (ns : option str) (tag : str) : list nat -> list nat -> Prop :=
  | found_nil : found h ns tag [] []
  | found_other : forall c r l, n_kind (h c) <> KElement -> found h ns tag r l -> found h ns tag (c :: r) l
  | found_yes : forall c r l1 l2, n_kind (h c) = KElement -> wanted h ns tag c ->
      found h ns tag (kids h c) l1 -> found h ns tag r l2 -> found h ns tag (c :: r) (c :: l1 ++ l2)
  | found_no : forall c r l1 l2, n_kind (h c) = KElement -> ~ wanted h ns tag c ->
      found h ns tag (kids h c) l1 -> found h ns tag r l2 -> found h ns tag (c :: r) (l1 ++ l2).
Definition matching (h : heap) (root : nat) (ns : option str) (tag : str) (l : list nat) : Prop :=
  found h ns tag (kids h root) l.
