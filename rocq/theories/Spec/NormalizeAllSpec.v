(** Trees whose elements have attributes, and what normalize should do to them. *)
From Verif.Model Require Import Base Dom.
From Verif.Spec Require Import DomSpec DomTextSpec.
From Coq Require Import List. Import ListNotations.

(** [attrs] gives each node its attributes: attributes belong to one node and once; no attribute has
    nodes with attributes below it; texts have none. *)
Record attributed (attrs : nat -> list nat) (h : heap) : Prop := {
  at_kind : forall j a, In a (attrs j) -> n_kind (h a) = KAttr;
  at_once : forall j k a, In a (attrs j) -> In a (attrs k) -> j = k;
  at_nodup : forall j, NoDup (attrs j);
  at_inside : forall j a b, In a (attrs j) -> n_kind (h b) = KAttr -> ~ at_or_below h b j;
  at_text : forall j, n_kind (h j) = KText -> attrs j = [] }.
(** At or below a node, or at or below an attribute of a node there. *)
Definition within (attrs : nat -> list nat) (h : heap) (this i : nat) : Prop :=
  at_or_below h this i \/ exists j a, at_or_below h this j /\ In a (attrs j) /\ at_or_below h a i.
(** The same without the node and the attributes. *)
Definition strictly_within (attrs : nat -> list nat) (h : heap) (this i : nat) : Prop :=
  above h this i \/ exists j a, at_or_below h this j /\ In a (attrs j) /\ above h a i.
