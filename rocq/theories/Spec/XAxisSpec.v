(** The axes of XPath 1.0, section 2.2, by document order and by who is above whom. *)
From Verif.Model Require Import Base XNode XAxis.
From Verif.Spec Require Import XOrder.

(** Text nodes that stand next to each other are one text node in XPath: the first stands for
    all of them. *)
Definition continues (t : xtree) (p : path) : bool :=
  is_text t p && match prev_sibling p with Some q => is_text t q | None => false end.
Definition nodes (t : xtree) : list path := filter (fun p => negb (continues t p)) (order t []).

Definition is_attribute (p : path) : Prop := exists i q, p = Att i :: q.
Definition is_above (x y : path) : Prop := exists l, l <> [] /\ y = l ++ x.
Definition on_axis (t : xtree) (a : axis) (x y : path) : Prop :=
  match a with
  | Self => y = x
  | Parent => exists s, x = s :: y
  | Ancestor => is_above y x
  | AncestorOrSelf => is_above y x \/ y = x
  | Child => ~ is_attribute y /\ exists s, y = s :: x
  | Descendant => ~ is_attribute y /\ is_above x y
  | DescendantOrSelf => ~ is_attribute y /\ is_above x y \/ y = x
  | Attribute => exists i u, y = Att i :: x /\ subtree t y = Some u /\ i_uri (t_info u) <> xmlns_uri
  | FollowingSibling => exists i j q, x = Kid i :: q /\ y = Kid j :: q /\ (i < j)%nat
  | PrecedingSibling => exists i j q, x = Kid i :: q /\ y = Kid j :: q /\ (j < i)%nat
  | Following => ~ is_attribute y /\ before (order t []) x y /\ ~ is_above x y
  | Preceding => ~ is_attribute y /\ before (order t []) y x /\ ~ is_above y x
  | Namespace => False
  end.
(** The elements of a list that satisfy a property, in the order of the list. *)
Inductive picks {A} (P : A -> Prop) : list A -> list A -> Prop :=
  | picks_nil : picks P [] []
  | picks_in : forall x l m, P x -> picks P l m -> picks P (x :: l) (x :: m)
  | picks_out : forall x l m, ~ P x -> picks P l m -> picks P (x :: l) m.
(** The nodes of an axis, in document order for a forward axis, in reverse document order for
    the others. *)
Definition axis_list (t : xtree) (a : axis) (x : path) (l : list path) : Prop :=
  picks (on_axis t a x) (nodes t) (if axis_forward a then l else rev l).

(** Only elements have attributes, and text nodes have no children. *)
Fixpoint shape_ok (t : xtree) : Prop :=
  match t with
  | Xt i attrs kids =>
      (attrs <> [] -> i_kind i = Xelement) /\ (kids <> [] -> match i_kind i with Xdocument | Xfragment | Xelement | Xentityref => True | _ => False end) /\
      Forall (fun a => t_kind a = Xattribute /\ t_attrs a = []) attrs /\
      (fix go (l : list xtree) := match l with [] => True | k :: r => (t_kind k <> Xattribute /\ t_kind k <> Xdocument) /\ shape_ok k /\ go r end) kids
  end.
(** No text node stands next to a text node. *)
Definition normal (t : xtree) : Prop := forall p, In p (order t []) -> continues t p = false.
