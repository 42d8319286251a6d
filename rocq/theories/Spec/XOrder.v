(** Document order (XPath 1.0, section 5): an element comes before its attributes, they come
    before its children, and all below a node comes before what follows it. *)
From Verif.Model Require Import Base XNode.

Fixpoint attributes_of (p : path) (i : nat) (l : list xtree) : list path :=
  match l with [] => [] | _ :: r => (Att i :: p) :: attributes_of p (S i) r end.
Fixpoint order (t : xtree) (p : path) : list path :=
  match t with
  | Xt _ attrs kids =>
      p :: attributes_of p 0 attrs ++
      (fix go (i : nat) (l : list xtree) := match l with [] => [] | k :: r => order k (Kid i :: p) ++ go (S i) r end) O kids
  end.
Definition before {A} (l : list A) (x y : A) : Prop := exists l1 l2 l3, l = l1 ++ x :: l2 ++ y :: l3.
(** No element has more than 999 attributes and no node more than 2147483 children. *)
Fixpoint small (t : xtree) : Prop :=
  match t with
  | Xt _ attrs kids =>
      Z.of_nat (length attrs) <= 999 /\ Z.of_nat (length kids) <= 2147483 /\
      (fix go (l : list xtree) := match l with [] => True | k :: r => small k /\ go r end) kids
  end.
