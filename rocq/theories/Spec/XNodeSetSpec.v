(** What node sets are to do. *)
From Coq Require Import Permutation Sorted.
From Verif.Model Require Import Base XNode XAxis XNodeSet.
From Verif.Spec Require Import XOrder.

(** std::sort (C++ standard, [sort]): for an ordering that is a strict weak ordering on the
    elements it gives a permutation without an element before a lesser one.  Nothing is said
    about the order of equivalent elements. *)
Definition strict_weak (less : xnode -> xnode -> bool) (l : list xnode) : Prop :=
  (forall x, In x l -> less x x = false) /\
  (forall x y z, In x l -> In y l -> In z l -> less x y = true -> less y z = true -> less x z = true) /\
  (forall x y z, In x l -> In y l -> In z l -> less x y = false -> less y x = false -> less y z = false -> less z y = false -> less x z = false /\ less z x = false).
Definition sorts (ss : sorter) : Prop := forall less l, strict_weak less l ->
  Permutation (ss less l) l /\ StronglySorted (fun x y => less y x = false) (ss less l).

(** Document order between the nodes of documents: within a document that of XPath, and the
    documents one after the other, in some order. *)
Definition precedes (f : forest) (x y : xnode) : Prop :=
  if Nat.eqb (fst x) (fst y) then before (order (f_tree f (fst x)) []) (snd x) (snd y)
  else f_addr f (fst y) < f_addr f (fst x).
Definition documents (f : forest) : Prop := forall i j, f_addr f i = f_addr f j -> i = j.
Definition node_of (f : forest) (x : xnode) : Prop :=
  f_doc f (fst x) = fst x /\ small (f_tree f (fst x)) /\ In (snd x) (order (f_tree f (fst x)) []).

(** What can be done to a set: the steps of the class's public functions. *)
Inductive set_op := Push (x : xnode) | Insert (at_ : nat) (l : list xnode) | PushSet (r : nodeset) | Forward (b : bool) | Sort | ToDocumentOrder | Top.
Definition apply_op (ss : sorter) (f : forest) (o : set_op) (s : nodeset) : nodeset :=
  match o with
  | Push x => push_node x s
  | Insert n l => insert_nodes n l s
  | PushSet r => push_set r s
  | Forward b => set_forward b s
  | Sort => sort ss f s
  | ToDocumentOrder => to_document_order ss f s
  | Top => fst (top ss f s)
  end.
Definition added (o : set_op) : list xnode :=
  match o with Push x => [x] | Insert _ l => l | PushSet r => s_nodes r | _ => [] end.

(** The texts of a tree, in document order. *)
Fixpoint texts (t : xtree) : str :=
  match t with
  | Xt i _ kids =>
      match i_kind i with
      | Xtext | Xcdata => i_value i
      | _ => (fix go (l : list xtree) := match l with [] => [] | k :: r => texts k ++ go r end) kids
      end
  end.
Fixpoint no_nul (t : xtree) : Prop :=
  match t with
  | Xt i _ kids => ~ In 0 (i_value i) /\ (fix go (l : list xtree) := match l with [] => True | k :: r => no_nul k /\ go r end) kids
  end.
(** A set made by a sequence of operations that put nodes of the forest into it. *)
Definition made (ss : sorter) (f : forest) (s : nodeset) : Prop := exists b ops,
  Forall (fun o => Forall (node_of f) (added o)) ops /\ s = fold_left (fun s o => apply_op ss f o s) ops (new_set b).
