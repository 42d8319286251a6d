From Coq Require Import String.
From Verif.Model Require Import Base XNode.
From Verif.Spec Require Import XOrder.
From Verif.Proof Require Import XOrderProof.
From Verif.Props Require Import FilterProps.
From Coq Require Import List.
Import ListNotations.
Open Scope Z_scope.

(** The comparison of two nodes of a document says which comes first in document order, and
    that they are equal exactly when they are the same node.  Partial: no element has more
    than 999 attributes, no node more than 2147483 children, and namespace nodes are left out;
    see the refutations. *)
Theorem C36_document_order_partial : forall f d x y, small (f_tree f d) ->
  In x (order (f_tree f d) []) -> In y (order (f_tree f d) []) ->
  (compare_nodes f (d, x) (d, y) < 0 <-> before (order (f_tree f d) []) x y) /\
  (compare_nodes f (d, x) (d, y) = 0 <-> x = y) /\
  (compare_nodes f (d, x) (d, y) > 0 <-> before (order (f_tree f d) []) y x).
Proof. exact order_lemma. Qed.
Print Assumptions C36_document_order_partial.
(** Document order has each node once. *)
Theorem C36_each_once_partial : forall t, small t -> NoDup (order t []).
Proof. exact (fun t S => sorted_nodup _ (order_sorted t [] S)). Qed.
Print Assumptions C36_each_once_partial.
(** On the nodes of any number of documents the comparison is a strict total order. *)
Theorem C36_total_order_partial : forall f, (forall i j, f_addr f i = f_addr f j -> i = j) ->
  (forall x, in_document f x -> nodes_less_than f x x = false) /\
  (forall x y, in_document f x -> in_document f y -> nodes_less_than f x y = true \/ x = y \/ nodes_less_than f y x = true) /\
  (forall x y z, in_document f x -> in_document f y -> in_document f z ->
     nodes_less_than f x y = true -> nodes_less_than f y z = true -> nodes_less_than f x z = true).
Proof. exact documents_lemma. Qed.
Print Assumptions C36_total_order_partial.

(** A document: an element with two attributes, a comment and an element with a text. *)
Definition info (k : xkind) (n : string) : xinfo := Info k (lit n) [] (lit n) [] (lit n).
Definition small_doc : xtree :=
  Xt (info Xdocument "") [] [Xt (info Xelement "r") [Xt (info Xattribute "a") [] []; Xt (info Xattribute "b") [] []]
    [Xt (info Xcomment "c") [] []; Xt (info Xelement "e") [] [Xt (info Xtext "t") [] []]]].
Definition alone (t : xtree) : forest := Forest (fun _ => t) (fun i => i) Z.of_nat.
Example C36_small_doc : small small_doc /\
  order small_doc [] = [[]; [Kid 0]; [Att 0; Kid 0]; [Att 1; Kid 0]; [Kid 0; Kid 0]; [Kid 1; Kid 0]; [Kid 0; Kid 1; Kid 0]] /\
  in_document (alone small_doc) (0%nat, [Att 1; Kid 0]) /\ (forall i j, f_addr (alone small_doc) i = f_addr (alone small_doc) j -> i = j).
Proof. split; [cbn; lia|]. split; [reflexivity|]. split; [split; [reflexivity|split; [cbn; lia|cbn; tauto]]|cbn; lia]. Qed.

(** With 1000 attributes the last attribute and the first child are taken to be the same place. *)
Definition wide (n : nat) : xtree := Xt (info Xelement "r") (repeat (Xt (info Xattribute "a") [] []) n) [Xt (info Xcomment "c") [] []].
Definition big : nat := Z.to_nat 1000.
Theorem C36_many_attributes_refuted : exists x y, In x (order (wide big) []) /\ In y (order (wide big) []) /\ x <> y /\
  compare_nodes (alone (wide big)) (0%nat, x) (0%nat, y) = 0.
Proof.
  exists [Att (pred big)], [Kid 0]. split; [right|split; [right|split; [discriminate|vm_compute; reflexivity]]].
  - apply in_or_app. left. apply in_attributes. exists (pred big). unfold wide. rewrite repeat_length. unfold big. split; [lia|reflexivity].
  - apply in_or_app. right. left. reflexivity.
Qed.
Print Assumptions C36_many_attributes_refuted.
(** With more, an attribute comes after the first child. *)
Theorem C36_attribute_after_child_refuted : exists t a, In [Att a] (order t []) /\ In [Kid 0] (order t []) /\ before (order t []) [Att a] [Kid 0] /\
  compare_nodes (alone t) (0%nat, [Att a]) (0%nat, [Kid 0]) > 0.
Proof.
  assert (A : In [Att big] (attributes_of [] 0 (repeat (Xt (info Xattribute "a") [] []) (S big)))) by (apply in_attributes; exists big; rewrite repeat_length; split; [lia|reflexivity]).
  exists (wide (S big)), big. split; [right; apply in_or_app; left; exact A|]. split; [right; apply in_or_app; right; left; reflexivity|]. split; [|vm_compute; reflexivity].
  destruct (in_split _ _ A) as (l1 & l2 & E). exists ([] :: l1), l2, []. unfold wide. rewrite order_eq, E. cbn [orders]. rewrite <- app_assoc. reflexivity.
Qed.
Print Assumptions C36_attribute_after_child_refuted.
(** Two trees of one document outside it: each comes after the other. *)
Definition two_fragments : forest := Forest (fun i => if Nat.eqb i 0 then small_doc else Xt (info Xfragment "") [] []) (fun _ => O) Z.of_nat.
Theorem C36_fragments_refuted : exists f x y, x <> y /\ compare_nodes f x y > 0 /\ compare_nodes f y x > 0.
Proof. exists two_fragments, (1%nat, []), (2%nat, []). split; [discriminate|vm_compute; split; reflexivity]. Qed.
Print Assumptions C36_fragments_refuted.
(** Two namespace nodes of one element are different and neither comes first. *)
Theorem C36_namespace_nodes_refuted : exists f x y, x <> y /\ compare_nodes f x y = 0 /\ compare_nodes f y x = 0.
Proof. exists (alone small_doc), (0%nat, [Ns 0 (lit "p") (lit "u"); Kid 0]), (0%nat, [Ns 1 (lit "q") (lit "v"); Kid 0]). split; [discriminate|vm_compute; split; reflexivity]. Qed.
Print Assumptions C36_namespace_nodes_refuted.
