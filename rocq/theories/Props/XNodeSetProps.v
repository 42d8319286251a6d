From Coq Require Import String Sorted.
From Verif.Model Require Import Base XNode XAxis XNodeSet.
From Verif.Spec Require Import XOrder XAxisSpec XNodeSetSpec.
From Verif.Proof Require Import XOrderProof XNodeSetProof.
From Verif.Props Require Import FilterProps XOrderProps XAxisProps.
From Coq Require Import List.
Import ListNotations.
Open Scope Z_scope.

(** After any sequence of operations a set has exactly the nodes put into it; it is only marked
    as sorted when it is in order, each node once; sort() puts it in its order (document order,
    or the reverse) and to_document_order() in document order, each node once.  Partial: nodes
    of documents, with the limits of C36. *)
Theorem C38_sets_partial : forall ss f b ops, sorts ss -> documents f -> Forall (fun o => Forall (node_of f) (added o)) ops ->
  let s := fold_left (fun s o => apply_op ss f o s) ops (new_set b) in
  (s_sorted s = true -> StronglySorted (if s_forward s then precedes f else fun x y => precedes f y x) (s_nodes s)) /\
  (forall x, In x (s_nodes s) <-> In x (flat_map added ops)) /\
  StronglySorted (if s_forward s then precedes f else fun x y => precedes f y x) (s_nodes (sort ss f s)) /\
  StronglySorted (precedes f) (s_nodes (to_document_order ss f s)) /\
  (forall x, In x (s_nodes (sort ss f s)) <-> In x (s_nodes s)) /\ (forall x, In x (s_nodes (to_document_order ss f s)) <-> In x (s_nodes s)).
Proof. exact set_lemma. Qed.
Print Assumptions C38_sets_partial.
Theorem C38_each_once_partial : forall f l, StronglySorted (precedes f) l -> NoDup l.
Proof. exact precedes_nodup. Qed.
Print Assumptions C38_each_once_partial.
(** A union has the nodes of both sides, in document order when neither side is empty. *)
Theorem C38_union_partial : forall ss f a b, sorts ss -> documents f -> made ss f a -> made ss f b ->
  (s_nodes a <> [] -> s_nodes b <> [] -> StronglySorted (precedes f) (s_nodes (union ss f a b))) /\
  (forall x, In x (s_nodes (union ss f a b)) <-> In x (s_nodes a) \/ In x (s_nodes b)).
Proof. exact union_made. Qed.
Print Assumptions C38_union_partial.
(** The node whose value a set has as a string is its first in document order. *)
Theorem C38_first_node_partial : forall ss f s, sorts ss -> documents f -> made ss f s -> s_nodes s <> [] ->
  exists x, snd (top ss f s) = Some x /\ In x (s_nodes s) /\ forall y, In y (s_nodes s) -> y = x \/ precedes f x y.
Proof. exact top_made. Qed.
Print Assumptions C38_first_node_partial.
(** The string value of an element, a document or a fragment is all its text, in document
    order. *)
Theorem C38_string_value_partial : forall t x u, shape_ok t -> t_kind t <> Xattribute -> no_nul t -> In x (order t []) -> subtree t x = Some u ->
  match t_kind u with Xdocument | Xfragment | Xelement => True | _ => False end -> string_value t x = Some (texts u).
Proof. exact string_value_lemma. Qed.
Print Assumptions C38_string_value_partial.

(** The hypotheses can be met: std::sort by insertion sort, and a set in reverse order. *)
Example C38_sorts : sorts insertion_sort.
Proof. exact insertion_sorts. Qed.
Definition some_ops : list set_op :=
  [Push (0%nat, [Kid 0; Kid 0]); Push (0%nat, [Kid 1; Kid 0]); Sort; Insert 0 [(0%nat, [Kid 0]); (0%nat, [Kid 1; Kid 0])]].
Example C38_some_ops : documents (alone small_doc) /\ Forall (fun o => Forall (node_of (alone small_doc)) (added o)) some_ops /\
  s_nodes (sort insertion_sort (alone small_doc) (fold_left (fun s o => apply_op insertion_sort (alone small_doc) o s) some_ops (new_set false))) =
    [(0%nat, [Kid 1; Kid 0]); (0%nat, [Kid 0; Kid 0]); (0%nat, [Kid 0])] /\
  snd (top insertion_sort (alone small_doc) (fold_left (fun s o => apply_op insertion_sort (alone small_doc) o s) some_ops (new_set false))) = Some (0%nat, [Kid 0]).
Proof.
  assert (N : forall p, In p (order small_doc []) -> node_of (alone small_doc) (0%nat, p)) by (intros p P; split; [reflexivity|split; [cbn; lia|exact P]]).
  split; [intros i j; cbn; lia|]. split; [repeat apply Forall_cons; cbn [added]; repeat apply Forall_cons; try apply Forall_nil; apply N; cbn; tauto|]. split; vm_compute; reflexivity.
Qed.
Example C38_split_text : no_nul split_doc /\ string_value split_doc [Kid 0] = Some (lit "tu") /\ string_value split_doc [Kid 0; Kid 0; Kid 0] = Some (lit "tu").
Proof. split; [cbn; intuition discriminate|split; vm_compute; reflexivity]. Qed.

(** A union with an empty side is not put in document order. *)
Theorem C38_union_with_empty_refuted : exists f a b, documents f /\ made insertion_sort f a /\ made insertion_sort f b /\
  ~ StronglySorted (precedes f) (s_nodes (union insertion_sort f a b)).
Proof.
  assert (D : documents (alone small_doc)) by (intros i j; cbn; lia).
  assert (N : forall p, In p (order small_doc []) -> node_of (alone small_doc) (0%nat, p)) by (intros p P; split; [reflexivity|split; [cbn; lia|exact P]]).
  assert (N1 : node_of (alone small_doc) (0%nat, [Kid 0])) by (apply N; cbn; tauto). assert (N2 : node_of (alone small_doc) (0%nat, [])) by (apply N; cbn; tauto).
  exists (alone small_doc), (push_node (0%nat, []) (push_node (0%nat, [Kid 0]) (new_set false))), (new_set true). split; [exact D|]. split; [|split; [exists true, []; split; [constructor|reflexivity]|]].
  - exists false, [Push (0%nat, [Kid 0]); Push (0%nat, [])]. split; [|reflexivity]. repeat apply Forall_cons; cbn [added]; repeat apply Forall_cons; try apply Forall_nil; assumption.
  - intros S. cbn [union push_node s_nodes new_set app] in S. inversion S as [|? ? S1 F]; subst. inversion F as [|? ? F1 F2]; subst. apply less_precedes in F1; auto. vm_compute in F1. discriminate.
Qed.
Print Assumptions C38_union_with_empty_refuted.
(** A union keeps one namespace node twice, since each axis walk makes new ones. *)
Theorem C38_union_of_namespaces_refuted : exists f x y, x <> y /\ subtree (f_tree f 0%nat) (snd x) = subtree (f_tree f 0%nat) (snd y) /\
  s_nodes (union insertion_sort f (push_node x (new_set true)) (push_node y (new_set true))) = [y; x].
Proof. exists (alone small_doc), (0%nat, [Ns 0 xml xml_uri; Kid 0]), (0%nat, [Ns 1 xml xml_uri; Kid 0]). split; [discriminate|]. split; [reflexivity|vm_compute; reflexivity]. Qed.
Print Assumptions C38_union_of_namespaces_refuted.
(** An entity reference is on the child axis, but asking for its string value is an error. *)
Theorem C38_entity_reference_refuted : exists t x, shape_ok t /\ In x (nodes t) /\ string_value t x = None.
Proof.
  exists (Xt (info Xdocument "") [] [Xt (info Xelement "r") [] [Xt (info Xentityref "e") [] []]]), [Kid 0; Kid 0].
  split; [cbn; repeat split; try discriminate; try (repeat constructor); congruence|]. split; [cbn; tauto|vm_compute; reflexivity].
Qed.
Print Assumptions C38_entity_reference_refuted.
