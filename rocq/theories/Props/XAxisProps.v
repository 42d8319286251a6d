From Coq Require Import String Permutation.
From Verif.Model Require Import Base XNode XAxis.
From Verif.Spec Require Import XOrder XAxisSpec.
From Verif.Proof Require Import XOrderProof XAxisProof XAxisWalks XAxisSimple.
From Verif.Props Require Import FilterProps XOrderProps.
From Coq Require Import List.
Import ListNotations.
Open Scope Z_scope.

(** Each axis gives exactly its nodes, each once, in document order for a forward axis and in
    reverse document order for the others; the walk ends, and never uses a null pointer.
    Partial: not the namespace axis, not the children of an attribute, the following axis only
    in a document, the preceding axis only when no two text nodes are next to each other; see
    the refutations. *)
Theorem C37_axes_partial : forall t x a fuel first, shape_ok t -> t_kind t <> Xattribute -> In x (nodes t) ->
  a <> Namespace -> (a = Child -> ~ is_attribute x) -> (a = Following -> t_kind t = Xdocument) -> (a = Preceding -> normal t) ->
  (length (order t []) <= fuel)%nat ->
  exists l, enumerate fuel t first a x = Nodes l /\ axis_list t a x l.
Proof. exact (fun t x a fuel first SH R I N C F P => axis_lemma t x a fuel first SH R I (conj N (conj C (conj F P)))). Qed.
Print Assumptions C37_axes_partial.
(** A node, its ancestors, its descendants, what follows and what precedes it are together all
    nodes of the document but the attributes, each once. *)
Theorem C37_partition_partial : forall t x fuel first, shape_ok t -> t_kind t = Xdocument -> normal t -> In x (nodes t) -> ~ is_attribute x ->
  (length (order t []) <= fuel)%nat ->
  exists la ld lf lp all, enumerate fuel t first Ancestor x = Nodes la /\ enumerate fuel t first Descendant x = Nodes ld /\
    enumerate fuel t first Following x = Nodes lf /\ enumerate fuel t first Preceding x = Nodes lp /\
    picks (fun y => ~ is_attribute y) (nodes t) all /\ Permutation all (x :: la ++ ld ++ lf ++ lp).
Proof. exact partition_lemma. Qed.
Print Assumptions C37_partition_partial.
(** Document order has each node once, whatever the size of the tree. *)
Theorem C37_each_once : forall t, NoDup (order t []).
Proof. exact (fun t => order_nodup t []). Qed.
Print Assumptions C37_each_once.

Example C37_small_doc : shape_ok small_doc /\ normal small_doc /\ t_kind small_doc = Xdocument /\
  nodes small_doc = [[]; [Kid 0]; [Att 0; Kid 0]; [Att 1; Kid 0]; [Kid 0; Kid 0]; [Kid 1; Kid 0]; [Kid 0; Kid 1; Kid 0]] /\
  enumerate 7 small_doc 0 Following [Att 0; Kid 0] = Nodes [[Kid 0; Kid 0]; [Kid 1; Kid 0]; [Kid 0; Kid 1; Kid 0]] /\
  enumerate 7 small_doc 0 Preceding [Kid 0; Kid 1; Kid 0] = Nodes [[Kid 0; Kid 0]] /\
  enumerate 7 small_doc 0 AncestorOrSelf [Att 1; Kid 0] = Nodes [[Att 1; Kid 0]; [Kid 0]; []].
Proof.
  split; [cbn; repeat split; try discriminate; try (repeat constructor); congruence|].
  split; [intros p I; vm_compute in I; repeat (destruct I as [<-|I]; [reflexivity|]); contradiction|].
  repeat split.
Qed.
(** Two texts next to each other, as after splitText: they count as one on the child axis. *)
Definition split_doc : xtree :=
  Xt (info Xdocument "") [] [Xt (info Xelement "r") [] [Xt (info Xelement "e") [] [Xt (info Xtext "t") [] []; Xt (info Xtext "u") [] []]; Xt (info Xelement "f") [] []]].
Example C37_split_doc : shape_ok split_doc /\ enumerate 9 split_doc 0 Child [Kid 0; Kid 0] = Nodes [[Kid 0; Kid 0; Kid 0]] /\
  enumerate 9 split_doc 0 Descendant [] = Nodes [[Kid 0]; [Kid 0; Kid 0]; [Kid 0; Kid 0; Kid 0]; [Kid 1; Kid 0]].
Proof. split; [cbn; repeat split; try discriminate; try (repeat constructor); congruence|repeat split]. Qed.

(** The preceding axis lists a text that was split twice. *)
Theorem C37_preceding_split_text_refuted : enumerate 9 split_doc 0 Preceding [Kid 1; Kid 0] = Nodes [[Kid 1; Kid 0; Kid 0]; [Kid 0; Kid 0; Kid 0]; [Kid 0; Kid 0]] /\
  ~ axis_list split_doc Preceding [Kid 1; Kid 0] [[Kid 1; Kid 0; Kid 0]; [Kid 0; Kid 0; Kid 0]; [Kid 0; Kid 0]].
Proof.
  split; [vm_compute; reflexivity|]. unfold axis_list. intros P.
  assert (SUB : forall A (Q : A -> Prop) l m, picks Q l m -> forall y, In y m -> In y l) by (intros A Q l m H; induction H; intros z Z; cbn in *; intuition).
  specialize (SUB _ _ _ _ P [Kid 1; Kid 0; Kid 0] ltac:(cbn; tauto)). vm_compute in SUB. repeat (destruct SUB as [SUB|SUB]; [discriminate|]). contradiction.
Qed.
Print Assumptions C37_preceding_split_text_refuted.
(** In a document fragment, or in a tree that is not in a document, the following axis ends
    with a call through a null pointer. *)
Theorem C37_following_in_fragment_refuted : exists t x, shape_ok t /\ In x (nodes t) /\ enumerate 9 t 0 Following x = Crash.
Proof.
  exists (Xt (info Xfragment "") [] [Xt (info Xelement "e") [] []]), [Kid 0]. split; [cbn; repeat split; try discriminate; try (repeat constructor); congruence|]. split; [cbn; tauto|vm_compute; reflexivity].
Qed.
Print Assumptions C37_following_in_fragment_refuted.
(** An attribute has a child on the child axis: the DOM text node of its value. *)
Theorem C37_attribute_child_refuted : exists t, shape_ok t /\ In [Att 0; Kid 0] (nodes t) /\ enumerate 9 t 0 Child [Att 0; Kid 0] = Nodes [[Kid 0; Att 0; Kid 0]].
Proof.
  exists (Xt (info Xdocument "") [] [Xt (info Xelement "r") [Xt (info Xattribute "a") [] [Xt (info Xtext "v") [] []]] []]).
  split; [cbn; repeat split; try discriminate; try (repeat constructor); congruence|]. split; [cbn; tauto|vm_compute; reflexivity].
Qed.
Print Assumptions C37_attribute_child_refuted.
(** The namespace axis lists a declaration that is hidden by one below it, and it lists a node
    for a document, which has no namespace nodes. *)
Definition declare (p u : string) : xtree := Xt (Info Xattribute (xmlns ++ lit ":" ++ lit p) xmlns (lit p) xmlns_uri (lit u)) [] [].
Definition hidden_doc : xtree :=
  Xt (info Xdocument "") [] [Xt (info Xelement "r") [declare "p" "u"] [Xt (info Xelement "e") [declare "p" "v"] []]].
Theorem C37_namespace_refuted : shape_ok hidden_doc /\
  enumerate 9 hidden_doc 0 Namespace [Kid 0; Kid 0] =
    Nodes [[Ns 0 xml xml_uri; Kid 0; Kid 0]; [Ns 1 (lit "p") (lit "v"); Kid 0; Kid 0]; [Ns 2 (lit "p") (lit "u"); Kid 0; Kid 0]] /\
  enumerate 9 hidden_doc 0 Namespace [] = Nodes [[Ns 0 xml xml_uri]].
Proof. split; [cbn; repeat split; try discriminate; try (repeat constructor); congruence|split; vm_compute; reflexivity]. Qed.
Print Assumptions C37_namespace_refuted.
