From Coq Require Import String Sorted.
From Verif.Model Require Import Base XNode XAxis XNodeSet XCompare XStep.
From Verif.Spec Require Import XOrder XAxisSpec XNodeSetSpec XCompareSpec XStepSpec.
From Verif.Proof Require Import XNodeSetProof XStepProof.
From Verif.Props Require Import FilterProps XOrderProps XAxisProps.
From Coq Require Import List.
Import ListNotations.
Open Scope Z_scope.

(** Whatever the predicates compute: each sees a node with its position among the nodes that
    the predicates before it kept, and their number; a number keeps the node with that
    position.  They fail only if one of these evaluations does. *)
Theorem C40_predicates : forall qs s m, Z.of_nat (length (s_nodes s)) < 2147483648 ->
  (filtered (map computes qs) (s_nodes s) m <-> exists r, apply_predicates qs s = Got r /\ s_nodes r = m).
Proof. exact predicates_iff. Qed.
Print Assumptions C40_predicates.
(** [k] keeps exactly the k-th node, and [last()] the last. *)
Theorem C40_number : forall k s, Z.abs k <= 2 ^ 53 -> Z.of_nat (length (s_nodes s)) < 2147483648 ->
  exists r, apply_predicates [fun _ _ _ => Got (VNum (of_Z k))] s = Got r /\
    s_nodes r = if 1 <=? k then match nth_error (s_nodes s) (Z.to_nat (k - 1)) with Some x => [x] | None => [] end else [].
Proof. exact number_lemma. Qed.
Print Assumptions C40_number.
Theorem C40_last : forall s, Z.of_nat (length (s_nodes s)) < 2147483648 ->
  exists r, apply_predicates [fun _ _ last => Got (VNum (of_Z last))] s = Got r /\
    s_nodes r = match rev (s_nodes s) with x :: _ => [x] | [] => [] end.
Proof. exact last_lemma. Qed.
Print Assumptions C40_last.
(** A location path with any predicates gives the nodes it should, in document order or in the
    reverse, each once.  Partial: in one document, with the limits of [step_allowed]. *)
Theorem C40_path_partial : forall ss f d (from : bool) steps x position last v, sorts ss -> documents f -> f_doc f d = d -> whole_document (f_tree f d) ->
  fst x = d -> In (snd x) (nodes (f_tree f d)) -> (from = false -> ~ is_attribute (snd x)) -> steps_allowed (f_tree f d) from (map fst steps) ->
  relative_path ss f (map code_step steps) x position last = Got v ->
  exists s, v = VSet s /\ is_sorted f s /\ gives f position last (map spec_step steps) [x] (s_nodes s).
Proof. exact any_path. Qed.
Print Assumptions C40_path_partial.

(** preceding-sibling::*[1] counts backwards: from the last item of this document it gives the
    one before it.  //i[2] gives the second i of each parent. *)
Definition el (n : string) (kids : list xtree) : xtree := Xt (info Xelement n) [] kids.
Definition items_doc : xtree := Xt (info Xdocument "") [] [el "r" [el "i" []; el "i" []; el "g" [el "i" []; el "i" []]; el "i" []]].
Definition item_number (k : Z) : expression := fun _ _ _ => Got (VNum (of_Z k)).
Definition before_steps : list (axis * test * list expression) := [(PrecedingSibling, Any, [item_number 1])].
Definition second_steps : list (axis * test * list expression) := [(DescendantOrSelf, OfNode, []); (Child, Named (lit "i"), [item_number 2])].
Example C40_items : whole_document items_doc /\ documents (alone items_doc) /\ steps_allowed items_doc true (map fst before_steps) /\ steps_allowed items_doc false (map fst second_steps) /\
  relative_path insertion_sort (alone items_doc) (map code_step before_steps) (0%nat, [Kid 3; Kid 0]) (-1) (-1) = Got (VSet (Set_ [(0%nat, [Kid 2; Kid 0])] false true)) /\
  relative_path insertion_sort (alone items_doc) (map code_step second_steps) (0%nat, []) (-1) (-1) =
    Got (VSet (Set_ [(0%nat, [Kid 1; Kid 0]); (0%nat, [Kid 1; Kid 2; Kid 0])] true true)).
Proof.
  split.
  - split; [reflexivity|]. split; [cbn; repeat split; try discriminate; try (repeat constructor); congruence|]. split; [cbn; repeat split; lia|]. split; [vm_compute; reflexivity|]. split.
    + intros p u I U. cbn in I. repeat (destruct I as [<-|I]; [vm_compute in U; injection U as <-; discriminate|]). contradiction.
    + intros i p u k I. cbn in I. repeat (destruct I as [I|I]; [discriminate|]). contradiction.
  - split; [intros i j; cbn; lia|]. split; [repeat split; try discriminate; contradiction|]. split; [repeat split; try discriminate; auto|]. split; vm_compute; reflexivity.
Qed.

(** The child axis of an attribute, against the specification, gives its DOM text: @a/text()
    is not empty. *)
Definition attribute_doc : xtree := Xt (info Xdocument "") [] [Xt (info Xelement "r") [Xt (info Xattribute "a") [] [Xt (info Xtext "v") [] []]] []].
Theorem C40_attribute_text_refuted : exists s,
  relative_path insertion_sort (alone attribute_doc) [TestStep Attribute (get_test Attribute (Named (lit "a"))) []; TestStep Child (get_test Child OfText) []] (0%nat, [Kid 0]) (-1) (-1) = Got (VSet s) /\
  s_nodes s <> [] /\ forall y, In y (nodes attribute_doc) -> ~ on_axis attribute_doc Child [Att 0; Kid 0] y.
Proof.
  eexists. split; [vm_compute; reflexivity|]. split; [discriminate|]. intros y I. cbn in I. repeat (destruct I as [<-|I]; [intros (_ & st & E); discriminate|]). contradiction.
Qed.
Print Assumptions C40_attribute_text_refuted.
