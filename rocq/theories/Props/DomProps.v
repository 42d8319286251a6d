(** C24 tree structure, C25 exceptions leave the tree, C26 document element and doctype,
    C51 kinds of children, C52 who frees which node. *)
From Verif.Model Require Import Base Dom.
From Verif.Spec Require Import DomSpec.
From Verif.Proof Require Import DomProof DomFinite DomProof2 DomProof3.

(** For the examples: node 0 is a document; 1 to 4 are elements; 5 is a text; 6 and 10 are
    comments; 7 is a fragment; 8 and 9 are document types; 11 is another document, and 12
    an element of it. *)
Definition cast (i : nat) : nkind :=
  match i with
  | 0 | 11 => KDocument | 1 | 2 | 3 | 4 | 12 => KElement | 5 => KText | 6 | 10 => KComment
  | 7 => KFragment | 8 | 9 => KDocType | _ => KText
  end%nat.
Definition stage : heap := fresh_heap cast (fun i => if Nat.eqb i 12 then 11%nat else O) (fun _ => plain []).
Definition after (ops : list domop) : heap :=
  match dom_run 50 stage ops with Some h => h | None => stage end.
Definition app (p c : nat) : domop := OpInsert p c None.
(** <1><2/>text<3><4/></3></1> and a comment before it; then 3 moves to the front. *)
Definition story : list domop :=
  [app 0 8; app 0 6; app 0 1; app 1 2; app 1 5; app 1 3; app 3 4; OpInsert 1 3 (Some 2);
   app 4 1; app 3 12; OpRemove 1 6; OpReplace 1 10 5]%nat.
Example story_calls :
  kids (after story) 0 = [8; 6; 1]%nat /\ kids (after story) 1 = [3; 2; 10]%nat /\ kids (after story) 3 = [4]%nat.
Proof. vm_compute. auto. Qed.

Lemma run_after : forall ops, match dom_run 50 stage ops with Some _ => true | None => false end = true ->
  dom_run 50 stage ops = Some (after ops).
Proof. intros ops E. unfold after. destruct (dom_run 50 stage ops); [reflexivity|discriminate]. Qed.
Lemma reach : forall ops, match dom_run 50 stage ops with Some _ => true | None => false end = true ->
  Forall (not_into_itself KDocument stage) ops -> reachable (after ops).
Proof.
  intros ops N F. unfold after. destruct (dom_run 50 stage ops) as [h|] eqn:E; [|discriminate].
  unfold reachable. do 5 eexists. split; [|exact E]. exact F.
Qed.
Ltac reached := apply reach; [vm_compute; reflexivity|repeat constructor; intro; discriminate].

Lemma throws : forall {A} (r : res A) e (P : heap -> Prop),
  match r with Ex e' h' => e' = e /\ P h' | _ => False end -> exists h', r = Ex e h' /\ P h'.
Proof. intros A [h a|e' h'|] e P M; [contradiction|destruct M as [-> M]; eauto|contradiction]. Qed.
Definition thrown {A} (r : res A) : option exn := match r with Ex e _ => Some e | _ => None end.

(** * C24 *)

(** Every history that puts no document or fragment into itself ends, whether or not
    calls throw, and the tree is sound. *)
Theorem C24_links_partial kinds docs names ops :
  let h0 := fresh_heap kinds docs names in
  Forall (not_into_itself KDocument h0) ops -> Forall (not_into_itself KFragment h0) ops ->
  exists f0 h', (forall f, (f0 <= f)%nat -> dom_run f h0 ops = Some h') /\ tree_ok h'.
Proof.
  exact (fun D F => match run_settles ops _ (fresh_good kinds docs names) (few_fresh kinds docs names) D F with
    ex_intro _ f0 (ex_intro _ h' E) =>
      ex_intro _ f0 (ex_intro _ h' (conj E
        (good_tree h' (proj1 (run_good f0 ops _ h' (fresh_good kinds docs names) D (E f0 (le_n f0)))))))
    end).
Qed.
Print Assumptions C24_links_partial.
Example C24_links_nonvacuous :
  Forall (not_into_itself KDocument stage) story /\ Forall (not_into_itself KFragment stage) story.
Proof. split; repeat constructor; intro; discriminate. Qed.

(** A document can be appended to itself. *)
Theorem C24_document_in_itself_refuted : exists kinds docs names ops h',
  dom_run 10 (fresh_heap kinds docs names) ops = Some h' /\ above h' 0 0.
Proof.
  exists (fun _ => KDocument), (fun i => i), (fun _ => plain []), [app 0 0].
  destruct (dom_run 10 _ _) as [h'|] eqn:E; [|vm_compute in E; discriminate]. exists h'. split; [reflexivity|].
  apply above_child. assert (K : Some (kids h' 0) = Some [O]) by (change (option_map (fun h => kids h 0) (Some h') = Some [O]);
    rewrite <- E; vm_compute; reflexivity). injection K as K. rewrite K. left. reflexivity.
Qed.
Print Assumptions C24_document_in_itself_refuted.
(** Appending a fragment that has a child to itself never returns. *)
Theorem C24_fragment_in_itself_refuted : exists h g,
  reachable h /\ n_kind (h g) = KFragment /\ forall fuel, vinsert fuel h g g None = Div.
Proof.
  exists (after [app 7 1]), 7%nat. assert (R : reachable (after [app 7 1])) by reached.
  split; [exact R|]. split; [reflexivity|]. intro f. apply self_fragment_hangs.
  split; [apply reachable_good, R|]. split; [vm_compute; reflexivity|]. split; [vm_compute; reflexivity|].
  split; [vm_compute; discriminate|]. intros c C. vm_compute in C. destruct C as [<-|[]]. vm_compute. auto.
Qed.
Print Assumptions C24_fragment_in_itself_refuted.

(** What a successful call does: the child lists afterwards. *)
Theorem C24_insert_effect h f this new ref h' r :
  reachable h -> (n_kind (h new) = KDocument -> this <> new) -> n_kind (h new) <> KFragment ->
  vinsert f h this new ref = Ok h' r ->
  r = new /\ ref_ok h this new ref /\ kids h' this = put ref new (without new (kids h this)) /\
  forall i, i <> this -> kids h' i = without new (kids h i).
Proof.
  exact (fun R D F E => match vinsert_one f h this new ref h' r (reachable_good h R) D F E with
    conj A (conj B (conj C _)) => conj A (conj C (conj (pk_kids _ _ _ _ _ B) (pk_others _ _ _ _ _ B))) end).
Qed.
Print Assumptions C24_insert_effect.
Theorem C24_replace_effect h f this new old h' r :
  reachable h -> (n_kind (h new) = KDocument -> this <> new) -> n_kind (h new) <> KFragment ->
  vreplace f h this new old = Ok h' r ->
  r = old /\ ref_ok h this new (Some old) /\ kids h' this = put_for old new (without new (kids h this)) /\
  forall i, i <> this -> kids h' i = without new (kids h i).
Proof.
  exact (fun R D F E => match vreplace_one f h this new old h' r (reachable_good h R) D F E with
    conj A (conj B (conj C _)) => conj A (conj C (conj (pk_kids _ _ _ _ _ B) (pk_others _ _ _ _ _ B))) end).
Qed.
Print Assumptions C24_replace_effect.
Theorem C24_remove_effect h this old h' r :
  reachable h -> vremove h this (Some old) = Ok h' r ->
  r = Some old /\ In old (kids h this) /\ kids h' this = without old (kids h this) /\
  get_parent h' old = None /\ forall i, i <> this -> kids h' i = kids h i.
Proof. exact (fun R => remove_effect h this old h' r (reachable_good h R)). Qed.
Print Assumptions C24_remove_effect.
(** The children of a fragment move together, in order. *)
Theorem C24_fragment_effect h f this new ref h' r :
  reachable h -> n_kind (h new) = KFragment -> this <> new ->
  match ref with Some x => In x (kids h this) | None => True end ->
  vinsert f h this new ref = Ok h' r ->
  r = new /\ kids h' new = [] /\ put_list ref (kids h new) (kids h this) (kids h' this) /\
  forall i, i <> this -> i <> new -> kids h' i = kids h i.
Proof. exact (fun R => fragment_effect f h this new ref h' r (reachable_good h R)). Qed.
Print Assumptions C24_fragment_effect.
Definition is_ok {A} (r : res A) : bool := match r with Ok _ _ => true | _ => false end.
Example C24_effects_nonvacuous :
  reachable (after story) /\
  is_ok (vinsert 50 (after story) 3 2 (Some 4%nat)) = true /\
  is_ok (vreplace 50 (after story) 1 4 3) = true /\
  is_ok (vremove (after story) 3 (Some 4%nat)) = true /\
  reachable (after [app 7 1; app 7 5; app 2 3]) /\
  is_ok (vinsert 50 (after [app 7 1; app 7 5; app 2 3]) 2 7 (Some 3%nat)) = true.
Proof.
  split; [reached|]. split; [vm_compute; reflexivity|]. split; [vm_compute; reflexivity|].
  split; [vm_compute; reflexivity|]. split; [reached|]. vm_compute; reflexivity.
Qed.

(** * C25 *)

(** removeChild is all or nothing, on any node structure. *)
Theorem C25_remove_atomic h this old e h' : vremove h this old = Ex e h' -> h' = h.
Proof. exact (vremove_ex h this old e h'). Qed.
Print Assumptions C25_remove_atomic.
(** insertBefore of a single node before a child of the node, or at the end. *)
Theorem C25_insert_atomic_partial h f this new ref e h' :
  reachable h -> (n_kind (h new) = KDocument -> this <> new) -> n_kind (h new) <> KFragment ->
  ref_ok h this new ref ->
  vinsert f h this new ref = Ex e h' -> h' = h.
Proof. exact (fun R => vinsert_ex f h this new ref e h' (reachable_good h R)). Qed.
Print Assumptions C25_insert_atomic_partial.
Theorem C25_append_atomic_partial h f this new e h' :
  reachable h -> (n_kind (h new) = KDocument -> this <> new) -> n_kind (h new) <> KFragment ->
  vappend f h this new = Ex e h' -> h' = h.
Proof. exact (fun R D F => vinsert_ex f h this new None e h' (reachable_good h R) D F I). Qed.
Print Assumptions C25_append_atomic_partial.
Theorem C25_replace_atomic_partial h f this new old e h' :
  reachable h -> (n_kind (h new) = KDocument -> this <> new) -> n_kind (h new) <> KFragment ->
  ref_ok h this new (Some old) ->
  vreplace f h this new old = Ex e h' -> h' = h.
Proof. exact (fun R => vreplace_ex f h this new old e h' (reachable_good h R)). Qed.
Print Assumptions C25_replace_atomic_partial.
Example C25_nonvacuous :
  reachable (after story) /\
  thrown (vinsert 50 (after story) 4 3 None) = Some HIERARCHY_REQUEST /\
  thrown (vinsert 50 (after story) 3 12 (Some 4%nat)) = Some WRONG_DOCUMENT /\ ref_ok (after story) 3 12 (Some 4%nat) /\
  thrown (vreplace 50 (after story) 3 1 4) = Some HIERARCHY_REQUEST /\ ref_ok (after story) 3 1 (Some 4%nat) /\
  thrown (vremove (after story) 3 (Some 5%nat)) = Some NOT_FOUND.
Proof. split; [reached|]. vm_compute. repeat split; auto; discriminate. Qed.
(** insertBefore with a reference node that is no child: the new node has left its parent
    when the exception comes.  So too with the new node itself as reference. *)
Theorem C25_insert_refuted : exists h this new ref, reachable h /\ exists h',
  vinsert 50 h this new (Some ref) = Ex NOT_FOUND h' /\
  kids h 3 = [4%nat] /\ kids h' 3 = [] /\ get_parent h' 4 = None.
Proof.
  exists (after story), 1%nat, 4%nat, 6%nat. split; [reached|]. apply throws. vm_compute. auto.
Qed.
Print Assumptions C25_insert_refuted.
Theorem C25_insert_before_itself_refuted : exists h this new, reachable h /\ exists h',
  vinsert 50 h this new (Some new) = Ex NOT_FOUND h' /\
  kids h this = [3; 2; 10]%nat /\ kids h' this = [3; 10]%nat.
Proof.
  exists (after story), 1%nat, 2%nat. split; [reached|]. apply throws. vm_compute. auto.
Qed.
Print Assumptions C25_insert_before_itself_refuted.
Theorem C25_replace_by_itself_refuted : exists h this new, reachable h /\ exists h',
  vreplace 50 h this new new = Ex NOT_FOUND h' /\
  kids h this = [3; 2; 10]%nat /\ kids h' this = [3; 10]%nat.
Proof.
  exists (after story), 1%nat, 2%nat. split; [reached|]. apply throws. vm_compute. auto.
Qed.
Print Assumptions C25_replace_by_itself_refuted.
(** A fragment with a node that the document refuses: the nodes before it have moved, and
    the refused node is in neither list. *)
Theorem C25_fragment_refuted : exists h, reachable h /\ exists h',
  vinsert 50 h 0 7 None = Ex HIERARCHY_REQUEST h' /\
  kids h 0 = [] /\ kids h 7 = [6; 5; 1]%nat /\ kids h' 0 = [6]%nat /\ kids h' 7 = [1]%nat.
Proof.
  exists (after [app 7 6; app 7 5; app 7 1]). split; [reached|]. apply throws. vm_compute. auto 6.
Qed.
Print Assumptions C25_fragment_refuted.

(** * C26 *)

(** In every history in which replaceChild on a document leaves doctypes alone and
    replaces the root element by an element only. *)
Theorem C26_document_partial kinds docs names ops f h' :
  let h0 := fresh_heap kinds docs names in
  Forall (not_into_itself KDocument h0) ops -> Forall (op_safe h0) ops ->
  dom_run f h0 ops = Some h' -> docs_ok h'.
Proof.
  exact (fun D S => run_docs f ops _ h' (fresh_good kinds docs names) (fresh_docs kinds docs names) D S).
Qed.
Print Assumptions C26_document_partial.
Example C26_nonvacuous : Forall (not_into_itself KDocument stage) story /\ Forall (op_safe stage) story /\
  dom_run 50 stage story = Some (after story) /\
  n_docel (after story O) = Some 1%nat /\ n_doctype (after story O) = Some 8%nat /\
  element_kids (after story) 0 = [1%nat] /\ doctype_kids (after story) 0 = [8%nat].
Proof.
  split; [repeat constructor; intro; discriminate|].
  split; [repeat constructor; discriminate|]. split; [|vm_compute; auto].
  apply run_after. vm_compute. reflexivity.
Qed.
(** Replacing the root element by a comment: getDocumentElement still returns it. *)
Theorem C26_stale_root_refuted : exists h,
  reachable h /\ kids h 0 = [6%nat] /\ element_kids h 0 = [] /\ n_docel (h O) = Some 1%nat.
Proof. exists (after [app 0 1; OpReplace 0 6 1]). split; [reached|]. vm_compute. auto. Qed.
Print Assumptions C26_stale_root_refuted.
(** Replacing the doctype by a comment: getDoctype still returns it. *)
Theorem C26_stale_doctype_refuted : exists h,
  reachable h /\ kids h 0 = [6%nat] /\ n_doctype (h O) = Some 8%nat.
Proof. exists (after [app 0 8; OpReplace 0 6 8]). split; [reached|]. vm_compute. auto. Qed.
Print Assumptions C26_stale_doctype_refuted.
(** Replacing a comment by a doctype gives two doctypes. *)
Theorem C26_two_doctypes_refuted : exists h,
  reachable h /\ doctype_kids h 0 = [8; 9]%nat.
Proof. exists (after [app 0 8; app 0 6; OpReplace 0 9 6]). split; [reached|]. vm_compute. auto. Qed.
Print Assumptions C26_two_doctypes_refuted.
(** ... or one that getDoctype does not know. *)
Theorem C26_unknown_doctype_refuted : exists h,
  reachable h /\ doctype_kids h 0 = [9%nat] /\ n_doctype (h O) = None.
Proof. exists (after [app 0 6; OpReplace 0 9 6]). split; [reached|]. vm_compute. auto. Qed.
Print Assumptions C26_unknown_doctype_refuted.

(** * C51 *)

Theorem C51_child_kinds_partial kinds docs names ops f h' :
  let h0 := fresh_heap kinds docs names in
  Forall (not_into_itself KDocument h0) ops -> Forall (doctype_to_document h0) ops ->
  dom_run f h0 ops = Some h' -> kinds_ok h'.
Proof.
  exact (fun D S => run_kinds f ops _ h' (fresh_good kinds docs names) (fresh_kinds kinds docs names) D S).
Qed.
Print Assumptions C51_child_kinds_partial.
Example C51_nonvacuous : Forall (doctype_to_document stage) story.
Proof. repeat constructor; intro; first [discriminate|reflexivity]. Qed.
(** An element accepts a document type that has no owner yet. *)
Theorem C51_doctype_in_element_refuted : exists h,
  reachable h /\ In 8%nat (kids h 1) /\ n_kind (h 1%nat) = KElement /\ n_kind (h 8%nat) = KDocType.
Proof. exists (after [app 1 8]). split; [reached|]. vm_compute. auto. Qed.
Print Assumptions C51_doctype_in_element_refuted.

(** * C52 *)

(** A document deletes the nodes in its orphan set, and a node its children: each node
    created by a document is in the set or in one child list, and never in both. *)
Theorem C52_one_owner_partial h c :
  reachable h -> n_kind (h c) <> KDocument -> n_kind (h c) <> KDocType ->
  (n_orphan (h c) = true <-> forall p, ~ In c (kids h p)).
Proof. exact (fun R => orphans_are_roots h c (reachable_good h R)). Qed.
Print Assumptions C52_one_owner_partial.
Example C52_nonvacuous :
  reachable (after story) /\ n_orphan (after story 5%nat) = true /\ n_orphan (after story 4%nat) = false.
Proof. split; [reached|]. vm_compute. auto. Qed.
(** A document type whose insertion failed has got an owner document, but is neither in
    its orphan set nor a child: nothing deletes it. *)
Theorem C52_doctype_refuted : exists h,
  reachable h /\ n_owner (h 8%nat) = Some O /\ n_orphan (h 8%nat) = false /\ get_parent h 8 = None.
Proof. exists (after [OpInsert 0 8 (Some 1%nat)]). split; [reached|]. vm_compute. auto. Qed.
Print Assumptions C52_doctype_refuted.
