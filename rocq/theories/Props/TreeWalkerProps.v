(** C31: the TreeWalker visits the nodes of its view in document order. *)
From Coq Require Import List.
From Verif.Model Require Import Base Dom TreeWalker.
From Verif.Spec Require Import DomSpec DomTextSpec TreeWalkerSpec.
From Verif.Proof Require Import DomProof DomFinite DomProof2 DomProof3 TagListProof TagListProof2 TreeWalkerProof.
From Verif.Props Require Import DomProps.
Import ListNotations.
Local Open Scope Z_scope.

(** Calling nextNode again and again from the root gives the visible nodes in document
    order, once each, and then no node for ever, the current node staying at the last one.
    (Hypothesis: no skipped entity reference hides children, see below.) *)
Theorem C31_next_node_partial h w L :
  known h -> refs_open h w -> visible h w (inner h w (tw_root w)) L ->
  exists f0, forall f, (f0 <= f)%nat -> forall k,
    tw_run h f (set_cur w (tw_root w)) (repeat TwNextNode (length L + k)) =
      Some (set_cur w (last L (tw_root w)), map Some L ++ repeat None k).
Proof. exact (fun R O => tour_runs h w (good_tree h (proj1 (known_good h R))) O L). Qed.
Print Assumptions C31_next_node_partial.
(** From any node of the view on, nextNode goes to the one after it in that order. *)
Theorem C31_next_from_partial h w L L1 x L2 :
  known h -> refs_open h w -> visible h w (inner h w (tw_root w)) L -> tw_root w :: L = L1 ++ x :: L2 ->
  answers (fun f => tw_move h f (set_cur w x) TwNextNode) (hd_error L2).
Proof. exact (fun R O V => next_node_all h w (good_tree h (proj1 (known_good h R))) O L V L1 x L2). Qed.
Print Assumptions C31_next_from_partial.
(** A node whose kind is not asked for by whatToShow is skipped without asking the filter;
    for the others the filter decides, and they are accepted when there is none. *)
Theorem C31_what_to_show h w n :
  (Z.land (tw_show w) (show_constant (n_kind (h n))) = 0 -> says_of h w n = Skip) /\
  (Z.land (tw_show w) (show_constant (n_kind (h n))) <> 0 ->
   says_of h w n = match tw_filter w with Some f => f n | None => Accept end).
Proof. exact (shown_kinds h w n). Qed.
Print Assumptions C31_what_to_show.
(** There is one view, it is there for every tree, and it has no node twice. *)
Theorem C31_view_exists h w : known h -> exists L, visible h w (inner h w (tw_root w)) L /\ NoDup (tw_root w :: L).
Proof.
  exact (fun K => match visible_total h w (tw_root w) (few_finite h (proj1 (known_good h K)) (known_few h K) (tw_root w)) with
    ex_intro _ L V => ex_intro _ L (conj V (tour_once h w (good_tree h (proj1 (known_good h K))) L V)) end).
Qed.
Print Assumptions C31_view_exists.
Theorem C31_view_unique h w ks L1 L2 : visible h w ks L1 -> visible h w ks L2 -> L1 = L2.
Proof. exact (fun A B => visible_fun h w ks L1 A L2 B). Qed.
Print Assumptions C31_view_unique.
(** firstChild and lastChild, previousSibling and parentNode from a node of the view. *)
Theorem C31_first_child_partial h w n l :
  known h -> refs_open h w -> stands h w n -> shown h w (inner h w n) l ->
  answers (fun f => tw_move h f (set_cur w n) TwFirst) (hd_error l).
Proof.
  exact (fun R O S => let T := good_tree h (proj1 (known_good h R)) in
    first_answers h w T O n l (proj1 (stands_ok h w T n S)) (proj2 (stands_ok h w T n S))).
Qed.
Print Assumptions C31_first_child_partial.
Theorem C31_last_child_partial h w n l :
  known h -> refs_open h w -> stands h w n -> shown h w (inner h w n) l ->
  answers (fun f => tw_move h f (set_cur w n) TwLast) (last_opt l).
Proof.
  exact (fun R O S => let T := good_tree h (proj1 (known_good h R)) in
    last_answers h w T O n l (proj1 (stands_ok h w T n S)) (proj2 (stands_ok h w T n S))).
Qed.
Print Assumptions C31_last_child_partial.
Theorem C31_previous_sibling_partial h w p l1 n l2 :
  known h -> refs_open h w -> stands h w p -> shown h w (inner h w p) (l1 ++ n :: l2) ->
  answers (fun f => tw_move h f (set_cur w n) TwPrevSibling) (last_opt l1).
Proof.
  exact (fun R O S => let T := good_tree h (proj1 (known_good h R)) in
    prev_sibling_answers h w T O p l1 n l2 (proj1 (stands_ok h w T p S)) (proj2 (stands_ok h w T p S))).
Qed.
Print Assumptions C31_previous_sibling_partial.
Theorem C31_parent_partial h w n r :
  known h -> closest h w n r -> answers (fun f => tw_move h f (set_cur w n) TwParent) r.
Proof. exact (fun R => parent_answers h w (good_tree h (proj1 (known_good h R))) n r). Qed.
Print Assumptions C31_parent_partial.

(** For the examples: 0 is a document, 1 to 9 are elements, 10 is an entity reference. *)
Definition walk_stage : heap :=
  fresh_heap (fun i => match i with 0 => KDocument | 10 => KEntityRef | _ => KElement end%nat) (fun _ => 0%nat) (fun _ => plain []).
Definition grown (ops : list domop) : heap := match dom_run 50 walk_stage ops with Some h => h | None => walk_stage end.
Lemma grown_known : forall ops, match dom_run 50 walk_stage ops with Some _ => true | None => false end = true ->
  Forall (not_into_itself KDocument walk_stage) ops -> known (grown ops).
Proof.
  intros ops N F. unfold grown. destruct (dom_run 50 walk_stage ops) as [h|] eqn:E; [|discriminate].
  apply (run_known 50 ops _ _ _ h F E).
Qed.
Ltac grows := apply grown_known; [vm_compute; reflexivity|repeat constructor; intro; discriminate].
(** The view, computed. *)
Fixpoint look (deep : bool) (fuel : nat) (h : heap) (w : walker) (ks : list nat) : option (list nat) :=
  match ks with
  | [] => Some []
  | k :: r =>
      match fuel with
      | O => None
      | S f =>
          match look deep f h w r with
          | None => None
          | Some l =>
              match says_of h w k, look deep f h w (inner h w k) with
              | Reject, _ => Some l
              | Accept, Some m => Some (k :: (if deep then m else []) ++ l)
              | Skip, Some m => Some (m ++ l)
              | _, None => None
              end
          end
      end
  end.
Lemma look_visible : forall f h w ks l, look true f h w ks = Some l -> visible h w ks l.
Proof.
  induction f as [|f IH]; intros h w [|k r] l E; try discriminate; try (injection E as <-; constructor).
  cbn [look] in E. destruct (look true f h w r) as [l1|] eqn:E1; [|discriminate].
  destruct (says_of h w k) eqn:V; [|injection E as <-; apply visible_reject; auto|];
    (destruct (look true f h w (inner h w k)) as [m|] eqn:E2; [|discriminate]); injection E as <-; constructor; auto.
Qed.
Lemma look_shown : forall f h w ks l, look false f h w ks = Some l -> shown h w ks l.
Proof.
  induction f as [|f IH]; intros h w [|k r] l E; try discriminate; try (injection E as <-; constructor).
  cbn [look] in E. destruct (look false f h w r) as [l1|] eqn:E1; [|discriminate].
  destruct (says_of h w k) eqn:V; [|injection E as <-; apply shown_reject; auto|];
    (destruct (look false f h w (inner h w k)) as [m|] eqn:E2; [|discriminate]); injection E as <-; constructor; auto.
Qed.
Ltac viewed := apply (look_visible 30); vm_compute; reflexivity.
Ltac showed := apply (look_shown 30); vm_compute; reflexivity.
Ltac calc e v := let H := fresh in assert (H : e = v) by (vm_compute; reflexivity); rewrite H; clear H.
Ltac vmr := vm_compute; reflexivity.
(** <1> <2> <3/> <4/> </2> <5> <6/> </5> <7> <8/> </7> </1> *)
Definition forest : heap := grown [app 0 1; app 1 2; app 2 3; app 2 4; app 1 5; app 5 6; app 1 7; app 7 8]%nat.
Definition picky (n : nat) : verdict := match n with 2 => Skip | 5 => Reject | _ => Accept end%nat.
Definition tour_w : walker := Walker 1 1 1 (Some picky) true.
Example forest_known : known forest. Proof. grows. Qed.
Example tour_open : refs_open forest tour_w. Proof. intros n _. unfold inner. reflexivity. Qed.
(** 2 is skipped, 5 rejected with the 6 below it. *)
Example tour_view : visible forest tour_w (inner forest tour_w 1) [3; 4; 7; 8]%nat.
Proof.
  viewed.
Qed.
Example tour_children : stands forest tour_w 1 /\ shown forest tour_w (inner forest tour_w 1) ([3; 4] ++ 7 :: [])%nat /\
  closest forest tour_w 8 (Some 7)%nat /\ closest forest tour_w 3 None.
Proof.
  split; [left; reflexivity|]. split; [|split].
  - showed.
  - apply closest_here; [discriminate| |discriminate|vmr]. calc (kids forest 7) ([8]%nat). left. reflexivity.
  - apply closest_up with 2%nat; [discriminate| |discriminate|vm_compute; discriminate|].
    + calc (kids forest 2) ([3; 4]%nat). left. reflexivity.
    + apply closest_top. cbn [tw_root tour_w]. calc (kids forest 1) ([2; 5; 7]%nat). left. reflexivity.
Qed.

(** nextSibling goes to the sibling before. *)
Theorem C31_next_sibling_refuted : exists h w p l1 n l2, known h /\ refs_open h w /\ stands h w p /\
  shown h w (inner h w p) (l1 ++ n :: l2) /\ l2 = [7]%nat /\ answers (fun f => tw_move h f (set_cur w n) TwNextSibling) (Some 3%nat).
Proof.
  exists forest, tour_w, 1%nat, [3]%nat, 4%nat, [7]%nat. split; [apply forest_known|]. split; [apply tour_open|].
  destruct tour_children as (A & B & _). split; [exact A|]. split; [exact B|]. split; [vmr|].
  exists 3%nat. intros [|[|[|f]]] L; [lia|lia|lia|]. vm_compute. reflexivity.
Qed.
Print Assumptions C31_next_sibling_refuted.
(** It does so on every tree. *)
Theorem C31_next_sibling_backwards h w p l1 n l2 :
  known h -> refs_open h w -> stands h w p -> shown h w (inner h w p) (l1 ++ n :: l2) ->
  answers (fun f => tw_move h f (set_cur w n) TwNextSibling) (last_opt l1).
Proof. exact (C31_previous_sibling_partial h w p l1 n l2). Qed.
Print Assumptions C31_next_sibling_backwards.
(** previousNode does not undo nextNode: at the first child it gives no node, not the parent. *)
Theorem C31_previous_node_refuted : exists h w L1 x y L2, known h /\ refs_open h w /\
  visible h w (inner h w (tw_root w)) (L1 ++ x :: y :: L2) /\
  answers (fun f => tw_move h f (set_cur w y) TwPrevNode) None.
Proof.
  exists forest, tour_w, [3; 4]%nat, 7%nat, 8%nat, []. split; [apply forest_known|]. split; [apply tour_open|].
  split; [apply tour_view|]. exists 3%nat. intros [|[|[|f]]] L; [lia|lia|lia|]. vm_compute. reflexivity.
Qed.
Print Assumptions C31_previous_node_refuted.
(** And from a node whose sibling before has grandchildren it goes to the last child of the
    sibling and misses what is below. *)
Theorem C31_previous_node_deep_refuted : exists h w L1 x y L2 r, known h /\ refs_open h w /\
  visible h w (inner h w (tw_root w)) (L1 ++ x :: y :: L2) /\
  answers (fun f => tw_move h f (set_cur w y) TwPrevNode) (Some r) /\ r <> x.
Proof.
  exists (grown [app 0 1; app 1 2; app 2 3; app 3 4; app 1 5]%nat), (Walker 1 1 1 None true), [2; 3]%nat, 4%nat, 5%nat, [], 3%nat.
  set (h := grown _). set (w := Walker _ _ _ _ _). split; [grows|]. split; [intros n _; unfold inner; reflexivity|]. split; [|split; [|discriminate]].
  - viewed.
  - exists 3%nat. intros [|[|[|f]]] L; [lia|lia|lia|]. vm_compute. reflexivity.
Qed.
Print Assumptions C31_previous_node_deep_refuted.
(** parentNode from a child of the root gives no node, though the root is accepted. *)
Theorem C31_parent_root_refuted : exists h w n, known h /\ In n (kids h (tw_root w)) /\ says_of h w (tw_root w) = Accept /\
  answers (fun f => tw_move h f (set_cur w n) TwParent) None.
Proof.
  exists forest, tour_w, 7%nat. split; [apply forest_known|]. split; [vm_compute; auto|]. split; [vm_compute; reflexivity|].
  exists 3%nat. intros [|[|[|f]]] L; [lia|lia|lia|]. vm_compute. reflexivity.
Qed.
Print Assumptions C31_parent_root_refuted.
(** A skipped entity reference with children that are not to be shown ends the tour: the
    element after it is not visited. *)
Theorem C31_closed_reference_refuted : exists h w L, known h /\ visible h w (inner h w (tw_root w)) L /\ L = [2; 4]%nat /\
  forall f, (5 <= f)%nat -> tw_run h f w [TwNextNode; TwNextNode] = Some (set_cur w 2, [Some 2; None])%nat.
Proof.
  exists (grown [app 0 1; app 1 2; app 1 10; app 10 3; app 1 4]%nat), (Walker 1 1 1 None false), [2; 4]%nat.
  set (h := grown _). set (w := Walker _ _ _ _ _). split; [grows|]. split; [|split; [vmr|]].
  - viewed.
  - intros [|[|[|[|[|f]]]]] L; [lia|lia|lia|lia|lia|].
    assert (A : tw_move h (S (S (S (S (S f))))) w TwNextNode = Some (Some 2%nat)) by (vm_compute; reflexivity).
    assert (B : tw_move h (S (S (S (S (S f))))) (set_cur w 2) TwNextNode = Some None) by (vm_compute; reflexivity).
    cbn [tw_run]. unfold tw_do. rewrite A, B. reflexivity.
Qed.
Print Assumptions C31_closed_reference_refuted.
(** firstChild from a skipped node without visible children (set by setCurrentNode) leaves
    its subtree. *)
Theorem C31_first_child_skipped_refuted : exists h w n r, known h /\ refs_open h w /\ says_of h w n = Skip /\
  answers (fun f => tw_move h f (set_cur w n) TwFirst) (Some r) /\ ~ above h n r.
Proof.
  exists forest, (Walker 1 1 1 (Some (fun n => match n with 2 => Skip | 3 | 4 => Reject | _ => Accept end)) true)%nat, 2%nat, 5%nat.
  split; [apply forest_known|]. split; [intros n _; unfold inner; reflexivity|]. split; [vm_compute; reflexivity|]. split.
  - exists 8%nat. intros [|[|[|[|[|[|[|[|f]]]]]]]] L; try lia. vm_compute. reflexivity.
  - assert (G : forall x y, above forest x y -> x = 2%nat -> y = 3%nat \/ y = 4%nat).
    { assert (K2 : kids forest 2 = [3; 4]%nat) by vmr. assert (K3 : kids forest 3 = []) by vmr. assert (K4 : kids forest 4 = []) by vmr.
      intros x y A E. destruct A as [p c I|p c d I A]; subst p; rewrite K2 in I; cbn in I.
      - destruct I as [<-|[<-|[]]]; auto.
      - exfalso. destruct I as [<-|[<-|[]]]; inversion A as [? ? J|? ? ? J]; subst; rewrite ?K3, ?K4 in J; destruct J. }
    intro A. destruct (G _ _ A eq_refl); discriminate.
Qed.
Print Assumptions C31_first_child_skipped_refuted.
