(** C32: event flow and listeners. *)
From Coq Require Import String.
From Verif.Model Require Import Base Dom DomText Events.
From Verif.Spec Require Import DomSpec DomTextSpec EventsSpec.
From Verif.Proof Require Import DomProof DomProof2 DomProof3 TagListProof TagListProof2 EventsProof.
From Verif.Props Require Import FilterProps.
From Coq Require Import List.
From Verif.Props Require Import DomProps.
Import ListNotations.
Local Open Scope Z_scope.

(** Every node of every document has its line of ancestors. *)
Theorem C32_lineage h n : known h -> exists path, lineage h n path.
Proof.
  intro K. destruct (known_good h K) as [G _]. assert (HP : forall c, get_parent h c = n_parent (h c)) by (intro c; apply hidden_parent, G).
  induction (l_rooted h (proj1 G) n) as [n E|n p E _ (path & IH)].
  - exists []. constructor. rewrite HP. exact E.
  - exists (path ++ [p]). apply lineage_step; [rewrite HP; exact E|exact IH].
Qed.
Print Assumptions C32_lineage.
(** A cancelable event sent to any node makes exactly the calls of the DOM's event flow:
    down, at the target, up; each node with the listeners it has when the event comes
    there; none after a node at which a listener stopped it.  The result says whether it
    was stopped.  Hypotheses: listeners do not change the list they are called from,
    remove no listeners, and do not stop the event at the target (see the refutations). *)
Theorem C32_flow_partial script ev h s r target path :
  fed s r -> lineage h target path -> ev_cancelable ev = true -> calm script -> no_removal script -> passes_target script ->
  exists f0, forall f, (f0 <= f)%nat -> exists s' b, dispatch script ev f h s target = Fin (s', b) /\
    s_trace s' = deliver script (ev_type ev) r [] (stations path target (ev_bubbles ev)) /\ b = negb (s_stopped s').
Proof.
  intros F L C CA NR PA. destruct (fed_spec s r F) as (O & S & ST & TR).
  destruct (dispatch_spec script ev CA NR C PA h s target path O ST L) as (f0 & D). exists f0. intros f LE.
  destruct (D f LE) as (s' & b & E & T & B & _). exists s', b. rewrite TR in T. cbn in T.
  rewrite (deliver_same script _ _ _ _ [] S) in T. auto.
Qed.
Print Assumptions C32_flow_partial.

(** For the examples: the document 0 with 1 in it and 2 in 1. *)
Definition ev_heap : heap := after [app 0 1; app 1 2]%nat.
Definition click := lit "click".
Example ev_lineage : lineage ev_heap 2 [0; 1]%nat.
Proof.
  apply (lineage_step _ 2 1 [0])%nat; [vm_compute; reflexivity|]. apply (lineage_step _ 1 0 [])%nat; [vm_compute; reflexivity|].
  constructor. vm_compute. reflexivity.
Qed.
Definition adds (l : list (nat * nat * bool)) : estate :=
  fold_left (fun s x => let '(n, lis, c) := x in add_listener s n click lis c) l no_listeners.
(** 50 and 51 capture at the document and at 1; 60 and 61 listen at the target; 70 at 1 and
    71 at the document.  50 adds 99 at 1 for the way up; 70 stops the event. *)
Definition ev_table := adds [(0, 50, true); (1, 51, true); (2, 60, false); (2, 61, false); (1, 70, false); (0, 71, false)]%nat.
Definition ev_script (hist : list call) (c : call) : list action :=
  if Nat.eqb (c_node c) 0 && Nat.eqb (c_listener c) 50 then [AddListener 1 click 99 false]
  else if Nat.eqb (c_listener c) 70 then match c_phase c with BUBBLING => [StopPropagation] | _ => [] end
  else [].
Definition trace_of (d : disp (estate * bool)) : option (list call * bool) :=
  match d with Fin (s, b) => Some (s_trace s, b) | _ => None end.
Lemma fed_adds : forall l s r, fed s r -> exists r', fed (fold_left (fun s x => let '(n, lis, c) := x in add_listener s n click lis c) l s) r'.
Proof. induction l as [|[[n lis] c] l IH]; intros s r F; [exists r; exact F|]. cbn. apply (IH _ (list_add r n click lis c)). constructor. exact F. Qed.
Example flow_nonvacuous : (exists r, fed ev_table r) /\ calm ev_script /\ no_removal ev_script /\ passes_target ev_script /\
  trace_of (dispatch ev_script (Event click true true) 50 ev_heap ev_table 2) =
    Some ([Call 0 CAPTURING 50; Call 1 CAPTURING 51; Call 2 AT_TARGET 60; Call 2 AT_TARGET 61; Call 1 BUBBLING 70; Call 1 BUBBLING 99], false)%nat.
Proof.
  split; [apply (fed_adds _ _ _ fed_none)|].
  assert (CASES : forall hist c a, In a (ev_script hist c) ->
    (c_node c = 0%nat /\ a = AddListener 1 click 99 false) \/ (c_phase c = BUBBLING /\ a = StopPropagation)).
  { intros hist [n p l] a. unfold ev_script. cbn [c_node c_phase c_listener].
    destruct (Nat.eqb_spec n 0) as [->|]; cbn [andb]; [destruct (Nat.eqb l 50); [intros [<-|[]]; auto|]|];
      (destruct (Nat.eqb l 70); [destruct p; cbn; intuition auto|intros []]). }
  split; [|split; [|split]].
  - intros hist c a I. destruct (CASES hist c a I) as [[E ->]|[_ ->]]; cbn; [rewrite E; discriminate|exact Logic.I].
  - intros hist c a I. destruct (CASES hist c a I) as [[_ ->]|[_ ->]]; exact Logic.I.
  - intros hist c P. destruct (existsb is_stop (ev_script hist c)) eqn:E; [|reflexivity]. apply existsb_exists in E as (a & I & S).
    destruct (CASES hist c a I) as [[_ ->]|[Q ->]]; [discriminate|congruence].
  - vm_compute. reflexivity.
Qed.

(** A table with one listener in each place. *)
Definition plain_table := adds [(0, 50, true); (1, 51, true); (2, 60, false); (1, 70, false); (0, 71, false)]%nat.
Definition only (lis : nat) (l : list action) (hist : list call) (c : call) : list action := if Nat.eqb (c_listener c) lis then l else [].
(** Stopped at the target, the event still goes to the parent on the way up. *)
Theorem C32_stop_at_target_refuted : exists script ev h s r target path s' b, fed s r /\ lineage h target path /\ calm script /\ no_removal script /\
  ev_cancelable ev = true /\ dispatch script ev 50 h s target = Fin (s', b) /\
  In (Call target AT_TARGET 60) (s_trace s') /\ (forall hist, In StopPropagation (script hist (Call target AT_TARGET 60))) /\
  In (Call 1 BUBBLING 70) (s_trace s').
Proof.
  destruct (fed_adds [(0, 50, true); (1, 51, true); (2, 60, false); (1, 70, false); (0, 71, false)]%nat _ _ fed_none) as (r & F).
  assert (X : trace_of (dispatch (only 60 [StopPropagation]) (Event click true true) 50 ev_heap plain_table 2) =
    Some ([Call 0 CAPTURING 50; Call 1 CAPTURING 51; Call 2 AT_TARGET 60; Call 1 BUBBLING 70], false)%nat) by (vm_compute; reflexivity).
  destruct (dispatch _ _ _ _ _ _) as [[s' b]| |] eqn:E; try discriminate. injection X as X _.
  exists (only 60 [StopPropagation]), (Event click true true), ev_heap, plain_table, r, 2%nat, [0; 1]%nat, s', b.
  split; [exact F|]. split; [apply ev_lineage|].
  assert (C : forall hist c a, In a (only 60 [StopPropagation] hist c) -> a = StopPropagation).
  { intros hist c a. unfold only. destruct (Nat.eqb _ _); [intros [<-|[]]; reflexivity|intros []]. }
  split; [intros hist c a I; rewrite (C _ _ _ I); exact Logic.I|]. split; [intros hist c a I; rewrite (C _ _ _ I); exact Logic.I|].
  split; [reflexivity|]. split; [exact E|]. rewrite X. split; [cbn; auto|]. split; [intro hist; left; reflexivity|cbn; auto].
Qed.
Print Assumptions C32_stop_at_target_refuted.
(** An event that is not cancelable cannot be stopped. *)
Theorem C32_stop_not_cancelable_refuted : exists script ev h s target s' b,
  dispatch script ev 50 h s target = Fin (s', b) /\ b = true /\
  (forall hist, In StopPropagation (script hist (Call 0 CAPTURING 50))) /\
  s_trace s' = [Call 0 CAPTURING 50; Call 1 CAPTURING 51; Call 2 AT_TARGET 60; Call 1 BUBBLING 70; Call 0 BUBBLING 71]%nat.
Proof.
  assert (X : trace_of (dispatch (only 50 [StopPropagation]) (Event click true false) 50 ev_heap plain_table 2) =
    Some ([Call 0 CAPTURING 50; Call 1 CAPTURING 51; Call 2 AT_TARGET 60; Call 1 BUBBLING 70; Call 0 BUBBLING 71], true)%nat) by (vm_compute; reflexivity).
  destruct (dispatch _ _ _ _ _ _) as [[s' b]| |] eqn:E; try discriminate. injection X as X XB.
  exists (only 50 [StopPropagation]), (Event click true false), ev_heap, plain_table, 2%nat, s', b. repeat split; auto. intro hist. left. reflexivity.
Qed.
Print Assumptions C32_stop_not_cancelable_refuted.
(** dispatchEvent returns true although preventDefault was called. *)
Theorem C32_default_prevented_refuted : exists script ev h s target s',
  dispatch script ev 50 h s target = Fin (s', true) /\ ev_cancelable ev = true /\
  In (Call 2 AT_TARGET 60) (s_trace s') /\ (forall hist, script hist (Call 2 AT_TARGET 60) = [PreventDefault])%nat.
Proof.
  assert (X : trace_of (dispatch (only 60 [PreventDefault]) (Event click true true) 50 ev_heap plain_table 2) =
    Some ([Call 0 CAPTURING 50; Call 1 CAPTURING 51; Call 2 AT_TARGET 60; Call 1 BUBBLING 70; Call 0 BUBBLING 71], true)%nat) by (vm_compute; reflexivity).
  destruct (dispatch _ _ _ _ _ _) as [[s' b]| |] eqn:E; try discriminate. injection X as X ->.
  exists (only 60 [PreventDefault]), (Event click true true), ev_heap, plain_table, 2%nat, s'. repeat split; auto. rewrite X. cbn. auto.
Qed.
Print Assumptions C32_default_prevented_refuted.
(** A listener added, while the event is at its node, for another type is called with this
    event: the loop runs into the elements inserted behind its range. *)
Theorem C32_wrong_type_refuted : exists script ev h s target s' b,
  (forall lis cap, ~ In lis (listing_of s target (lit "drag") cap)) /\ ev_type ev = click /\
  (forall hist c a, In a (script hist c) -> a = AddListener target (lit "drag") 99 false) /\
  dispatch script ev 50 h s target = Fin (s', b) /\ In (Call target AT_TARGET 99) (s_trace s').
Proof.
  assert (X : trace_of (dispatch (only 60 [AddListener 2 (lit "drag") 99 false]) (Event click true true) 50 ev_heap plain_table 2) =
    Some ([Call 0 CAPTURING 50; Call 1 CAPTURING 51; Call 2 AT_TARGET 60; Call 2 AT_TARGET 99; Call 1 BUBBLING 70; Call 0 BUBBLING 71], true)%nat) by (vm_compute; reflexivity).
  destruct (dispatch _ _ _ _ _ _) as [[s' b]| |] eqn:E; try discriminate. injection X as X XB.
  exists (only 60 [AddListener 2 (lit "drag") 99 false]), (Event click true true), ev_heap, plain_table, 2%nat, s', b.
  split; [intros lis [|]; vm_compute; auto|]. split; [reflexivity|]. split; [|split; [exact E|rewrite X; cbn; auto]].
  intros hist c a. unfold only. destruct (Nat.eqb _ _); [intros [<-|[]]; reflexivity|intros []].
Qed.
Print Assumptions C32_wrong_type_refuted.
(** A listener added for the same type at the same node is called by the same visit. *)
Theorem C32_added_while_visiting_refuted : exists script ev h s target s' b,
  (forall hist c a, In a (script hist c) -> a = AddListener target click 99 false) /\
  (forall cap, ~ In 99%nat (listing_of s target click cap)) /\
  dispatch script ev 50 h s target = Fin (s', b) /\ In (Call target AT_TARGET 99) (s_trace s').
Proof.
  assert (X : trace_of (dispatch (only 60 [AddListener 2 click 99 false]) (Event click true true) 50 ev_heap plain_table 2) =
    Some ([Call 0 CAPTURING 50; Call 1 CAPTURING 51; Call 2 AT_TARGET 60; Call 2 AT_TARGET 99; Call 1 BUBBLING 70; Call 0 BUBBLING 71], true)%nat) by (vm_compute; reflexivity).
  destruct (dispatch _ _ _ _ _ _) as [[s' b]| |] eqn:E; try discriminate. injection X as X XB.
  exists (only 60 [AddListener 2 click 99 false]), (Event click true true), ev_heap, plain_table, 2%nat, s', b.
  split; [|split; [intros [|]; vm_compute; intuition discriminate|split; [exact E|rewrite X; cbn; auto]]].
  intros hist c a. unfold only. destruct (Nat.eqb _ _); [intros [<-|[]]; reflexivity|intros []].
Qed.
Print Assumptions C32_added_while_visiting_refuted.
(** A listener that removes itself when called leaves the loop with an invalid iterator. *)
Theorem C32_removes_itself_refuted : exists script ev h s target,
  (forall hist c a, In a (script hist c) -> a = RemoveListener (c_node c) (ev_type ev) (c_listener c) false) /\
  dispatch script ev 50 h s target = Undef.
Proof.
  exists (fun hist c => [RemoveListener (c_node c) click (c_listener c) false]), (Event click true true), ev_heap, plain_table, 2%nat.
  split; [intros hist c a [<-|[]]; reflexivity|]. vm_compute. reflexivity.
Qed.
Print Assumptions C32_removes_itself_refuted.
(** removeEventListener leaves a listener that is not the first of its list. *)
Theorem C32_remove_second_refuted : exists s r n lis cap, fed s r /\ In lis (r n click cap) /\
  In lis (listing_of (remove_listener s n click lis cap) n click cap).
Proof.
  exists (adds [(2, 60, false); (2, 61, false)]%nat), (list_add (list_add (fun _ _ _ => []) 2 click 60 false) 2 click 61 false), 2%nat, 61%nat, false.
  split; [apply fed_add, fed_add, fed_none|]. split; vm_compute; auto.
Qed.
Print Assumptions C32_remove_second_refuted.
(** This goes for every list: removal takes the first listener or nothing. *)
Theorem C32_remove_partial s r n t lis cap : fed s r ->
  forall m u c, listing_of (remove_listener s n t lis cap) m u c =
    if Nat.eqb m n && str_eqb u t && Bool.eqb c cap
    then match r m u c with x :: l => if Nat.eqb x lis then l else x :: l | [] => [] end
    else r m u c.
Proof.
  intros F m u c. destruct (fed_spec s r F) as (O & S & _ & _). destruct (hd_error (listing_of s n t cap)) as [x|] eqn:H.
  - destruct (Nat.eq_dec x lis) as [->|NE].
    + rewrite (remove_listing s n t lis cap O (or_introl H) m u c). unfold list_remove. rewrite (S m u c).
      destruct (Nat.eqb_spec m n) as [->|]; [|reflexivity]. destruct (str_eqb u t) eqn:Q; [|reflexivity]. destruct (Bool.eqb_spec c cap) as [->|]; [|reflexivity].
      cbn [andb]. apply ContainersProof.str_eqb_true in Q. subst u. rewrite (S n t cap) in H. destruct (r n t cap) as [|y l] eqn:R; [discriminate|]. injection H as ->.
      rewrite Nat.eqb_refl. cbn [filter]. rewrite Nat.eqb_refl. cbn [negb]. apply filter_keep. intros z Z. apply Bool.negb_true_iff, Nat.eqb_neq. intros <-.
      assert (ND := ol_once _ _ (O n cap) t). fold (listing_of s n t cap) in ND. rewrite (S n t cap), R in ND. inversion ND. contradiction.
    + assert (U : remove_listener s n t lis cap = s).
      { unfold remove_listener. rewrite <- listing_range in H by exact O. destruct (equal_range t (s_regs s n cap)) as [|e l]; [reflexivity|].
        cbn in H. injection H as H. destruct (Nat.eqb_spec (e_listener e) lis); [congruence|reflexivity]. }
      rewrite U, (S m u c). destruct (Nat.eqb_spec m n) as [->|]; [|reflexivity]. destruct (str_eqb u t) eqn:Q; [|reflexivity]. destruct (Bool.eqb_spec c cap) as [->|]; [|reflexivity].
      cbn [andb]. apply ContainersProof.str_eqb_true in Q. subst u. rewrite (S n t cap) in H. destruct (r n t cap) as [|y l]; [reflexivity|]. injection H as ->.
      apply Nat.eqb_neq in NE. rewrite NE. reflexivity.
  - assert (U : remove_listener s n t lis cap = s).
    { unfold remove_listener. rewrite <- listing_range in H by exact O. destruct (equal_range t (s_regs s n cap)) as [|e l]; [reflexivity|discriminate]. }
    rewrite U, (S m u c). destruct (Nat.eqb_spec m n) as [->|]; [|reflexivity]. destruct (str_eqb u t) eqn:Q; [|reflexivity]. destruct (Bool.eqb_spec c cap) as [->|]; [|reflexivity].
    cbn [andb]. apply ContainersProof.str_eqb_true in Q. subst u. rewrite (S n t cap) in H. destruct (r n t cap); [reflexivity|discriminate].
Qed.
Print Assumptions C32_remove_partial.
(** A stopped event sent again stops after the first ancestor, though no one stops it. *)
Theorem C32_sent_again_refuted : exists script ev h s target s1 b1 s2 b2,
  dispatch script ev 50 h s target = Fin (s1, b1) /\ dispatch (fun _ _ => []) ev 50 h s1 target = Fin (s2, b2) /\
  skipn (length (s_trace s1)) (s_trace s2) = [Call 0 CAPTURING 50]%nat /\ b2 = false.
Proof.
  assert (Y : match dispatch (only 70 [StopPropagation]) (Event click true true) 50 ev_heap plain_table 2 with
    | Fin (s1, _) => match dispatch (fun _ _ => []) (Event click true true) 50 ev_heap s1 2 with
      | Fin (s2, b2) => Some (skipn (length (s_trace s1)) (s_trace s2), b2) | _ => None end | _ => None end = Some ([Call 0 CAPTURING 50], false)%nat)
    by (vm_compute; reflexivity).
  destruct (dispatch (only 70 _) _ _ _ _ _) as [[s1 b1]| |] eqn:E1; try discriminate.
  destruct (dispatch (fun _ _ => []) _ _ _ _ _) as [[s2 b2]| |] eqn:E2; try discriminate. injection Y as Y YB.
  exists (only 70 [StopPropagation]), (Event click true true), ev_heap, plain_table, 2%nat, s1, b1, s2, b2. auto.
Qed.
Print Assumptions C32_sent_again_refuted.
