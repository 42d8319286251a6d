(** C77: getElementById. *)
From Coq Require Import String.
From Coq Require Import Permutation.
From Verif.Model Require Import Base Chars AttrMap Ids XSort.
From Verif.Spec Require Import AttrMapSpec IdsSpec.
From Verif.Proof Require Import IdsProof.
From Coq Require Import List ZArith Lia.
Import ListNotations.
Open Scope Z_scope.

(** While no attribute declared as an ID has been removed, replaced or renamed, no element is
    read-only and nothing was purged: getElementById gives an element that has an ID with that
    value, and nothing only if there is none, whatever the order of idNodes_; and changes nothing
    that can be seen. *)
Theorem C77_exact_partial : forall declared order, (forall l, Permutation (order l) l) ->
  forall s d id, id_reach declared order s -> none_taken declared (d_w s) -> (forall e, e_ro (w_elem (d_w s) e) = false) ->
  exists s' o, get_by_id order s d id = Val (s', o) /\ looks_same (d_w s) (d_w s') /\
    match o with
    | Some e => e_doc (w_elem (d_w s) e) = d /\ exists a, bears declared (d_w s) e a id
    | None => forall e a, e_doc (w_elem (d_w s) e) = d -> ~ bears declared (d_w s) e a id
    end.
Proof. exact exact_lemma. Qed.
Print Assumptions C77_exact_partial.
(** An element that has an ID is never missed: something is found for it, after any calls but
    renaming and purging. *)
Theorem C77_found_partial : forall declared order, (forall l, Permutation (order l) l) ->
  forall s e a id, id_reach declared order s -> bears declared (d_w s) e a id ->
  exists s' e', get_by_id order s (e_doc (w_elem (d_w s) e)) id = Val (s', Some e').
Proof. exact found_lemma. Qed.
Print Assumptions C77_found_partial.
(** What is found has, or had at some time, an attribute declared as an ID that now has the value
    asked for; or is read-only. *)
Theorem C77_given_partial : forall declared order, (forall l, Permutation (order l) l) ->
  forall s d id s' e, id_reach declared order s -> get_by_id order s d id = Val (s', Some e) ->
  (exists a, a_owner (w_attr (d_w s) a) = Some e /\ (a < w_next (d_w s))%nat /\ a_doc (w_attr (d_w s) a) = d /\
     (exists element, In (element, a_name (w_attr (d_w s) a)) (declared d)) /\ node_value (w_attr (d_w s) a) = id) \/
  e_ro (w_elem (d_w s) e) = true.
Proof. exact given_lemma. Qed.
Print Assumptions C77_given_partial.

(** * Examples *)
Definition of_name (element attribute : string) : nat -> list (str * str) := fun _ => [(ascii_str element, ascii_str attribute)].
Definition plain_order (l : list entry) : list entry := l.
Definition id_calls declared (cs : list acall) : dstate := fold_left (fun s c => fst (id_call declared s c)) cs (first_dstate (fun _ => 0%nat) (fun _ => [])).
Lemma plain_orders : forall l, Permutation (plain_order l) l.
Proof. intros l. apply Permutation_refl. Qed.
(** Calls that pass no attributes. *)
Lemma calls_reach : forall declared cs, Forall (fun c => passed c = [] /\ renames c = false) cs -> id_reach declared plain_order (id_calls declared cs).
Proof.
  intros declared cs F. unfold id_calls. assert (R := ir_first declared plain_order (fun _ => 0%nat) (fun _ => [])).
  set (s := first_dstate _ _) in *. clearbody s. revert s R. induction F as [|c cs (P & N) F IH]; intros s R; [exact R|].
  cbn [fold_left]. apply IH. apply ir_call; auto. rewrite P. constructor.
Qed.
Ltac reached := apply calls_reach; repeat constructor.
Definition two_ids : list acall := [ASet 0 (ascii_str "id") (ascii_str "x"); ASet 1 (ascii_str "id") (ascii_str "y"); ASet 1 (ascii_str "k") (ascii_str "z")].
Example C77_exact_case : let s := id_calls (of_name "p" "id") two_ids in
  id_reach (of_name "p" "id") plain_order s /\ none_taken (of_name "p" "id") (d_w s) /\ (forall e, e_ro (w_elem (d_w s) e) = false) /\
  bears (of_name "p" "id") (d_w s) 1 1 (ascii_str "y").
Proof.
  cbv zeta. split; [reached|]. split; [|split].
  - intros a e L O _. assert (N : w_next (d_w (id_calls (of_name "p" "id") two_ids)) = 3%nat) by (vm_compute; reflexivity). rewrite N in L.
    destruct a as [|[|[|a]]]; [| | |lia]; vm_compute in O; injection O as <-; vm_compute; tauto.
  - intros [|[|e]]; vm_compute; reflexivity.
  - split; [vm_compute; tauto|]. split; [exists (ascii_str "p"); vm_compute; tauto|vm_compute; reflexivity].
Qed.
Definition gives (r : outcome (dstate * option nat)) : outcome (option nat) := obind r (fun p => Val (snd p)).
Example C77_found_case : gives (get_by_id plain_order (id_calls (of_name "p" "id") two_ids) 0 (ascii_str "y")) = Val (Some 1%nat) /\
  gives (get_by_id plain_order (id_calls (of_name "p" "id") two_ids) 0 (ascii_str "z")) = Val None.
Proof. split; vm_compute; reflexivity. Qed.

(** * What does not hold *)
Definition nobody_bears declared (w : world) (id : str) : Prop := forall e a, ~ bears declared w e a id.
(** After removeAttribute the element is still found. *)
Definition removed : list acall := [ASet 0 (ascii_str "id") (ascii_str "x"); ARemove 0 (ascii_str "id")].
Theorem C77_removed_refuted : let s := id_calls (of_name "p" "id") removed in
  id_reach (of_name "p" "id") plain_order s /\ nobody_bears (of_name "p" "id") (d_w s) (ascii_str "x") /\
  gives (get_by_id plain_order s 0 (ascii_str "x")) = Val (Some 0%nat).
Proof.
  cbv zeta. split; [reached|]. split; [|vm_compute; reflexivity].
  intros [|e] a (I & _); vm_compute in I; exact I.
Qed.
Print Assumptions C77_removed_refuted.
(** After the value was changed with setAttribute, the old one still finds the element. *)
Definition changed_id : list acall := [ASet 0 (ascii_str "id") (ascii_str "x"); ASet 0 (ascii_str "id") (ascii_str "y")].
Theorem C77_changed_refuted : let s := id_calls (of_name "p" "id") changed_id in
  id_reach (of_name "p" "id") plain_order s /\ nobody_bears (of_name "p" "id") (d_w s) (ascii_str "x") /\
  gives (get_by_id plain_order s 0 (ascii_str "x")) = Val (Some 0%nat).
Proof.
  cbv zeta. split; [reached|]. split; [|vm_compute; reflexivity].
  intros [|e] a (I & _ & V); vm_compute in I; [|exact I]. destruct I as [<-|[]]. vm_compute in V. discriminate.
Qed.
Print Assumptions C77_changed_refuted.
(** An ID given to another element instead may still find the first. *)
Definition passed_on : list acall := [ASet 0 (ascii_str "id") (ascii_str "x"); ARemove 0 (ascii_str "id"); ASet 1 (ascii_str "id") (ascii_str "x")].
Theorem C77_passed_on_refuted : let s := id_calls (of_name "p" "id") passed_on in
  id_reach (of_name "p" "id") plain_order s /\ (forall e a, bears (of_name "p" "id") (d_w s) e a (ascii_str "x") -> e = 1%nat) /\
  gives (get_by_id plain_order s 0 (ascii_str "x")) = Val (Some 0%nat).
Proof.
  cbv zeta. split; [reached|]. split; [|vm_compute; reflexivity].
  intros [|[|e]] a (I & _ & V); vm_compute in I; [destruct I|reflexivity|destruct I].
Qed.
Print Assumptions C77_passed_on_refuted.
(** A call of setAttribute that throws, since the element is read-only, still makes it found. *)
Definition thrown_id : list acall := [AFreeze 0; ASet 0 (ascii_str "id") (ascii_str "x")].
Theorem C77_thrown_refuted : let s := id_calls (of_name "p" "id") thrown_id in
  id_reach (of_name "p" "id") plain_order s /\ nobody_bears (of_name "p" "id") (d_w s) (ascii_str "x") /\
  gives (get_by_id plain_order s 0 (ascii_str "x")) = Val (Some 0%nat).
Proof.
  cbv zeta. split; [reached|]. split; [|vm_compute; reflexivity].
  intros [|e] a (I & _); vm_compute in I; exact I.
Qed.
Print Assumptions C77_thrown_refuted.
(** After purgeChild of an element that had an ID, looking for any other is undefined. *)
Theorem C77_purged_refuted : let s := id_calls (of_name "p" "id") [ASet 0 (ascii_str "id") (ascii_str "x")] in
  id_reach (of_name "p" "id") plain_order s /\ get_by_id plain_order (purge s 0) 0 (ascii_str "y") = UB.
Proof. cbv zeta. split; [reached|vm_compute; reflexivity]. Qed.
Print Assumptions C77_purged_refuted.
(** An attribute declared as an ID for one element is one for all: whatever the element is named,
    it is found though no attribute of it was declared. *)
Theorem C77_other_element_refuted : forall name_of : nat -> str, exists declared s,
  id_reach declared plain_order s /\ (forall n, ~ In (name_of 0%nat, n) (declared 0%nat)) /\
  gives (get_by_id plain_order s 0 (ascii_str "x")) = Val (Some 0%nat).
Proof.
  intros name_of. exists (fun _ => [(97 :: name_of 0%nat, ascii_str "id")]).
  exists (id_calls (fun _ => [(97 :: name_of 0%nat, ascii_str "id")]) [ASet 0 (ascii_str "id") (ascii_str "x")]).
  split; [reached|]. split; [|vm_compute; reflexivity].
  intros n [I|[]]. apply (f_equal fst) in I. cbn in I. apply (f_equal (@List.length Z)) in I. cbn in I. lia.
Qed.
Print Assumptions C77_other_element_refuted.
