(** C82: DOM events and the handles on them. *)
From Coq Require Import String.
From Verif.Model Require Import Base EventObject.
From Verif.Spec Require Import EventObjectSpec.
From Verif.Proof Require Import EventObjectProof.
From Verif.Props Require Import FilterProps.
From Coq Require Import List ZArith Lia. Import ListNotations. Open Scope Z_scope.

(** Through whatever handle an event is asked, it tells what it was last initialised with through
    whatever handle, and whether it was stopped and its default prevented. *)
Theorem C82_told_partial : forall l s v i, run at_start l = Val s -> refers (rev l) v = Some i ->
  match initialised (rev l) i with
  | Some (t, b, c) => get_type s v = Val t /\ get_bubbles s v = Val b /\ get_cancelable s v = Val c
  | None => get_type s v = Val [] /\ get_bubbles s v = UB /\ get_cancelable s v = UB
  end /\
  match mutation (rev l) i with
  | Some (p, n, a, ch) => get_mutation s v = Val (p, n, a) /\ get_change s v = Val ch
  | None => get_mutation s v = Val ([], [], []) /\ get_change s v = UB
  end /\ get_flags s v = Val (stopped (rev l) i, prevented (rev l) i).
Proof. exact tells_lemma. Qed.
Print Assumptions C82_told_partial.
(** Every event that was made is destroyed when no handle refers to it, and not before. *)
Theorem C82_alive : forall l s, run at_start l = Val s -> length (e_objects s) = made (rev l) /\
  forall i o, nth_error (e_objects s) i = Some o -> (o_freed o = true <-> forall v, refers (rev l) v <> Some i).
Proof. exact lives_lemma. Qed.
Print Assumptions C82_alive.
(** A program that uses no null handle, stops no event it has not initialised and does not assign the
    only handle of an event to itself goes well; the first step that does one of these is undefined. *)
Theorem C82_safe_partial : forall l, all_fair [] l -> exists s, run at_start l = Val s.
Proof. exact fair_lemma. Qed.
Print Assumptions C82_safe_partial.
Theorem C82_unsafe : forall l o s, run at_start l = Val s -> ~ fair (rev l) o -> run at_start (l ++ [o]) = UB.
Proof. exact unfair_lemma. Qed.
Print Assumptions C82_unsafe.

Definition two_handles : list op :=
  [Create 0 (lit "MutationEvent"); Assign 1 0; InitMutation 1 (lit "DOMAttrModified") true true (lit "old") (lit "new") (lit "a") 1;
   Create 2 (lit "MutationEvent"); Init 2 (lit "other") false false; Stop 2; Stop 0; Drop 1; Assign 0 0; Drop 0]%nat.
Example C82_two_handles :
  match run at_start (firstn 8 two_handles) with
  | Val s => get_type s 0 = Val (lit "DOMAttrModified") /\ get_mutation s 0 = Val (lit "old", lit "new", lit "a") /\ get_flags s 0 = Val (true, false) /\
             get_type s 2 = Val (lit "other") /\ get_flags s 2 = Val (false, false) /\ map o_freed (e_objects s) = [false; false]
  | _ => False
  end /\
  run at_start (firstn 9 two_handles) = UB /\
  match run at_start (firstn 8 two_handles ++ [Drop 0]) with Val s => map o_freed (e_objects s) = [true; false] | _ => False end.
Proof. vm_compute. repeat split; reflexivity. Qed.
Example C82_fair_case : all_fair [] (firstn 8 two_handles).
Proof.
  cbn [firstn two_handles all_fair fair]. repeat split; try discriminate; try (intros E; discriminate E).
  - exists 1%nat. split; [reflexivity|]. vm_compute. discriminate.
  - exists 0%nat. split; [reflexivity|]. vm_compute. discriminate.
Qed.
(** A handle can not be assigned to itself: what it refers to is released first. *)
Theorem C82_self_refuted : run at_start [Create 0 (lit "MutationEvent"); Assign 0 0] = UB /\
  match run at_start [Create 0 (lit "MutationEvent"); Assign 1 0; Assign 0 0] with Val _ => True | _ => False end.
Proof. split; vm_compute; [reflexivity|exact I]. Qed.
Print Assumptions C82_self_refuted.
(** The kinds of events that DOM names and that are not MutationEvent are made as null, without a
    DOMException: the first call on what was made is undefined. *)
Theorem C82_kinds_refuted : forall kind t b c, kind <> lit "MutationEvent" ->
  match run at_start [Create 0 kind] with Val s => e_vars s 0%nat = None | _ => False end /\ run at_start [Create 0 kind; Init 0 t b c] = UB.
Proof.
  intros kind t b c N. assert (K : str_eqb kind mutation_name = false). { destruct (str_eqb kind mutation_name) eqn:E; [|reflexivity]. apply Verif.Proof.ContainersProof.str_eqb_true in E. destruct N. exact E. }
  cbn [run step]. rewrite K. split; reflexivity.
Qed.
Print Assumptions C82_kinds_refuted.
(** An event that was made but not initialised can not be asked whether it bubbles, nor stopped. *)
Theorem C82_fresh_refuted : match run at_start [Create 0 (lit "MutationEvent")] with Val s => get_bubbles s 0 = UB /\ get_change s 0 = UB | _ => False end /\
  run at_start [Create 0 (lit "MutationEvent"); Stop 0] = UB.
Proof. vm_compute. repeat split; reflexivity. Qed.
Print Assumptions C82_fresh_refuted.
