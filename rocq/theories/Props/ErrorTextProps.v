From Coq Require Import String.
From Verif.Model Require Import Base XSort ErrorText.
From Verif.Spec Require Import ErrorTextSpec.
From Verif.Proof Require Import ErrorTextProof.
From Verif.Props Require Import FilterProps.
From Coq Require Import Lia List ZArith. Import ListNotations. Open Scope Z_scope.

(** An exception says its line, its column and its message, and has the identifiers it was made
    with, however often it is copied and assigned among the variables of a program.
    Partial: messages with a NUL are left out. *)
Theorem C81_kept_partial : forall steps s t, Forall step_ok steps -> (forall v, shows (s v) (t v)) ->
  forall v, shows (exception_run s steps v) (problem_run t steps v).
Proof. exact kept. Qed.
Print Assumptions C81_kept_partial.
(** So that what() of two exceptions is the same only if line, column and message are. *)
Theorem C81_one : forall e p e' p', shows e p -> shows e' p' -> what e = what e' -> told p = told p'.
Proof. exact one_apart. Qed.
Print Assumptions C81_one.
(** After any calls, errors are reported exactly if something was reported since the last reset. *)
Theorem C81_reported : forall calls, Forall (fun e => exists p, shows e p) (since calls []) ->
  (errors_reported (catch calls) = true <-> since calls [] <> []).
Proof. exact reported. Qed.
Print Assumptions C81_reported.
(** errors() tells the lines, columns and messages of all that was reported since the last reset,
    in order: two histories with the same text reported the same.
    Partial: messages that have the words "Parse exception at " are left out; see the
    refutation. *)
Theorem C81_told_apart_partial : forall calls calls' ps ps', Forall2 shows (since calls []) ps -> Forall2 shows (since calls' []) ps' ->
  Forall (fun p => ~ contains phrase (p_message p)) ps -> Forall (fun p => ~ contains phrase (p_message p)) ps' ->
  catch calls = catch calls' -> map told ps = map told ps'.
Proof. exact handlers_apart. Qed.
Print Assumptions C81_told_apart_partial.

Definition bad_tag : parse_exception := make_exception (lit "mismatched tag") [] (lit "a.xml") 3 17.
Definition no_root : parse_exception := make_exception (lit "no element found") [] (lit "b.xml") 1 0.
Definition some_steps : list exception_step := [Made 1 (lit "mismatched tag") [] (lit "a.xml") 3 17; Copied 2 1; Assigned 3 2; Made 1 (lit "no element found") [] (lit "b.xml") 1 0; Assigned 2 1].
Definition blank_exceptions : exceptions := fun _ => make_exception [] [] [] 0 0.
Lemma C81_bad_tag : shows bad_tag (Problem (lit "mismatched tag") [] (lit "a.xml") 3 17).
Proof. apply made_shows. split; [vm_compute; intuition discriminate|]. cbn. lia. Qed.
Lemma C81_no_root : shows no_root (Problem (lit "no element found") [] (lit "b.xml") 1 0).
Proof. apply made_shows. split; [vm_compute; intuition discriminate|]. cbn. lia. Qed.
Example C81_steps : Forall step_ok some_steps /\ (forall v, shows (blank_exceptions v) (Problem [] [] [] 0 0)) /\
  what (exception_run blank_exceptions some_steps 3%nat) = lit "Parse exception at 3,17" ++ [10] ++ lit "mismatched tag" /\
  what (exception_run blank_exceptions some_steps 2%nat) = lit "Parse exception at 1,0" ++ [10] ++ lit "no element found".
Proof.
  split; [|split; [|split; vm_compute; reflexivity]].
  - repeat (constructor; [try exact Logic.I; (split; [vm_compute; intuition discriminate|]); cbn; lia|]); constructor.
  - intro v. apply made_shows. split; [intros []|]. cbn. lia.
Qed.
Definition some_calls : list catch_call := [Warning no_root; Forget; Error bad_tag; FatalError no_root].
Example C81_calls : Forall2 shows (since some_calls []) [Problem (lit "mismatched tag") [] (lit "a.xml") 3 17; Problem (lit "no element found") [] (lit "b.xml") 1 0] /\
  ~ contains phrase (lit "mismatched tag") /\
  catch some_calls = lit "Parse exception at 3,17" ++ [10] ++ lit "mismatched tagParse exception at 1,0" ++ [10] ++ lit "no element found" /\
  errors_reported (catch some_calls) = true /\ errors_reported (catch [Error bad_tag; Forget]) = false.
Proof.
  split; [constructor; [exact C81_bad_tag|constructor; [exact C81_no_root|constructor]]|]. split; [|repeat split; vm_compute; reflexivity].
  intros [a [b E]]. assert (In 80 (lit "mismatched tag")) as I by (rewrite E; apply in_or_app; right; left; reflexivity). vm_compute in I. intuition discriminate.
Qed.

(** Nothing is put between the texts, so one error can read as two. *)
Theorem C81_joined_refuted : exists e e1 e2 p p1 p2, shows e p /\ shows e1 p1 /\ shows e2 p2 /\ catch [Error e] = catch [Error e1; Error e2].
Proof.
  exists (make_exception (lit "xParse exception at 2,2" ++ [10] ++ lit "y") [] [] 1 1), (make_exception (lit "x") [] [] 1 1), (make_exception (lit "y") [] [] 2 2).
  eexists _, _, _. split; [apply made_shows; split; [vm_compute; intuition discriminate|cbn; lia]|]. split; [apply made_shows; split; [vm_compute; intuition discriminate|cbn; lia]|].
  split; [apply made_shows; split; [vm_compute; intuition discriminate|cbn; lia]|]. vm_compute. reflexivity.
Qed.
Print Assumptions C81_joined_refuted.
(** The document is not told: errors of two files read the same. *)
Theorem C81_where_refuted : exists e e' p p', shows e p /\ shows e' p' /\ p_system p <> p_system p' /\ catch [Error e] = catch [Error e'].
Proof.
  exists (make_exception (lit "x") [] (lit "a.xml") 1 1), (make_exception (lit "x") [] (lit "b.xml") 1 1).
  eexists _, _. split; [apply made_shows; split; [vm_compute; intuition discriminate|cbn; lia]|]. split; [apply made_shows; split; [vm_compute; intuition discriminate|cbn; lia]|].
  split; [discriminate|]. vm_compute. reflexivity.
Qed.
Print Assumptions C81_where_refuted.
(** A warning counts as an error: document() gives nothing for a document with one. *)
Theorem C81_warning_refuted : exists e p, shows e p /\ errors_reported (catch [Warning e]) = true.
Proof. exists bad_tag. eexists. split; [exact C81_bad_tag|]. vm_compute. reflexivity. Qed.
Print Assumptions C81_warning_refuted.
(** An exception without a position says a position. *)
Theorem C81_no_position_refuted : what (make_plain (lit "x")) = lit "Parse exception at 18446744073709551615,18446744073709551615" ++ [10] ++ lit "x".
Proof. vm_compute. reflexivity. Qed.
Print Assumptions C81_no_position_refuted.
(** What follows a NUL in a message is lost. *)
Theorem C81_nul_refuted : what (make_exception [120; 0; 121] [] [] 1 1) = what (make_exception [120; 0; 122] [] [] 1 1).
Proof. vm_compute. reflexivity. Qed.
Print Assumptions C81_nul_refuted.
