From Coq Require Import String SpecFloat.
From Verif.Model Require Import Base XNode XNodeSet XCompare.
From Verif.Spec Require Import XCompareSpec.
From Verif.Proof Require Import XCompareProof.
From Verif.Props Require Import FilterProps.
From Coq Require Import List.
Import ListNotations.
Open Scope Z_scope.

(** Every comparison gives what XPath says, whatever the strings stand for as numbers.  Partial:
    [settled] leaves out <, <=, > and >= of two sets of which one is empty, and of a set and a
    boolean. *)
Theorem C39_comparisons_partial : forall r top op v w, settled op v w ->
  exists b, compare_values r top op v w = Some b /\ (b = true <-> compares r op v w).
Proof. exact compare_lemma. Qed.
Print Assumptions C39_comparisons_partial.

(** A reader: digits are numbers, other strings are not; nodes by their document number. *)
Definition some_reader (texts : list string) : reader :=
  Reader (fun s => match s with [c] => if (49 <=? c) && (c <=? 57) then S754_finite false (Z.to_pos (c - 48)) 0 else S754_nan | _ => S754_nan end)
    (fun _ => []) (fun x => lit (nth (fst x) texts EmptyString)).
Definition set_of (l : list nat) : nodeset := Set_ (map (fun i => (i, [])) l) true false.
Example C39_some : let r := some_reader ["x"; "3"; "5"; "x"]%string in
  settled OpLt (VSet (set_of [0; 2]%nat)) (VSet (set_of [0; 1]%nat)) /\
  compare_values r (fun _ => []) OpLt (VSet (set_of [0; 2]%nat)) (VSet (set_of [0; 1]%nat)) = Some false /\
  compare_values r (fun _ => []) OpLt (VSet (set_of [0; 1]%nat)) (VSet (set_of [2; 0]%nat)) = Some true /\
  compare_values r (fun _ => []) OpEq (VSet (set_of [0; 2]%nat)) (VSet (set_of [1; 3]%nat)) = Some true /\
  compare_values r (fun _ => []) OpNe (VSet (set_of [0; 3]%nat)) (VSet (set_of [3; 0]%nat)) = Some false /\
  compare_values r (fun _ => []) OpNe (VSet (set_of [0; 3]%nat)) (VNum S754_nan) = Some true.
Proof. cbv zeta. split; [right; split; discriminate|vm_compute; repeat split]. Qed.

(** <, <=, > and >= on an empty set and another set read the first node of the empty set. *)
Theorem C39_empty_set_refuted : forall r top op s, equality op = false ->
  compare_values r top op (VSet (set_of [])) (VSet s) = None /\ ~ compares r op (VSet (set_of [])) (VSet s).
Proof.
  intros r top op s E. split; [|intros (x & y & [] & _)].
  destruct op; try discriminate; cbn; unfold compare_node_sets; cbn; try reflexivity; destruct (min_value r s); reflexivity.
Qed.
Print Assumptions C39_empty_set_refuted.
(** A node set and a boolean are not compared as booleans by <: an empty set is less than true. *)
Theorem C39_boolean_refuted : forall r top, compare_values r top OpLt (VSet (set_of [])) (VBool true) = Some false /\ compares r OpLt (VSet (set_of [])) (VBool true).
Proof. intros r top. split; reflexivity. Qed.
Print Assumptions C39_boolean_refuted.
