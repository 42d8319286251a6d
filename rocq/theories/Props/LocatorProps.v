(** C83: saved locators. *)
From Coq Require Import String.
From Verif.Model Require Import Base Locator.
From Verif.Spec Require Import LocatorSpec.
From Verif.Proof Require Import LocatorProof.
From Verif.Props Require Import FilterProps.
From Coq Require Import List ZArith. Import ListNotations. Open Scope Z_scope.

(** A saved locator tells, in each field, where the reader was when it was saved, or what was set in
    that field since, whatever the reader and the other locators did later. *)
Theorem C83_saved_partial : forall l s v, run at_start l = Val s -> l_vars s v =
  Place (saved [] p_public set_public (rev l) v) (saved [] p_system set_system (rev l) v) (saved unknown p_line set_line (rev l) v) (saved unknown p_column set_column (rev l) v).
Proof. exact tells_lemma. Qed.
Print Assumptions C83_saved_partial.
(** Exactly the programs that assign no reader's locator are defined. *)
Theorem C83_defined : forall l s, (exists s', run s l = Val s') <-> Forall (fun o => ~ is_assignment o) l.
Proof. exact runs_lemma. Qed.
Print Assumptions C83_defined.
Definition reading : list op :=
  [Move (Place [] (lit "a.xml") 1 1); Save 0; Move (Place [] (lit "a.xml") 7 3); Copy 1 0; Save 0; SetSystem 1 (lit "b.xml"); Move (Place [] (lit "a.xml") 9 9); New 2; SetLine 2 4]%nat.
Example C83_reading :
  match run at_start reading with
  | Val s => map (l_vars s) [0; 1; 2]%nat = [Place [] (lit "a.xml") 7 3; Place [] (lit "b.xml") 1 1; Place [] [] 4 18446744073709551615]
  | _ => False
  end.
Proof. vm_compute. reflexivity. Qed.
(** The program in the documentation of the class assigns the reader's locator, and is not. *)
Theorem C83_assigned_refuted : run at_start [New 0; Move (Place [] (lit "a.xml") 1 1); AssignLive 0] = UB.
Proof. reflexivity. Qed.
Print Assumptions C83_assigned_refuted.
