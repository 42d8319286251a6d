(** What saved places tell, from what a program did alone.  Histories have the latest first. *)
From Verif.Model Require Import Base Locator.
From Coq Require Import List ZArith. Import ListNotations. Open Scope Z_scope.

(** No place is known: the documentation says -1, and numbers are unsigned and of 64 bits. *)
Definition in_64_bits (n : Z) : Z := n mod 2 ^ 64.
Definition unknown : Z := in_64_bits (-1).
(** What one field of a variable is: the reader's of the moment of the last saving, or what was set
    since.  [get] takes the field from a place, [set] from a step. *)
Section Field.
  Context {A : Type}.
  Variables (none : A) (get : place -> A) (set : nat -> op -> option A).
  Fixpoint live (h : list op) : A :=
    match h with [] => none | Move p :: _ => get p | _ :: r => live r end.
  Fixpoint saved (h : list op) (v : nat) : A :=
    match h with
    | [] => none
    | o :: r =>
        match set v o with
        | Some x => x
        | None =>
            match o with
            | New w => if Nat.eqb v w then none else saved r v
            | Save w => if Nat.eqb v w then live r else saved r v
            | Copy w u | Assign w u => if Nat.eqb v w then saved r u else saved r v
            | _ => saved r v
            end
        end
    end.
End Field.
Definition set_public (v : nat) (o : op) : option str := match o with SetPublic w s => if Nat.eqb v w then Some s else None | _ => None end.
Definition set_system (v : nat) (o : op) : option str := match o with SetSystem w s => if Nat.eqb v w then Some s else None | _ => None end.
Definition set_line (v : nat) (o : op) : option Z := match o with SetLine w n => if Nat.eqb v w then Some (in_64_bits n) else None | _ => None end.
Definition set_column (v : nat) (o : op) : option Z := match o with SetColumn w n => if Nat.eqb v w then Some (in_64_bits n) else None | _ => None end.
Definition is_assignment (o : op) : Prop := match o with AssignLive _ => True | _ => False end.
