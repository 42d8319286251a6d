(** Saved places of a document: include/SAX/helpers/LocatorImpl.hpp. *)
From Verif.Model Require Import Base.
From Coq Require Import List ZArith. Import ListNotations. Open Scope Z_scope.

(** publicId_, systemId_, lineNumber_ and columnNumber_, 156-159; and what any Locator tells. *)
Record place := Place { p_public : str; p_system : str; p_line : Z; p_column : Z }.
(** A size_t. *)
Definition as_size (z : Z) : Z := z mod 18446744073709551616.
(** LocatorImpl(), 57-63. *)
Definition no_place : place := Place [] [] (as_size (-1)) (as_size (-1)).
(** A reader's locator, which moves, and variables of type LocatorImpl. *)
Record lstate := LState { l_live : place; l_vars : nat -> place }.
Definition put_place (f : nat -> place) (v : nat) (p : place) : nat -> place := fun w => if Nat.eqb w v then p else f w.
(** What a program does: the reader goes on; LocatorImpl v; LocatorImpl v(locator), 65-71; v = locator,
    75-81, which has no return statement; LocatorImpl v(w) and v = w, both made by the compiler; and the setters, 129-151. *)
Inductive op :=
  | Move (p : place) | New (v : nat) | Save (v : nat) | AssignLive (v : nat) | Copy (v w : nat) | Assign (v w : nat)
  | SetPublic (v : nat) (s : str) | SetSystem (v : nat) (s : str) | SetLine (v : nat) (n : Z) | SetColumn (v : nat) (n : Z).
Definition step (s : lstate) (o : op) : outcome lstate :=
  let put v p := Val (LState (l_live s) (put_place (l_vars s) v p)) in
  match o with
  | Move p => Val (LState p (l_vars s))
  | New v => put v no_place
  | Save v => put v (Place (p_public (l_live s)) (p_system (l_live s)) (p_line (l_live s)) (p_column (l_live s)))
  | AssignLive _ => UB
  | Copy v w | Assign v w => put v (l_vars s w)
  | SetPublic v x => put v (Place x (p_system (l_vars s v)) (p_line (l_vars s v)) (p_column (l_vars s v)))
  | SetSystem v x => put v (Place (p_public (l_vars s v)) x (p_line (l_vars s v)) (p_column (l_vars s v)))
  | SetLine v n => put v (Place (p_public (l_vars s v)) (p_system (l_vars s v)) (as_size n) (p_column (l_vars s v)))
  | SetColumn v n => put v (Place (p_public (l_vars s v)) (p_system (l_vars s v)) (p_line (l_vars s v)) (as_size n))
  end.
Fixpoint run (s : lstate) (l : list op) : outcome lstate :=
  match l with [] => Val s | o :: r => obind (step s o) (fun s => run s r) end.
Definition at_start : lstate := LState no_place (fun _ => no_place).
