(** Shared vocabulary of the model.
    Characters, bytes and code units are integers; strings are lists of them. *)
From Coq Require Export List ZArith Bool Lia.
Export ListNotations.
Open Scope Z_scope.

(** A C++ string or byte range: its characters in order. *)
Notation str := (list Z) (only parsing).

(** Equality of strings, as computed by operator== of std::basic_string. *)
Fixpoint str_eqb (a b : str) : bool :=
  match a, b with
  | [], [] => true
  | x :: a', y :: b' => (x =? y) && str_eqb a' b'
  | _, _ => false
  end.

(** Results std::codecvt functions return that this code uses. *)
Inductive cvt_result := CvtOk | CvtPartial.

(** Outcome of code that may leave defined behaviour.  [NoFuel] marks a run the
    model cut short; it never stands for a normal result. *)
Inductive outcome (A : Type) := Val (a : A) | UB | NoFuel.
Arguments Val {A} a.
Arguments UB {A}.
Arguments NoFuel {A}.
Definition obind {A B} (m : outcome A) (f : A -> outcome B) : outcome B :=
  match m with Val a => f a | UB => UB | NoFuel => NoFuel end.
