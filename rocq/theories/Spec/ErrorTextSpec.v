(** What exceptions of a parse say, and what a handler that keeps them has. *)
From Coq Require Import String.
From Verif.Model Require Import Base XSort ErrorText.
From Coq Require Import List ZArith. Import ListNotations. Open Scope Z_scope.

(** An exception, as it was made. *)
Record problem := Problem { p_message : str; p_public : str; p_system : str; p_line : Z; p_column : Z }.
Definition no_nul (s : str) : Prop := ~ In 0 s.
(** The decimal text of a number: no digits too many, and the value. *)
Definition is_decimal (s : str) (n : Z) : Prop :=
  s <> [] /\ Forall (fun c => 48 <= c <= 57) s /\ fold_left (fun a c => 10 * a + (c - 48)) s 0 = n /\ (s = [48] \/ hd 0 s <> 48).
Definition phrase : str := ascii_str "Parse exception at ".
(** A text of a problem. *)
Definition says (s : str) (p : problem) : Prop :=
  exists l c, is_decimal l (p_line p) /\ is_decimal c (p_column p) /\ s = phrase ++ l ++ ascii_str "," ++ c ++ [10] ++ p_message p.
Definition shows (e : parse_exception) (p : problem) : Prop :=
  says (what e) p /\ e_public e = p_public p /\ e_system e = p_system p /\ e_line e = p_line p /\ e_column e = p_column p.
(** Positions a size_t has, and messages that are texts. *)
Definition problem_ok (p : problem) : Prop := no_nul (p_message p) /\ 0 <= p_line p < 2 ^ 64 /\ 0 <= p_column p < 2 ^ 64.

(** Which problem a variable has after some steps: the one it was given last. *)
Definition problem_run1 (s : nat -> problem) (o : exception_step) : nat -> problem :=
  match o with
  | Made v m p y l c => fun w => if Nat.eqb w v then Problem m p y l c else s w
  | Copied v f | Assigned v f => fun w => if Nat.eqb w v then s f else s w
  end.
Definition problem_run (s : nat -> problem) (l : list exception_step) : nat -> problem := fold_left problem_run1 l s.
Definition step_ok (o : exception_step) : Prop :=
  match o with Made _ m p y l c => problem_ok (Problem m p y l c) | _ => True end.

(** The problems reported since the last reset, the oldest first. *)
Fixpoint since (l : list catch_call) (held : list parse_exception) : list parse_exception :=
  match l with
  | [] => held
  | Forget :: r => since r []
  | Warning e :: r | Error e :: r | FatalError e :: r => since r (held ++ [e])
  end.
Definition contains (p s : str) : Prop := exists a b, s = a ++ p ++ b.
(** What the text tells of a problem. *)
Definition told (p : problem) : Z * Z * str := (p_line p, p_column p, p_message p).
