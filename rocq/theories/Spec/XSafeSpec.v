(** When evaluating an XPath expression is well defined: C53. *)
From Coq Require Import SpecFloat.
From Verif.Model Require Import Base XNode XNodeSet XCompare XStep XEval.
From Verif.Spec Require Import XCompareSpec.

(** A value or an exception: no undefined behaviour, and no walk without end. *)
Definition ends {A} (a : answer A) : Prop := match a with Got _ | Raises => True | Broken | Starved => False end.
(** Expressions whose value is not a node set, by how they are written. *)
Definition not_a_set (e : expr) : Prop := match e with EVariable _ _ | EUnion _ _ | EPath _ _ => False | _ => True end.
(** Whole numbers that an int holds: position(), last(), count() and small literals; and literals
    to divide by. *)
Definition int (z : Z) : Prop := -2147483648 <= z < 2147483648.
Definition whole_number (e : expr) : Prop :=
  match e with
  | ENumber n => exists z, int z /\ n = of_Z z
  | ECall Position _ | ECall Last _ | ECall Count _ => True
  | _ => False
  end.
Definition divisor (e : expr) : Prop := exists z, int z /\ z <> 0 /\ e = ENumber (of_Z z).
(** No mod but of whole numbers by a divisor, no substring(), and no <, >, <= or >= between two expressions that may both be node
    sets. *)
Fixpoint tame (e : expr) : Prop :=
  match e with
  | ENumber _ | ELiteral _ | EVariable _ _ => True
  | EOr a b | EAnd a b | EUnion a b => tame a /\ tame b
  | ERel op a b => (equality op = true \/ not_a_set a \/ not_a_set b) /\ tame a /\ tame b
  | EArith op a b => (op <> Mod \/ (whole_number a /\ divisor b)) /\ tame a /\ tame b
  | ENegate a => tame a
  | ECall g args => g <> Substring /\ fold_right and True (map tame args)
  | EPath _ steps => fold_right and True (map (fun s => match s with
      | AxisStep _ _ qs => fold_right and True (map tame qs)
      | FilterStep e qs => tame e /\ fold_right and True (map tame qs)
      end) steps)
  end.
