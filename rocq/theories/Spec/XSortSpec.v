(** XSLT 1.0, section 10: sorting. *)
From Coq Require Import String SpecFloat.
From Verif.Model Require Import Base Containers XNode XSort.
From Coq Require Import List.
Import ListNotations.
Open Scope Z_scope.

(** Numbers in order; what is not a number is before all of them. *)
Definition number_before (a b : spec_float) : Prop := (a = S754_nan /\ b <> S754_nan) \/ SFltb a b = true.
(** Strings in the order of their code units. *)
Inductive text_before : str -> str -> Prop :=
| TextEnds : forall c b, text_before [] (c :: b)
| TextLess : forall c d a b, c < d -> text_before (c :: a) (d :: b)
| TextSame : forall c a b, text_before a b -> text_before (c :: a) (c :: b).
(** The order of two nodes by one xsl:sort, [px] and [py] being their positions in the list of
    [n] nodes that is sorted. *)
Definition key_before (s : sort_element) (n : Z) (x : xnode) (px : Z) (y : xnode) (py : Z) : Prop :=
  let lesser a pa b pb := if str_eqb (se_data_type s) (ascii_str "number") then number_before (se_number s a pa n) (se_number s b pb n) else text_before (se_text s a pa n) (se_text s b pb n) in
  if str_eqb (se_order s) (ascii_str "descending") then lesser y py x px else lesser x px y py.
(** By all: the first of them that tells the nodes apart. *)
Fixpoint sorted_before (l : list sort_element) (n : Z) (x : xnode) (px : Z) (y : xnode) (py : Z) : Prop :=
  match l with
  | [] => False
  | s :: r => key_before s n x px y py \/ (~ key_before s n y py x px /\ sorted_before r n x px y py)
  end.
(** The values that the attributes can have. *)
Definition valid (s : sort_element) : Prop :=
  In (se_data_type s) [ascii_str "text"; ascii_str "number"] /\ In (se_order s) [ascii_str "ascending"; ascii_str "descending"] /\ In (se_case_order s) [ascii_str "upper-first"; ascii_str "lower-first"].
(** The value of the select attribute does not depend on the position and the size. *)
Definition position_free (s : sort_element) : Prop := forall x p n p' n', se_text s x p n = se_text s x p' n' /\ se_number s x p n = se_number s x p' n'.
