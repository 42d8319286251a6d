From Coq Require Import String SpecFloat.
From Verif.Model Require Import Base XNode XAxis XNodeSet XCompare XStep XEval.
From Verif.Spec Require Import XOrder XAxisSpec XNodeSetSpec XCompareSpec XStepSpec XEvalSpec XSafeSpec.
From Verif.Proof Require Import XNodeSetProof XStepProof XEvalProof XSafeProof.
From Verif.Props Require Import FilterProps XOrderProps XAxisProps XStepProps XEvalProps.
From Coq Require Import List.
Import ListNotations.
Open Scope Z_scope.

(** Evaluating an expression of any size ends with a value or with an exception: no walk goes on
    for ever, no null pointer is used and no string is read past its end.  Partial: of the
    expressions described by [tame], in documents and with paths as in C53_evaluate_partial. *)
Theorem C53_ends_partial : forall k d (from : bool) e x position last,
  sorts (e_sort k) -> documents (e_forest k) -> f_doc (e_forest k) d = d -> proper (f_tree (e_forest k) d) ->
  (forall uri name, ends (e_vars k uri name) /\ forall v, e_vars k uri name = Got v -> usable (e_sort k) (e_forest k) d v) ->
  fst x = d -> In (snd x) (nodes (f_tree (e_forest k) d)) -> (from = false -> ~ is_attribute (snd x)) -> allowed (f_tree (e_forest k) d) from e -> tame e -> int position -> int last ->
  ends (evaluate k e x position last).
Proof. exact evaluate_ends. Qed.
Print Assumptions C53_ends_partial.
(** The two expressions of C53_letters, starts-with(/r, 'abcd'), which asks for more than there
    is, -$v, where there is no such variable, and
    count(//i[position() mod 2 = 1]). *)
Definition longer : expr := ECall StartsWith [EPath true [AxisStep Child (Named (lit "r")) []]; ELiteral (lit "abcd")].
Definition unknown : expr := ENegate (EVariable [] (lit "v")).
Definition odd_ones : expr := ECall Count [all_i [ERel OpEq (EArith Mod (ECall Position []) (ENumber (of_Z 2))) (ENumber (of_Z 1))]].
Example C53_ending : tame counted /\ tame joined /\ tame longer /\ tame unknown /\ tame odd_ones /\
  In [] (nodes letters_doc) /\ (forall uri name, ends (e_vars letters_env uri name)) /\
  evaluate letters_env longer (0%nat, []) 1 1 = Got (VBool false) /\ evaluate letters_env unknown (0%nat, []) 1 1 = Raises /\ evaluate letters_env odd_ones (0%nat, []) 1 1 = Got (VNum (of_Z 2)).
Proof.
  split; [cbn; repeat split; try discriminate; left; reflexivity|]. split; [cbn; repeat split; discriminate|]. split; [cbn; repeat split; discriminate|]. split; [exact I|].
  split; [cbn; repeat split; try discriminate; [left; reflexivity|]; right; split; [exact I|]; exists 2; unfold int; repeat split; try lia; discriminate|].
  split; [left; reflexivity|]. split; [intros uri name; exact I|]. split; [vm_compute; reflexivity|]. split; vm_compute; reflexivity.
Qed.

(** Not of every expression: 1 mod 0 divides a long by zero, substring('abc', 1e300) converts a
    number that no int holds, and //i < //x takes the first of no nodes. *)
Definition by_zero : expr := EArith Mod (ENumber (of_Z 1)) (ENumber (of_Z 0)).
Definition far_away : expr := ECall Substring [ELiteral (lit "abc"); ENumber (S754_finite false 6724873095247260 944)].
Definition none_greater : expr := ERel OpLt (all_i []) (EPath true [AxisStep DescendantOrSelf OfNode []; AxisStep Child (Named (lit "x")) []]).
Theorem C53_ends_refuted : Forall (fun e => compiles e = true /\ allowed letters_doc false e /\ evaluate letters_env e (0%nat, []) 1 1 = Broken) [by_zero; far_away; none_greater].
Proof. repeat constructor; try (vm_compute; reflexivity); try discriminate. Qed.
Print Assumptions C53_ends_refuted.
