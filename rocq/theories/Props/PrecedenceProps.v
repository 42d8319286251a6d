From Coq Require Import String.
From Verif.Model Require Import Base Precedence.
From Verif.Spec Require Import PrecedenceSpec.
From Verif.Proof Require Import PrecedenceProof.
From Verif.Props Require Import FilterProps.
From Coq Require Import List Sorted.
Import ListNotations.
Open Scope Z_scope.

(** Precedences are totally ordered. *)
Theorem C44_irreflexive : forall p, prec_lt p p = false.
Proof. exact lt_irrefl. Qed.
Print Assumptions C44_irreflexive.
Theorem C44_transitive : forall p q r, prec_lt p q = true -> prec_lt q r = true -> prec_lt p r = true.
Proof. exact lt_trans. Qed.
Print Assumptions C44_transitive.
Theorem C44_total : forall p q, prec_lt p q = true \/ p = q \/ prec_lt q p = true.
Proof. exact lt_total. Qed.
Print Assumptions C44_total.
Theorem C44_greater : forall p q, prec_gt p q = true <-> prec_lt q p = true.
Proof. exact gt_ok. Qed.
Print Assumptions C44_greater.
Theorem C44_equal : forall p q, prec_eq p q = true <-> p = q.
Proof. exact prec_eq_ok. Qed.
Print Assumptions C44_equal.

(** Of an import tree of any shape, what is declared in the stylesheet at address [a] gets the
    precedence [code a], and the compiled stylesheet is given the declarations of each
    stylesheet in order, those of higher precedence first.  Different stylesheets have different
    precedences, and they rise in the order of a post-order traversal. *)
Theorem C44_compiled : forall T (l : list (item T)),
  compile l = Some (concat (map (fun x => map (fun t => (t, code (fst x))) (snd x)) (rev (visit [] (tree_of l))))).
Proof. exact @compile_lemma. Qed.
Print Assumptions C44_compiled.
Theorem C44_distinct : forall a b, code a = code b -> a = b.
Proof. exact code_inj. Qed.
Print Assumptions C44_distinct.
Theorem C44_rising : forall T (l : list (item T)), StronglySorted (fun a b => prec_lt (code a) (code b) = true) (map fst (visit [] (tree_of l))).
Proof. exact @tree_rises. Qed.
Print Assumptions C44_rising.

(** So an importing stylesheet beats what it imports, and a later import beats an earlier one
    and all that is below it. *)
Theorem C44_importing : forall a b, imports_from a b -> prec_lt (code b) (code a) = true.
Proof. exact importing_beats. Qed.
Print Assumptions C44_importing.
Theorem C44_later : forall a i j b c, (i < j)%nat -> prec_lt (code (a ++ i :: b)) (code (a ++ j :: c)) = true.
Proof. exact later_beats. Qed.
Print Assumptions C44_later.
Theorem C44_imported : forall a b, is_descendant (code a) (code b) = true <-> imports_from a b.
Proof. exact code_descendant. Qed.
Print Assumptions C44_imported.

(** A stylesheet that declares "m", imports one that declares "a" and imports "b", includes one
    that imports "c", and imports "d". *)
Definition four : list (item str) := [Imports [Declares (lit "a"); Imports [Declares (lit "b")]]; Includes [Imports [Declares (lit "c")]; Declares (lit "i")];
  Imports [Declares (lit "d")]; Declares (lit "m")].
Example C44_four : visit [] (tree_of four) = [([0; 0], [lit "b"]); ([0], [lit "a"]); ([1], [lit "c"]); ([2], [lit "d"]); ([], [lit "i"; lit "m"])]%nat /\
  compile four = Some [(lit "i", [0]); (lit "m", [0]); (lit "d", [0; 3]); (lit "c", [0; 2]); (lit "a", [0; 1]); (lit "b", [0; 1; 1])].
Proof. vm_compute. split; reflexivity. Qed.
