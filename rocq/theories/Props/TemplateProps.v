From Coq Require Import String SpecFloat.
From Verif.Model Require Import Base XNode XNumber XStep Precedence Template.
From Verif.Spec Require Import PrecedenceSpec TemplateSpec.
From Verif.Proof Require Import TemplateProof TemplatePriority.
From Verif.Props Require Import FilterProps XStepProps.
From Coq Require Import List.
Import ListNotations.
Open Scope Z_scope.

(** xsl:apply-templates takes the template whose stylesheet has the highest import precedence of
    those that have one for the node in the mode, of these the highest priority, and of these
    the last; if it takes none there is none.  For every import tree and every node. *)
Theorem C45_apply_templates : forall s c, load s = Val (Some c) -> forall mode x,
  match choose c frozen_precedence mode x with
  | Some (t, p) => exists a, p = code a /\ applied (visit [] (tree_of s)) (fun _ => True) mode x t a
  | None => none_applicable (visit [] (tree_of s)) (fun _ => True) mode x
  end.
Proof. exact apply_templates_lemma. Qed.
Print Assumptions C45_apply_templates.
(** xsl:apply-imports does the same of what the given stylesheet imports. *)
Theorem C45_apply_imports : forall s c, load s = Val (Some c) -> forall g mode x,
  match choose c (code g) mode x with
  | Some (t, p) => exists a, p = code a /\ applied (visit [] (tree_of s)) (imports_from g) mode x t a
  | None => none_applicable (visit [] (tree_of s)) (imports_from g) mode x
  end.
Proof. exact apply_imports_lemma. Qed.
Print Assumptions C45_apply_imports.
(** xsl:call-template calls the one of highest import precedence. *)
Theorem C45_call_template : forall s c, load s = Val (Some c) -> forall name, name <> [] ->
  match called c name with
  | Some t => named (visit [] (tree_of s)) name t
  | None => forall a own u, In (a, own) (visit [] (tree_of s)) -> In u own -> tm_name u <> name
  end.
Proof. exact named_lemma. Qed.
Print Assumptions C45_call_template.
(** A stylesheet is accepted if no two templates of a stylesheet have the same name and no
    priority is NaN. *)
Theorem C45_loads : forall s, (forall a own, In (a, own) (visit [] (tree_of s)) -> distinct_names own /\ no_nan own) -> exists c, load s = Val (Some c).
Proof. exact load_lemma. Qed.
Print Assumptions C45_loads.
(** The priority attribute is that of all alternatives of the pattern, whatever they are and
    whichever template comes first. *)
Theorem C45_priority : forall ps qs p q n1 n2 mode b1 b2 x c,
  let t := make_template ps (Some p) n1 mode b1 in
  let u := make_template qs (Some q) n2 mode b2 in
  existsb (fun r => p_matches r x) ps = true -> SFltb q p = true ->
  (load [Declares t; Declares u] = Val (Some c) \/ load [Declares u; Declares t] = Val (Some c)) ->
  exists k, choose c frozen_precedence mode x = Some (t, k).
Proof. exact priority_lemma. Qed.
Print Assumptions C45_priority.
(** priority="nan" is accepted for a number, and two templates, one of them with it, are sorted
    with undefined behaviour. *)
Theorem C45_nan_priority_refuted : exists s, load s = UB.
Proof.
  exists [Declares (make_template [Pattern (fun _ => true) S754_nan] None [] [] O); Declares (make_template [Pattern (fun _ => true) (of_Z 1)] (Some S754_nan) [] [] 1%nat)].
  vm_compute. reflexivity.
Qed.
Print Assumptions C45_nan_priority_refuted.

(** The main stylesheet has templates 1 for even nodes and 2 and 3 for all; it imports one with
    template 4 for all nodes with a higher priority, and one with template 5 for mode "m". *)
Definition any (p : Z) : pattern := Pattern (fun _ => true) (of_Z p).
Definition even_ones (p : Z) : pattern := Pattern (fun x => Nat.even (fst x)) (of_Z p).
Definition five : list (item template) := [Imports [Declares (make_template [any 0] (Some (of_Z 9)) (lit "n") [] 4)];
  Imports [Declares (make_template [any 0; even_ones 1] None (lit "o") (lit "m") 5)];
  Declares (make_template [even_ones 2] None (lit "n") [] 1); Declares (make_template [any 1] None [] [] 2); Declares (make_template [any 1] None [] [] 3)].
Definition chosen (generation : precedence) (mode : str) (x : xnode) : option nat :=
  match load five with Val (Some c) => option_map (fun tp => tm_body (fst tp)) (choose c generation mode x) | _ => None end.
Example C45_five : chosen frozen_precedence [] (0%nat, []) = Some 1%nat /\ chosen frozen_precedence [] (1%nat, []) = Some 3%nat /\
  chosen initial_precedence [] (1%nat, []) = Some 4%nat /\ chosen frozen_precedence (lit "m") (1%nat, []) = Some 5%nat /\
  chosen [0; 1] [] (1%nat, []) = None /\ match load five with Val (Some c) => option_map tm_body (called c (lit "n")) | _ => None end = Some 1%nat.
Proof. vm_compute. repeat split. Qed.
Example C45_priority_example : exists c,
  load [Declares (make_template [any 1; any 5] (Some (of_Z 3)) [] [] 1); Declares (make_template [any 9] (Some (of_Z 2)) [] [] 2)] = Val (Some c).
Proof. apply C45_loads. intros a own [E|[]]. injection E as <- <-. split.
  - intros l1 t l2 u l3 E N. destruct l1 as [|? [|? ?]]; cbn in E; inversion E; subst; try reflexivity. destruct l; discriminate.
  - intros r I. cbn in I. destruct I as [<-|[<-|[<-|[]]]]; discriminate.
Qed.
