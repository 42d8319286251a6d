(** Match patterns that are a call of id() or key(): createIdKeyPattern,
    include/XPath/impl/xpath_parser.hpp:821-830, and IdKeyStepExpression, xpath_step.hpp:473-512.
    Their text is compiled in XPattern.v; here the function is made and the pattern is tried. *)
From Coq Require Import String.
From Verif.Model Require Import Base Text XNode XNodeSet XStep XSort XParse XPattern XKeys XFunctions.
From Coq Require Import Floats.SpecFloat.
From Coq Require Import List. Import ListNotations. Open Scope Z_scope.

(** createFunction for the patterns of a list, in a stylesheet; [current] is current_allowed_. *)
Definition made_matcher (current : bool) (m : matcher) : answer matcher :=
  match m with
  | Path _ => Got m
  | IdKey name args => andthen (make_function current [] name (length args)) (fun _ => Got m)
  end.
Fixpoint made_matchers (current : bool) (l : list (matcher * spec_float)) : answer (list (matcher * spec_float)) :=
  match l with
  | [] => Got []
  | (m, p) :: r => andthen (made_matcher current m) (fun m => andthen (made_matchers current r) (fun r => Got ((m, p) :: r)))
  end.
Definition stylesheet_pattern (n : nat) (x : lexicon) (current : bool) (s : str) : answer (list (matcher * spec_float)) :=
  andthen (compile_pattern n x s) (made_matchers current).

Section Trying.
  Context (ss : sorter) (f : forest) (namespaces : str -> option str).
  (** KeyFunction::doEvaluate of two literals, xslt_functions.hpp:103-116: the expanded name of
      the key, with the namespaces in scope at the pattern; None is an exception. *)
  Definition key_name (name : str) : option str :=
    option_map clark_name (parse_qname name true (fun p => match namespaces p with Some u => u | None => [] end)).
  Definition key_of_literals (D : declared) (name value : str) (context current : xnode) : outcome (declared * option nodeset) :=
    match key_name name with
    | Some k => key_function ss f D k (ArgString value) context current
    | None => Val (D, None)
    end.
  (** IdKeyStepExpression::evaluate, xpath_step.hpp:489-503, within RelativeLocationPath::evaluate
      (530-545): the node is in the result, or not.  The current node is the node that is tried,
      xslt_compiled_stylesheet.hpp:182-211. *)
  Definition key_try (D : declared) (name value : str) (x : xnode) : outcome (declared * option bool) :=
    obind (key_of_literals D name value x x) (fun '(D, o) => Val (D, option_map (fun s => existsb (xnode_eqb x) (s_nodes s)) o)).
  (** The tries of a transformation. *)
  Record attempt := Attempt { at_key : str; at_value : str; at_node : xnode }.
  Fixpoint run_tries (D : declared) (l : list attempt) : outcome (list (option bool)) :=
    match l with
    | [] => Val []
    | a :: r => obind (key_try D (at_key a) (at_value a) (at_node a)) (fun '(D, b) => obind (run_tries D r) (fun bs => Val (b :: bs)))
    end.
End Trying.
