(** XSLT match patterns: how they are compiled (include/XPath/impl/xpath_parser.hpp:796-1003 and
    xpath_match_rewrite.hpp) and tried on a node (xpath_match.hpp).

    A pattern is taken as it is written, after parsing.  The patterns id(...) and key(...) are
    not modelled. *)
From Verif.Model Require Import Base XNode XAxis XNodeSet XCompare XStep XEval.

(** * Patterns as written *)
(** StepPattern, xpath_grammar.hpp:356: child:: or attribute::, and whether this is written out; a
    node test, predicates. *)
Record pstep := PStep { ps_attribute : bool; ps_spelled : bool; ps_test : test; ps_predicates : list expr }.
(** What stands between two steps, and what a pattern starts with, 346-353. *)
Inductive link := OneSlash | TwoSlashes.
Inductive start := Anywhere | FromRoot | Below.
(** LocationPathPattern, 346-348. *)
Inductive location := TheRoot | Steps (s : start) (first : pstep) (rest : list (link * pstep)).

(** * Predicates that ask for the position, xpath_match_rewrite.hpp *)
(** type() of an expression is NUMBER: xpath_value.hpp:119, xpath_arithmetic.hpp:92,
    xpath_expression_impl.hpp:19, and NumericXPathFunction, xpath_function.hpp:106. *)
Definition type_is_number (e : expr) : bool :=
  match e with
  | ENumber _ | EArith _ _ _ | ENegate _ => true
  | ECall g _ => match g with Position | Last | Count | StringLength | Number | Sum | Floor | Ceiling | Round => true | _ => false end
  | _ => false
  end.
(** PositionFnScanner, 44-67, and scan, xpath_expression.hpp:94, 234-238, 263-268.  Only unary
    and binary operators pass the scanner on: neither the arguments of a function nor the
    steps of a path are scanned. *)
Fixpoint finds_position (e : expr) : bool :=
  match e with
  | EOr a b | EAnd a b | ERel _ a b | EArith _ a b | EUnion a b => finds_position a || finds_position b
  | ENegate a => finds_position a
  | ECall g _ => match g with Position | Last => true | _ => false end
  | _ => false
  end.
(** should_rewrite, 76-86. *)
Definition should_rewrite (e : expr) : bool := type_is_number e || finds_position e.
(** A predicate, or the ReplacementExpression of several, 10-41. *)
Inductive mpred := Plain (e : expr) | Replaced (n : node_test) (qs : list mpred).
(** The loop of the MatchExpr constructor over the predicates of a step, 109-125: the first
    predicate to be rewritten, with all before it, becomes one ReplacementExpression (which is
    itself not rewritten), and so on.  Here the predicates are gone through once, from the
    left; [done] are those that now stand before the rest. *)
Fixpoint fold_predicates (n : node_test) (done : list mpred) (qs : list expr) : list mpred :=
  match qs with
  | [] => done
  | q :: r => fold_predicates n (if should_rewrite q then [Replaced n (done ++ [Plain q])] else done ++ [Plain q]) r
  end.
(** ReplacementExpression::evaluate, 25-36.  The child axis of no node is empty,
    xpath_axis_enumerator.hpp:325-329. *)
Fixpoint pred_value (k : env) (q : mpred) : expression :=
  match q with
  | Plain e => eval k e
  | Replaced n qs => fun x position last =>
      match parent (snd x) with
      | None => Got (VBool false)
      | Some p => andthen (enumerate_over (e_forest k) Child n (map (pred_value k) qs) (fst x, p) (new_set true))
                    (fun s => Got (VBool (existsb (fun y => Nat.eqb (fst x) (fst y) && path_eqb (snd x) (snd y)) (s_nodes s))))
      end
  end.

(** * The steps of a pattern *)
(** getTest, xpath_step.hpp:354-460, for a step of a pattern; node() is a NodeMatchPattern,
    428-432, xpath_grammar.hpp:361. *)
Definition pattern_test (p : pstep) : node_test :=
  match ps_test p with OfNode => NodeNodeTest | s => get_test (if ps_attribute p then Attribute else Self) s end.
(** getPatternAxis, xpath_parser.hpp:902-922, by what follows the step. *)
Definition axis_of (l : link) : axis := match l with OneSlash => Parent | TwoSlashes => AncestorOrSelf end.
(** The two steps createStepsFromPattern puts in front for a step of the pattern, 963-975. *)
Definition step_pair (k : env) (a : axis) (p : pstep) : list step :=
  [TestStep a (pattern_test p) (map (pred_value k) (fold_predicates (pattern_test p) [] (ps_predicates p)));
   TestStep Self (if ps_attribute p then AttributeNodeTest else NotAttributeNodeTest) []].
(** createStepsFromPattern, 924-977. *)
Fixpoint push_steps (k : env) (p : pstep) (rest : list (link * pstep)) (steps : list step) : list step :=
  match rest with
  | [] => step_pair k Self p ++ steps
  | (l, q) :: r => push_steps k q r (step_pair k (axis_of l) p ++ steps)
  end.
(** createPatternList, 979-1003, createRelativePathPattern, 815-819; createDocMatch, 796-801;
    createSingleMatchStep, 803-813, for a node test alone. *)
Definition location_steps (k : env) (p : location) : list step :=
  match p with
  | TheRoot => [TestStep Self RootNodeTest []]
  | Steps s first rest =>
      match s, ps_attribute first, ps_spelled first, ps_predicates first, rest with
      | Anywhere, false, false, [], [] => [TestStep Self NotAttributeNodeTest []; TestStep Self (pattern_test first) []]
      | _, _, _, _, _ => push_steps k first rest (match s with FromRoot => [TestStep Parent RootNodeTest []] | _ => [] end)
      end
  end.
(** MatchExpr::evaluate, xpath_match.hpp:25-29. *)
Definition location_matches (k : env) (p : location) (x : xnode) : answer bool :=
  andthen (relative_path (e_sort k) (e_forest k) (location_steps k p) x (-1) (-1)) (fun v => Got (as_bool v)).
(** A pattern is a list of these, createAlternatePattern, 821-835; each is tried by itself,
    with its own priority. *)
Fixpoint pattern_matches (k : env) (ps : list location) (x : xnode) : answer bool :=
  match ps with
  | [] => Got false
  | p :: r => andthen (location_matches k p x) (fun b => if b then Got true else pattern_matches k r x)
  end.
