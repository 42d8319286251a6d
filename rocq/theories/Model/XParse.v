(** The text of an XPath expression: the grammar of include/XPath/impl/xpath_grammar.hpp, the
    trees that Boost.Spirit (classic, ast_parse) makes of it, and the compilation of the trees in
    xpath_parser.hpp and xpath_step.hpp. *)
From Verif.Model Require Import Base XNode XAxis XCompare XStep XSort XEval.
From Coq Require Import String Floats.SpecFloat.
From Coq Require Import List. Import ListNotations. Open Scope Z_scope.

(** The rules, xpath_ast_ids.hpp:12-120, as far as the grammars use them. *)
Inductive rid :=
  | LocationPath_id | AbsoluteLocationPath_id | RelativeLocationPath_id | Step_id | AxisSpecifier_id
  | NodeTest_id | Predicate_id | PredicateExpr_id | AbbreviatedAbsoluteLocationPath_id
  | AbbreviatedStep_id | AbbreviatedAxisSpecifier_id | Expr_id | PrimaryExpr_id | FunctionCall_id
  | Argument_id | UnionExpr_id | PathExpr_id | FilterExpr_id | OrExpr_id | AndExpr_id
  | EqualityExpr_id | RelationalExpr_id | AdditiveExpr_id | MultiplicativeExpr_id | UnaryExpr_id
  | Literal_id | Number_id | Digits_id | MultiplyOperator_id | FunctionName_id
  | VariableReference_id | NameTest_id | S_id | NodeType_id | AxisName_id | QName_id | Prefix_id
  | LocalPart_id | NCName_id | NCNameChar_id | Slash_id | SlashSlash_id
  | AncestorOrSelf_id | Ancestor_id | Attribute_id | Child_id | DescendantOrSelf_id | Descendant_id
  | FollowingSibling_id | Following_id | Namespace_id | Parent_id | PrecedingSibling_id
  | Preceding_id | Self_id | Comment_id | Text_id | ProcessingInstruction_id | Node_id | AnyName_id
  | SelfSelect_id | ParentSelect_id | LeftSquare_id | RightSquare_id | LeftBracket_id
  | RightBracket_id | PlusOperator_id | MinusOperator_id | ModOperator_id | DivOperator_id
  | EqualsOperator_id | NotEqualsOperator_id | LessThanOperator_id | LessThanEqualsOperator_id
  | GreaterThanOperator_id | GreaterThanEqualsOperator_id | OrOperator_id | AndOperator_id
  | UnionOperator_id | UnaryMinusOperator_id
  | Pattern_id | LocationPathPattern_id | IdKeyPattern_id | RelativePathPattern_id | StepPattern_id
  | ChildOrAttributeAxisSpecifier_id | NodeMatchPattern_id
  | AttributeValueTemplate_id | DoubleLeftCurly_id | DoubleRightCurly_id | LeftCurly_id | RightCurly_id
  | EmbeddedExpr_id | AttrLiteral_id.

(** * Spirit's parsers *)
(** The parsers the grammar is put together of: ch_p, str_p, a class of characters, [a >> b],
    [a | b], [*a], [!a], [+a], [a - b], a rule, token_node_d[a] and discard_node_d[a]. *)
Inductive parser := Chr (c : Z) | Txt (s : str) | Class (f : Z -> bool) | Seq (a b : parser) | Alt (a b : parser)
  | Star (a : parser) | Opt (a : parser) | Many (a : parser) | Less (a b : parser) | Rule (r : rid)
  | Token (a : parser) | Discard (a : parser).
(** The nodes of an abstract syntax tree: a rule's identity (none, as yet, for what a character or
    a token made), text, children. *)
Inductive tree := Tree (id : option rid) (text : str) (kids : list tree).
Definition id_of (t : tree) : option rid := let (id, _, _) := t in id.
Definition text_of (t : tree) : str := let (_, s, _) := t in s.
Definition kids_of (t : tree) : list tree := let (_, _, l) := t in l.

(** std::isspace, isalpha and isdigit of the C locale. *)
Definition space_p (c : Z) : bool := (c =? 32) || ((9 <=? c) && (c <=? 13)).
Definition alpha_p (c : Z) : bool := ((65 <=? c) && (c <=? 90)) || ((97 <=? c) && (c <=? 122)).
Definition digit_p (c : Z) : bool := (48 <=? c) && (c <=? 57).

(** xpath_grammar.hpp:37-190; of patterns, 345-372; of attribute value templates, 403-411. *)
Local Notation "a >> b" := (Seq a b) (at level 45, left associativity).
Local Notation "a <|> b" := (Alt a b) (at level 46, left associativity).
Local Notation word s := (Txt (ascii_str s%string)).
Definition rule (r : rid) : parser :=
  match r with
  | LocationPath_id => Rule AbsoluteLocationPath_id <|> Rule RelativeLocationPath_id
  | AbsoluteLocationPath_id => Rule AbbreviatedAbsoluteLocationPath_id <|> Rule Slash_id >> Opt (Rule RelativeLocationPath_id)
  | RelativeLocationPath_id => Rule Step_id >> Star ((Rule SlashSlash_id <|> Discard (Rule Slash_id)) >> Rule Step_id)
  | Step_id => Rule AxisSpecifier_id >> Rule NodeTest_id >> Star (Rule Predicate_id) <|> Rule AbbreviatedStep_id
  | AxisSpecifier_id => Rule S_id >> (Rule AxisName_id >> Rule S_id >> word "::" <|> Rule AbbreviatedAxisSpecifier_id) >> Rule S_id
  | AxisName_id => Rule AncestorOrSelf_id <|> Rule Ancestor_id <|> Rule Attribute_id <|> Rule Child_id
      <|> Rule DescendantOrSelf_id <|> Rule Descendant_id <|> Rule FollowingSibling_id <|> Rule Following_id
      <|> Rule Namespace_id <|> Rule Parent_id <|> Rule PrecedingSibling_id <|> Rule Preceding_id <|> Rule Self_id
  | NodeTest_id => Rule S_id
      >> (Rule ProcessingInstruction_id >> Rule S_id >> Discard (Rule LeftBracket_id) >> Rule S_id >> Rule Literal_id >> Rule S_id >> Discard (Rule RightBracket_id)
          <|> Rule NodeType_id >> Rule S_id >> Discard (Rule LeftBracket_id) >> Rule S_id >> Discard (Rule RightBracket_id)
          <|> Rule NameTest_id)
      >> Rule S_id
  | Predicate_id => Rule S_id >> Rule LeftSquare_id >> Rule PredicateExpr_id >> Rule RightSquare_id >> Rule S_id
  | PredicateExpr_id => Rule Expr_id
  | AbbreviatedAbsoluteLocationPath_id => Rule SlashSlash_id >> Rule RelativeLocationPath_id
  | AbbreviatedStep_id => Rule ParentSelect_id <|> Rule SelfSelect_id
  | AbbreviatedAxisSpecifier_id => Opt (Chr 64)
  | Expr_id => Rule OrExpr_id
  | PrimaryExpr_id => Discard (Rule S_id)
      >> (Rule VariableReference_id <|> Rule Number_id <|> Rule FunctionCall_id
          <|> Discard (Rule LeftBracket_id) >> Rule S_id >> Rule Expr_id >> Rule S_id >> Discard (Rule RightBracket_id)
          <|> Rule Literal_id)
      >> Discard (Rule S_id)
  | FunctionCall_id => Rule FunctionName_id >> Rule S_id >> Rule LeftBracket_id
      >> Opt (Rule Argument_id >> Star (Discard (Chr 44) >> Rule S_id >> Rule Argument_id))
      >> Rule S_id >> Rule RightBracket_id >> Rule S_id
  | Argument_id => Rule Expr_id
  | UnionExpr_id => Rule PathExpr_id >> Star (Rule UnionOperator_id >> Rule PathExpr_id)
  | PathExpr_id => Discard (Rule S_id)
      >> (Rule FilterExpr_id >> Opt ((Rule SlashSlash_id <|> Rule Slash_id) >> Rule RelativeLocationPath_id)
          <|> Rule LocationPath_id)
      >> Discard (Rule S_id)
  | FilterExpr_id => Rule PrimaryExpr_id >> Star (Rule Predicate_id)
  | OrExpr_id => Rule AndExpr_id >> Star (Rule OrOperator_id >> Rule AndExpr_id)
  | AndExpr_id => Rule EqualityExpr_id >> Star (Rule AndOperator_id >> Rule EqualityExpr_id)
  | EqualityExpr_id => Rule RelationalExpr_id >> Star ((Rule EqualsOperator_id <|> Rule NotEqualsOperator_id) >> Rule RelationalExpr_id)
  | RelationalExpr_id => Rule AdditiveExpr_id
      >> Star ((Rule LessThanEqualsOperator_id <|> Rule GreaterThanEqualsOperator_id <|> Rule LessThanOperator_id <|> Rule GreaterThanOperator_id) >> Rule AdditiveExpr_id)
  | AdditiveExpr_id => Rule MultiplicativeExpr_id >> Star ((Rule PlusOperator_id <|> Rule MinusOperator_id) >> Rule MultiplicativeExpr_id)
  | MultiplicativeExpr_id => Rule UnaryExpr_id >> Star ((Rule MultiplyOperator_id <|> Rule DivOperator_id <|> Rule ModOperator_id) >> Rule UnaryExpr_id)
  | UnaryExpr_id => Discard (Rule S_id) >> Star (Rule UnaryMinusOperator_id) >> Rule UnionExpr_id
  | Literal_id => Discard (Chr 34) >> Token (Star (Class (fun c => negb (c =? 34)))) >> Discard (Chr 34)
      <|> Discard (Chr 39) >> Token (Star (Class (fun c => negb (c =? 39)))) >> Discard (Chr 39)
  | Number_id => Token (Chr 46 >> Rule Digits_id <|> Rule Digits_id >> Opt (Chr 46 >> Star (Rule Digits_id)))
  | Digits_id => Token (Many (Class digit_p))
  | MultiplyOperator_id => Chr 42
  | FunctionName_id => Less (Rule QName_id) (Rule NodeType_id)
  | VariableReference_id => Chr 36 >> Rule QName_id
  | NameTest_id => Rule AnyName_id <|> Rule NCName_id >> Discard (Chr 58) >> Rule AnyName_id <|> Rule QName_id
  | NodeType_id => Rule Comment_id <|> Rule Text_id <|> Rule ProcessingInstruction_id <|> Rule Node_id
  | S_id => Star (Class space_p)
  | QName_id => Opt (Rule Prefix_id >> Discard (Chr 58)) >> Rule LocalPart_id
  | Prefix_id => Rule NCName_id
  | LocalPart_id => Rule NCName_id
  | NCName_id => Token ((Class alpha_p <|> Chr 95) >> Star (Rule NCNameChar_id))
  | NCNameChar_id => Class alpha_p <|> Class digit_p <|> Chr 46 <|> Chr 45 <|> Chr 95
  | Slash_id => Chr 47
  | SlashSlash_id => word "//"
  | AncestorOrSelf_id => word "ancestor-or-self"
  | Ancestor_id => word "ancestor"
  | Attribute_id => word "attribute"
  | Child_id => word "child"
  | DescendantOrSelf_id => word "descendant-or-self"
  | Descendant_id => word "descendant"
  | FollowingSibling_id => word "following-sibling"
  | Following_id => word "following"
  | Namespace_id => word "namespace"
  | Parent_id => word "parent"
  | PrecedingSibling_id => word "preceding-sibling"
  | Preceding_id => word "preceding"
  | Self_id => word "self"
  | Comment_id => word "comment"
  | Text_id => word "text"
  | ProcessingInstruction_id => word "processing-instruction"
  | Node_id => word "node"
  | AnyName_id => Chr 42
  | SelfSelect_id => Chr 46
  | ParentSelect_id => word ".."
  | LeftSquare_id => Chr 91
  | RightSquare_id => Chr 93
  | LeftBracket_id => Chr 40
  | RightBracket_id => Chr 41
  | PlusOperator_id => Chr 43
  | MinusOperator_id => Chr 45
  | ModOperator_id => word "mod"
  | DivOperator_id => word "div"
  | EqualsOperator_id => Chr 61
  | NotEqualsOperator_id => word "!="
  | LessThanOperator_id => Chr 60
  | LessThanEqualsOperator_id => word "<="
  | GreaterThanOperator_id => Chr 62
  | GreaterThanEqualsOperator_id => word ">="
  | OrOperator_id => word "or"
  | AndOperator_id => word "and"
  | UnionOperator_id => Chr 124
  | UnaryMinusOperator_id => Chr 45
  | Pattern_id => Discard (Rule S_id) >> Rule LocationPathPattern_id >> Discard (Rule S_id)
      >> Star (Rule UnionOperator_id >> Discard (Rule S_id) >> Rule LocationPathPattern_id >> Discard (Rule S_id))
  | LocationPathPattern_id => Rule IdKeyPattern_id >> Opt ((Rule SlashSlash_id <|> Rule Slash_id) >> Rule RelativePathPattern_id)
      <|> Opt (Rule SlashSlash_id) >> Rule RelativePathPattern_id
      <|> Rule Slash_id >> Opt (Rule RelativePathPattern_id)
  | IdKeyPattern_id => word "id" >> Rule LeftBracket_id >> Discard (Rule S_id) >> Rule Literal_id >> Discard (Rule S_id) >> Rule RightBracket_id
      <|> word "key" >> Rule LeftBracket_id >> Discard (Rule S_id) >> Rule Literal_id >> Discard (Rule S_id) >> Discard (Chr 44)
          >> Discard (Rule S_id) >> Rule Literal_id >> Discard (Rule S_id) >> Rule RightBracket_id
  | RelativePathPattern_id => Rule StepPattern_id >> Star ((Rule SlashSlash_id <|> Rule Slash_id) >> Rule StepPattern_id)
  | StepPattern_id => Rule ChildOrAttributeAxisSpecifier_id >> (Rule NodeMatchPattern_id <|> Rule NodeTest_id) >> Star (Rule Predicate_id)
  | ChildOrAttributeAxisSpecifier_id => (Rule Child_id <|> Rule Attribute_id) >> Discard (word "::") <|> Rule AbbreviatedAxisSpecifier_id
  | NodeMatchPattern_id => word "node()"
  | AttributeValueTemplate_id => (Rule DoubleLeftCurly_id <|> Rule DoubleRightCurly_id <|> Rule EmbeddedExpr_id <|> Rule AttrLiteral_id)
      >> Star (Rule DoubleLeftCurly_id <|> Rule DoubleRightCurly_id <|> Rule EmbeddedExpr_id <|> Rule AttrLiteral_id)
  | DoubleLeftCurly_id => word "{{"
  | DoubleRightCurly_id => word "}}"
  | LeftCurly_id => Chr 123
  | RightCurly_id => Chr 125
  | EmbeddedExpr_id => Rule LeftCurly_id >> Rule Expr_id >> Rule RightCurly_id
  | AttrLiteral_id => Token (Class (fun c => negb ((c =? 123) || (c =? 125))) >> Star (Class (fun c => negb ((c =? 123) || (c =? 125)))))
  end.

(** tree_match_policy::concat_match: a match of no characters is forgotten, with its trees. *)
Definition consumed (s rest : str) : nat := (length s - length rest)%nat.
Definition joined (s : str) (a : list tree) (s1 : str) (b : list tree) (s2 : str) : list tree :=
  if (consumed s s1 =? 0)%nat then b else if (consumed s1 s2 =? 0)%nat then a else a ++ b.
(** ast_tree_policy::group_match: a single tree stands for the rule, and keeps its identity if it
    has one; otherwise a new node, without text, takes the trees as its children. *)
Definition claim (r : rid) (t : tree) : tree := match t with Tree None s l => Tree (Some r) s l | _ => t end.
Definition group (r : rid) (ts : list tree) : list tree :=
  match ts with [t] => [claim r t] | _ => [Tree (Some r) [] (map (claim r) ts)] end.
Fixpoint strip_prefix (p s : str) : option str :=
  match p, s with
  | [], _ => Some s
  | c :: p, d :: s => if c =? d then strip_prefix p s else None
  | _ :: _, [] => None
  end.
(** parse: the trees and what is left of the text, or no match.  There is no way back into an
    alternative, an option or a repetition once it has matched.  (Spirit goes on for ever in a
    repetition of empty matches; here the fuel runs out.) *)
Definition parsed := option (list tree * str).
Fixpoint parse (n : nat) (p : parser) (s : str) {struct n} : outcome parsed :=
  match n with
  | O => Base.NoFuel
  | S n =>
      match p with
      | Chr c => Val (match s with d :: r => if c =? d then Some ([Tree None [d] []], r) else None | [] => None end)
      | Class f => Val (match s with d :: r => if f d then Some ([Tree None [d] []], r) else None | [] => None end)
      | Txt w => Val (match strip_prefix w s with Some r => Some ([Tree None w []], r) | None => None end)
      | Seq a b =>
          obind (parse n a s) (fun x => match x with
          | None => Val None
          | Some (ta, s1) => obind (parse n b s1) (fun y => match y with
              | None => Val None
              | Some (tb, s2) => Val (Some (joined s ta s1 tb s2, s2))
              end)
          end)
      | Alt a b => obind (parse n a s) (fun x => match x with None => parse n b s | Some _ => Val x end)
      | Star a =>
          obind (parse n a s) (fun x => match x with
          | None => Val (Some ([], s))
          | Some (ta, s1) => obind (parse n (Star a) s1) (fun y => match y with
              | None => Val None
              | Some (tb, s2) => Val (Some (joined s ta s1 tb s2, s2))
              end)
          end)
      | Opt a => obind (parse n a s) (fun x => match x with None => Val (Some ([], s)) | Some _ => Val x end)
      | Many a => parse n (Seq a (Star a)) s
      | Less a b =>
          obind (parse n a s) (fun x => match x with
          | None => Val None
          | Some (ta, s1) => obind (parse n b s) (fun y => match y with
              | Some (_, s2) => Val (if (consumed s s2 <? consumed s s1)%nat then x else None)
              | None => Val x
              end)
          end)
      | Rule r => obind (parse n (rule r) s) (fun x => match x with None => Val None | Some (ts, s1) => Val (Some (group r ts, s1)) end)
      | Token a => obind (parse n a s) (fun x => match x with None => Val None | Some (_, s1) => Val (Some ([Tree None (firstn (consumed s s1) s) []], s1)) end)
      | Discard a => obind (parse n a s) (fun x => match x with None => Val None | Some (_, s1) => Val (Some ([], s1)) end)
      end
  end.

(** * Compilation *)
(** What a compilation uses: NamespaceContext::namespaceURI, which may throw, and
    boost::lexical_cast<double>. *)
Record lexicon := Lexicon { l_uri : str -> option str; l_double : str -> option spec_float }.
(** FunctionLookupTable, xpath_function_holder.hpp:73-107. *)
Definition function_table : list (str * fn) :=
  [(ascii_str "position", Position); (ascii_str "last", Last); (ascii_str "count", Count);
   (ascii_str "local-name", LocalName); (ascii_str "namespace-uri", NamespaceUri); (ascii_str "name", Name);
   (ascii_str "string", String_); (ascii_str "concat", Concat); (ascii_str "starts-with", StartsWith);
   (ascii_str "contains", Contains); (ascii_str "substring-before", SubstringBefore); (ascii_str "substring-after", SubstringAfter);
   (ascii_str "substring", Substring); (ascii_str "string-length", StringLength); (ascii_str "normalize-space", NormalizeSpace);
   (ascii_str "translate", Translate); (ascii_str "boolean", Boolean); (ascii_str "not", Not); (ascii_str "true", True_);
   (ascii_str "false", False_); (ascii_str "number", Number); (ascii_str "sum", Sum); (ascii_str "floor", Floor);
   (ascii_str "ceiling", Ceiling); (ascii_str "round", Round)].
Fixpoint look_function (name : str) (l : list (str * fn)) : option fn :=
  match l with [] => None | (m, g) :: r => if str_eqb name m then Some g else look_function name r end.
(** FunctionHolder::createFunction, 143-172, with the NullFunctionResolver; the constructors
    throw if the number of arguments is wrong (xpath_function.hpp:21-27). *)
Definition create_function (uri name : str) (args : list expr) : answer expr :=
  match uri, look_function name function_table with
  | [], Some g => if arity_ok g (length args) then Got (ECall g args) else Raises
  | _, _ => Raises
  end.
(** createBinaryExpression, xpath_parser.hpp:625-671. *)
Definition operator (id : option rid) : option (expr -> expr -> expr) :=
  match id with
  | Some PlusOperator_id => Some (EArith Plus)
  | Some MinusOperator_id => Some (EArith Minus)
  | Some MultiplyOperator_id => Some (EArith Multiply)
  | Some DivOperator_id => Some (EArith Divide)
  | Some ModOperator_id => Some (EArith Mod)
  | Some EqualsOperator_id => Some (ERel OpEq)
  | Some NotEqualsOperator_id => Some (ERel OpNe)
  | Some LessThanOperator_id => Some (ERel OpLt)
  | Some LessThanEqualsOperator_id => Some (ERel OpLe)
  | Some GreaterThanOperator_id => Some (ERel OpGt)
  | Some GreaterThanEqualsOperator_id => Some (ERel OpGe)
  | Some OrOperator_id => Some EOr
  | Some AndOperator_id => Some EAnd
  | Some UnionOperator_id => Some EUnion
  | _ => None
  end.
(** skipWhitespace, xpath_ast.hpp:40-47.  An iterator over siblings is the list of those from it
    on; what follows the last is not looked at. *)
Fixpoint skip_white (l : list tree) : list tree :=
  match l with t :: r => match id_of t with Some S_id => skip_white r | _ => l end | [] => [] end.
(** getAxis, xpath_step.hpp:276-338: the axis, and the iterator moved on. *)
Definition axis_named (id : option rid) : option axis :=
  match id with
  | Some AbbreviatedAxisSpecifier_id | Some Attribute_id => Some Attribute
  | Some AncestorOrSelf_id => Some AncestorOrSelf
  | Some Ancestor_id => Some Ancestor
  | Some Child_id => Some Child
  | Some DescendantOrSelf_id => Some DescendantOrSelf
  | Some Descendant_id => Some Descendant
  | Some FollowingSibling_id => Some FollowingSibling
  | Some Following_id => Some Following
  | Some Namespace_id => Some Namespace
  | Some Parent_id => Some Parent
  | Some PrecedingSibling_id => Some PrecedingSibling
  | Some Preceding_id => Some Preceding
  | Some Self_id => Some Self
  | _ => None
  end.
Definition own_axis (id : option rid) : axis :=
  match id with
  | Some Slash_id | Some SelfSelect_id => Self
  | Some ParentSelect_id => Parent
  | Some SlashSlash_id => DescendantOrSelf
  | _ => match axis_named id with Some a => a | None => Child end
  end.
Definition get_axis (l : list tree) : answer (axis * list tree) :=
  match l with
  | [] => Broken
  | t :: r =>
      match id_of t with
      | Some AxisSpecifier_id => match skip_white (kids_of t) with [] => Broken | u :: _ => Got (own_axis (id_of u), r) end
      | id => match axis_named id with Some a => Got (a, r) | None => Got (own_axis id, l) end
      end
  end.
(** getTest, 354-460 (the class that the axis makes of the test is XStep.get_test): no test for
    what is none, and the iterator moved on.  The test that a single Slash gives is dealt with at
    compile, below. *)
Definition is_literal (l : list tree) : option str :=
  match l with t :: _ => match id_of t with Some Literal_id => Some (text_of t) | _ => None end | [] => None end.
Definition qualified (x : lexicon) (l : list tree) : answer (str * str * str) :=
  match l with
  | p :: m :: _ => match l_uri x (text_of p) with Some uri => Got (text_of p, uri, text_of m) | None => Raises end
  | _ => Broken
  end.
Definition leaf_test (x : lexicon) (l : list tree) : answer (option test * list tree) :=
  match l with
  | [] => Broken
  | t :: r =>
      match id_of t with
      | Some QName_id => andthen (qualified x (kids_of t)) (fun '(prefix, uri, name) => Got (Some (NamedIn prefix uri name), r))
      | Some NCName_id => Got (Some (Named (text_of t)), r)
      | Some Comment_id => Got (Some OfComment, r)
      | Some Text_id => Got (Some OfText, r)
      | Some ProcessingInstruction_id =>
          match is_literal r with Some target => Got (Some (OfPi target), tl r) | None => Got (Some (OfPi []), r) end
      | Some SlashSlash_id | Some SelfSelect_id | Some ParentSelect_id | Some Node_id => Got (Some OfNode, r)
      | Some AnyName_id => Got (Some Any, r)
      | Some NameTest_id =>
          match kids_of t with
          | p :: _ => match l_uri x (text_of p) with Some uri => Got (Some (AnyIn (text_of p) uri), r) | None => Raises end
          | [] => Broken
          end
      | _ => Got (None, l)
      end
  end.
Definition read_test (x : lexicon) (l : list tree) : answer (option test * list tree) :=
  match skip_white l with
  | [] => Broken
  | t :: r =>
      match id_of t with
      | Some NodeTest_id => andthen (leaf_test x (skip_white (kids_of t))) (fun '(o, _) => Got (o, r))
      | _ => leaf_test x (t :: r)
      end
  end.
(** createSingleStep, 249-269, as createSingleStepRelativeLocationPath uses it. *)
Definition single_step (x : lexicon) (l : list tree) : answer (step_of expr) :=
  andthen (get_axis l) (fun '(a, l) => andthen (read_test x l) (fun '(o, _) =>
    match o with Some s => Got (AxisStep a s []) | None => Broken end)).

(** compile_expression and the functions of init_createFunctions, xpath_parser.hpp:230-365,
    530-735; createStepList, 737-782; createStep, createFilter and createPredicates,
    xpath_step.hpp:206-247, 340-362.  [l] is the iterator and the siblings that follow.
    createSingleStepAbsoluteLocationPath makes of a single Slash the absolute path of the step
    SELF with RootNodeTest, which keeps the root it starts from: a path of no steps here. *)
Fixpoint compile (n : nat) (x : lexicon) (l : list tree) {struct n} : answer expr :=
  match n with
  | O => Starved
  | S n =>
      match l with
      | [] => Broken
      | t :: r =>
          match id_of t with
          | Some AbsoluteLocationPath_id | Some AbbreviatedAbsoluteLocationPath_id =>
              andthen (step_list n x (kids_of t)) (fun steps => Got (EPath true steps))
          | Some RelativeLocationPath_id | Some Step_id | Some PathExpr_id =>
              andthen (step_list n x (kids_of t)) (fun steps => Got (EPath false steps))
          | Some FilterExpr_id => andthen (filter_step n x t) (fun s => Got (EPath false [s]))
          | Some PrimaryExpr_id => compile n x (skip_white (kids_of t))
          | Some FunctionCall_id => function_call n x (kids_of t)
          | Some AdditiveExpr_id | Some MultiplicativeExpr_id | Some EqualityExpr_id | Some RelationalExpr_id
          | Some OrExpr_id | Some AndExpr_id | Some UnionExpr_id =>
              andthen (compile n x (kids_of t)) (fun e => binary n x e (tl (kids_of t)))
          | Some Literal_id => Got (ELiteral (text_of t))
          | Some Number_id | Some Digits_id => match l_double x (text_of t) with Some d => Got (ENumber d) | None => Raises end
          | Some VariableReference_id =>
              match tl (kids_of t) with
              | [] => Broken
              | m :: _ =>
                  match id_of m with
                  | Some QName_id => andthen (qualified x (kids_of m)) (fun '(_, uri, name) => Got (EVariable uri name))
                  | _ => Got (EVariable [] (text_of m))
                  end
              end
          | Some NodeTest_id | Some NameTest_id | Some QName_id | Some NCName_id | Some AnyName_id | Some Text_id
          | Some Comment_id | Some ProcessingInstruction_id | Some Node_id | Some SelfSelect_id | Some ParentSelect_id =>
              andthen (single_step x l) (fun s => Got (EPath false [s]))
          | Some Slash_id => Got (EPath true [])
          | Some UnaryExpr_id => compile n x (kids_of t)
          | Some UnaryMinusOperator_id => andthen (compile n x r) (fun e => Got (ENegate e))
          | _ => Raises
          end
      end
  end
with step_list (n : nat) (x : lexicon) (l : list tree) {struct n} : answer (list (step_of expr)) :=
  match n with
  | O => Starved
  | S n =>
      match l with
      | [] => Got []
      | t :: r =>
          match id_of t with
          | Some S_id | Some Slash_id => step_list n x r
          | Some FilterExpr_id => andthen (filter_step n x t) (fun s => andthen (step_list n x r) (fun l => Got (s :: l)))
          | Some RelativeLocationPath_id => andthen (step_list n x (kids_of t)) (fun a => andthen (step_list n x r) (fun b => Got (a ++ b)))
          | Some Step_id => andthen (create_step n x (kids_of t)) (fun '(s, _) => andthen (step_list n x r) (fun l => Got (s :: l)))
          | _ => andthen (create_step n x l) (fun '(s, after) => andthen (step_list n x after) (fun l => Got (s :: l)))
          end
      end
  end
with create_step (n : nat) (x : lexicon) (l : list tree) {struct n} : answer (step_of expr * list tree) :=
  match n with
  | O => Starved
  | S n =>
      andthen (get_axis l) (fun '(a, l) => andthen (read_test x l) (fun '(o, l) =>
      match o with
      | Some s => andthen (predicates n x l) (fun '(qs, after) => Got (AxisStep a s qs, after))
      | None => andthen (compile n x l) (fun e => andthen (predicates n x (tl l)) (fun '(qs, after) => Got (FilterStep e qs, after)))
      end))
  end
with filter_step (n : nat) (x : lexicon) (t : tree) {struct n} : answer (step_of expr) :=
  match n with
  | O => Starved
  | S n => andthen (compile n x (kids_of t)) (fun e => andthen (predicates n x (tl (kids_of t))) (fun '(qs, _) => Got (FilterStep e qs)))
  end
with predicates (n : nat) (x : lexicon) (l : list tree) {struct n} : answer (list expr * list tree) :=
  match n with
  | O => Starved
  | S n =>
      match l with
      | t :: r =>
          match id_of t with
          | Some Predicate_id => andthen (compile n x (tl (kids_of t))) (fun e => andthen (predicates n x r) (fun '(qs, after) => Got (e :: qs, after)))
          | _ => Got ([], l)
          end
      | [] => Got ([], [])
      end
  end
with function_call (n : nat) (x : lexicon) (l : list tree) {struct n} : answer expr :=
  match n with
  | O => Starved
  | S n =>
      match l with
      | [] => Broken
      | m :: r =>
          andthen (match id_of m with
                   | Some QName_id => andthen (qualified x (kids_of m)) (fun '(_, uri, name) => Got (uri, name))
                   | _ => Got ([], text_of m)
                   end) (fun '(uri, name) =>
          andthen (arguments n x (skip_white (tl (skip_white r)))) (fun args => create_function uri name args))
      end
  end
with arguments (n : nat) (x : lexicon) (l : list tree) {struct n} : answer (list expr) :=
  match n with
  | O => Starved
  | S n =>
      match l with
      | [] => Broken
      | t :: r =>
          match id_of t with
          | Some RightBracket_id => Got []
          | _ => andthen (compile n x l) (fun e => andthen (arguments n x (skip_white r)) (fun args => Got (e :: args)))
          end
      end
  end
with binary (n : nat) (x : lexicon) (e : expr) (l : list tree) {struct n} : answer expr :=
  match n with
  | O => Starved
  | S n =>
      match l with
      | [] => Broken
      | t :: r =>
          andthen (compile n x r) (fun b =>
          match operator (id_of t) with
          | None => Raises
          | Some op => match tl r with [] => Got (op e b) | after => binary n x (op e b) after end
          end)
      end
  end.

(** XPath::compile_expr and XPath::compile, 80-88, with do_compile, 142-172: an expression, and a
    location path alone. *)
Definition compile_text (r : rid) (n : nat) (x : lexicon) (s : str) : answer expr :=
  match parse n (Rule r) s with
  | Base.NoFuel => Starved
  | Val (Some (ts, [])) => compile n x ts
  | _ => Raises
  end.
Definition compile_expr (n : nat) (x : lexicon) (s : str) : answer expr := compile_text Expr_id n x s.
Definition compile_path (n : nat) (x : lexicon) (s : str) : answer expr := compile_text LocationPath_id n x s.

(** * Attribute value templates *)
(** createEmbeddedExpr, createDoubleLeftCurly, createDoubleRightCurly and createLiteral by
    init_attributeValueCreateFunctions, 378-390, 682-687, 1023-1041. *)
Definition template_part (n : nat) (x : lexicon) (t : tree) : answer expr :=
  match id_of t with
  | Some DoubleLeftCurly_id => Got (ELiteral [123])
  | Some DoubleRightCurly_id => Got (ELiteral [125])
  | Some EmbeddedExpr_id => match kids_of t with [] => Broken | _ :: r => compile n x r end
  | Some AttrLiteral_id => Got (ELiteral (text_of t))
  | _ => Raises
  end.
Fixpoint template_parts (n : nat) (x : lexicon) (l : list tree) : answer (list expr) :=
  match l with
  | [] => Got []
  | t :: r => andthen (template_part n x t) (fun e => andthen (template_parts n x r) (fun es => Got (e :: es)))
  end.
(** compile_attribute_value_template, 89-92, with do_compile; createAttributeValue, 1006-1021. *)
Definition compile_template (n : nat) (x : lexicon) (s : str) : answer expr :=
  match parse n (Rule AttributeValueTemplate_id) s with
  | Base.NoFuel => Starved
  | Val (Some (ts, [])) =>
      match ts with
      | [] => Broken
      | t :: _ =>
          match id_of t with
          | Some AttributeValueTemplate_id => andthen (template_parts n x (kids_of t)) (fun es => create_function [] (ascii_str "concat") es)
          | _ => template_part n x t
          end
      end
  | _ => Raises
  end.
(** XPathExpression::evaluateAsString, xpath_expression.hpp:83-87. *)
Definition evaluate_text (k : env) (e : expr) (x : xnode) (position last : Z) : answer str :=
  andthen (evaluate k e x position last) (to_text k).
