(** How XPath 1.0 (sections 2 and 3) writes expressions as text.  Each rule says what is written,
    and the expression it stands for.  The names are those of ASCII; a rule says so where it has
    less than the recommendation. *)
From Verif.Model Require Import Base XNode XAxis XCompare XStep XSort XEval.
From Coq Require Import String Floats.SpecFloat.
From Coq Require Import List. Import ListNotations. Open Scope Z_scope.

(** * Characters and tokens *)
(** ExprWhitespace, [39]. *)
Definition blank (w : str) : Prop := Forall (fun c => In c [32; 9; 10; 13]) w.
Definition letter (c : Z) : Prop := 65 <= c <= 90 \/ 97 <= c <= 122.
Definition digit (c : Z) : Prop := 48 <= c <= 57.
Definition starts_name (c : Z) : Prop := letter c \/ c = 95.
Definition in_name (c : Z) : Prop := letter c \/ digit c \/ c = 46 \/ c = 45 \/ c = 95.
Inductive ncname : str -> Prop := name_of c r : starts_name c -> Forall in_name r -> ncname (c :: r).
(** Number, [30]. *)
Definition digits (s : str) : Prop := s <> [] /\ Forall digit s.
Inductive numeral : str -> Prop :=
  | whole a : digits a -> numeral a
  | pointed a b : digits a -> Forall digit b -> numeral (a ++ 46 :: b)
  | fraction b : digits b -> numeral (46 :: b).
(** Literal, [29]. *)
Inductive literal : str -> str -> Prop :=
  | quoted q s : q = 34 \/ q = 39 -> ~ In q s -> literal (q :: s ++ [q]) s.
Definition begins (P : Z -> Prop) (s : str) : Prop := exists c r, s = c :: r /\ P c.
(** A text that ends in a name: what is written next to it must not go on with the name.  A text
    that ends in a slash is the root written alone: a name or a star next to it would be its first
    step. *)
Definition ends_in_name (s : str) : Prop := exists a n, s = a ++ n /\ ncname n.
Definition ends_in_slash (s : str) : Prop := exists a w, s = a ++ 47 :: w /\ blank w.

(** The functions of section 4 (but for id and lang, which the toolkit does not have). *)
Definition function_name (g : fn) : str :=
  match g with
  | Position => ascii_str "position" | Last => ascii_str "last" | Count => ascii_str "count"
  | LocalName => ascii_str "local-name" | NamespaceUri => ascii_str "namespace-uri" | Name => ascii_str "name"
  | String_ => ascii_str "string" | Concat => ascii_str "concat" | StartsWith => ascii_str "starts-with"
  | Contains => ascii_str "contains" | SubstringBefore => ascii_str "substring-before"
  | SubstringAfter => ascii_str "substring-after" | Substring => ascii_str "substring"
  | StringLength => ascii_str "string-length" | NormalizeSpace => ascii_str "normalize-space"
  | Translate => ascii_str "translate" | Boolean => ascii_str "boolean" | Not => ascii_str "not"
  | True_ => ascii_str "true" | False_ => ascii_str "false" | Number => ascii_str "number" | Sum => ascii_str "sum"
  | Floor => ascii_str "floor" | Ceiling => ascii_str "ceiling" | Round => ascii_str "round"
  end.
(** AxisName, [6]. *)
Definition axis_name (a : axis) : str :=
  match a with
  | Ancestor => ascii_str "ancestor" | AncestorOrSelf => ascii_str "ancestor-or-self" | Attribute => ascii_str "attribute"
  | Child => ascii_str "child" | Descendant => ascii_str "descendant" | DescendantOrSelf => ascii_str "descendant-or-self"
  | Following => ascii_str "following" | FollowingSibling => ascii_str "following-sibling" | Namespace => ascii_str "namespace"
  | Parent => ascii_str "parent" | Preceding => ascii_str "preceding" | PrecedingSibling => ascii_str "preceding-sibling"
  | Self => ascii_str "self"
  end.

(** * Operators, [21] to [27], from the loosest to the tightest *)
Inductive level := OrLevel | AndLevel | EqualityLevel | RelationalLevel | AdditiveLevel | MultiplicativeLevel | UnaryLevel | UnionLevel | PathLevel.
Inductive infix : level -> level -> str -> (expr -> expr -> expr) -> Prop :=
  | in_or : infix OrLevel AndLevel (ascii_str "or") EOr
  | in_and : infix AndLevel EqualityLevel (ascii_str "and") EAnd
  | in_eq : infix EqualityLevel RelationalLevel (ascii_str "=") (ERel OpEq)
  | in_ne : infix EqualityLevel RelationalLevel (ascii_str "!=") (ERel OpNe)
  | in_lt : infix RelationalLevel AdditiveLevel (ascii_str "<") (ERel OpLt)
  | in_le : infix RelationalLevel AdditiveLevel (ascii_str "<=") (ERel OpLe)
  | in_gt : infix RelationalLevel AdditiveLevel (ascii_str ">") (ERel OpGt)
  | in_ge : infix RelationalLevel AdditiveLevel (ascii_str ">=") (ERel OpGe)
  | in_plus : infix AdditiveLevel MultiplicativeLevel (ascii_str "+") (EArith Plus)
  | in_minus : infix AdditiveLevel MultiplicativeLevel (ascii_str "-") (EArith Minus)
  | in_times : infix MultiplicativeLevel UnaryLevel (ascii_str "*") (EArith Multiply)
  | in_div : infix MultiplicativeLevel UnaryLevel (ascii_str "div") (EArith Divide)
  | in_mod : infix MultiplicativeLevel UnaryLevel (ascii_str "mod") (EArith Mod)
  | in_union : infix UnionLevel PathLevel (ascii_str "|") EUnion.
Inductive tighter : level -> level -> Prop :=
  | by_infix l m op f : infix l m op f -> tighter l m
  | by_minus : tighter UnaryLevel UnionLevel.
(** What is on the two sides of an operator must not run into it. *)
Definition apart (s op t : str) : Prop :=
  (begins in_name op -> ~ ends_in_name s) /\
  (begins letter op -> ~ begins in_name t) /\
  (begins (fun c => starts_name c \/ c = 42) op -> ~ ends_in_slash s).

(** * Paths *)
(** AbbreviatedStep and the "//" between steps, section 2.5. *)
Definition self_step : step_of expr := AxisStep Self OfNode [].
Definition parent_step : step_of expr := AxisStep Parent OfNode [].
Definition any_depth : step_of expr := AxisStep DescendantOrSelf OfNode [].
Inductive separator : str -> list (step_of expr) -> Prop :=
  | slash : separator [47] []
  | slash_slash : separator [47; 47] [any_depth].
(** AxisSpecifier, [5] and [13]. *)
Inductive axis_written : str -> axis -> Prop :=
  | default_axis : axis_written [] Child
  | at_sign w : blank w -> axis_written (64 :: w) Attribute
  | axis_in_full a w v : blank w -> blank v -> axis_written (axis_name a ++ w ++ [58; 58] ++ v) a.
Definition kind_name (s : test) : option str :=
  match s with OfNode => Some (ascii_str "node") | OfText => Some (ascii_str "text") | OfComment => Some (ascii_str "comment")
  | OfPi [] => Some (ascii_str "processing-instruction") | _ => None end.
Section with_context.
(** The namespaces that the prefixes stand for, and the number nearest to a numeral. *)
Context (uri : str -> option str) (number : str -> option spec_float).
(** NodeTest, [7] and [37].  (A blank before the target of a processing instruction is left out,
    and so is the empty target.) *)
Inductive test_written : str -> test -> Prop :=
  | name_test n : ncname n -> test_written n (Named n)
  | prefixed_test p u n : ncname p -> ncname n -> uri p = Some u -> test_written (p ++ 58 :: n) (NamedIn p u n)
  | star_test : test_written [42] Any
  | prefixed_star p u : ncname p -> uri p = Some u -> test_written (p ++ [58; 42]) (AnyIn p u)
  | kind_test s k w v : kind_name s = Some k -> blank w -> blank v -> test_written (k ++ w ++ 40 :: v ++ [41]) s
  | target_test l t w : literal l t -> t <> [] -> blank w -> test_written (ascii_str "processing-instruction" ++ 40 :: l ++ w ++ [41]) (OfPi t).

(** What the toolkit makes of [(a/b)/c] may be [a/b/c]: paths are compared with such parentheses
    left out. *)
Fixpoint flat (e : expr) : expr :=
  match e with
  | ENumber _ | ELiteral _ | EVariable _ _ => e
  | EOr a b => EOr (flat a) (flat b)
  | EAnd a b => EAnd (flat a) (flat b)
  | ERel op a b => ERel op (flat a) (flat b)
  | EArith op a b => EArith op (flat a) (flat b)
  | ENegate a => ENegate (flat a)
  | EUnion a b => EUnion (flat a) (flat b)
  | ECall g args => ECall g (map flat args)
  | EPath absolute steps =>
      let keep := fun s => match s with AxisStep a s qs => AxisStep a s (map flat qs) | FilterStep e qs => FilterStep (flat e) (map flat qs) end in
      EPath absolute (match absolute, steps with
        | false, FilterStep e [] :: r => match flat e with EPath false (s :: l) => s :: l | e => [FilterStep e []] end ++ map keep r
        | _, l => map keep l
        end)
  end.
(** All the processing instructions there are; then a literal as the next argument is left out. *)
Definition all_pis (e : expr) : Prop := flat e = EPath false [AxisStep Child (OfPi []) []].
Definition first_is_literal (l : list expr) : Prop := exists s r, l = ELiteral s :: r.

(** * Expressions *)
Inductive written : level -> str -> expr -> Prop :=
  | at_tighter l m s e : tighter l m -> written m s e -> written l s e
  | with_infix l m op f s a t b : infix l m op f -> written l s a -> written m t b -> apart s op t -> written l (s ++ op ++ t) (f a b)
  (** UnaryExpr, [27].  (Blanks between minus signs are left out.) *)
  | with_minus w k s e : blank w -> written UnionLevel s e -> written UnaryLevel (w ++ repeat 45 (S k) ++ s) (Nat.iter (S k) ENegate e)
  | with_path w s e : blank w -> path_written s e -> written PathLevel (w ++ s) e
(** LocationPath, [1] to [3] and [10] to [12]; PathExpr and FilterExpr, [19] and [20].  (A blank
    before "." or "..", or after one that is not the last step, is left out; so is the root in
    parentheses as the beginning of a path.) *)
with path_written : str -> expr -> Prop :=
  | the_root w : blank w -> path_written (47 :: w) (EPath true [])
  | absolute_written sep more w s steps : separator sep more -> blank w -> (w = [] \/ ~ begins (eq 46) s) ->
      relative_written s steps -> path_written (sep ++ w ++ s) (EPath true (more ++ steps))
  | relative_alone s steps : relative_written s steps -> path_written s (EPath false steps)
  | primary_alone s e : primary_written s e -> path_written s e
  | filtered s e t qs : primary_written s e -> predicates_written t qs -> qs <> [] -> path_written (s ++ t) (EPath false [FilterStep e qs])
  | from_primary s e t qs sep more w u steps : primary_written s e -> predicates_written t qs -> (qs = [] -> flat e <> EPath true []) ->
      separator sep more -> blank w -> (w = [] \/ ~ begins (eq 46) u) -> relative_written u steps ->
      path_written (s ++ t ++ sep ++ w ++ u) (EPath false (FilterStep e qs :: more ++ steps))
(** RelativeLocationPath, [3] and [11]. *)
with relative_written : str -> list (step_of expr) -> Prop :=
  | last_step s st w : step_written s st -> (w = [] \/ begins (eq 46) s /\ blank w) -> relative_written (s ++ w) [st]
  | more_steps s st sep more w t steps : step_written s st -> separator sep more -> blank w -> (w = [] \/ ~ begins (eq 46) t) ->
      relative_written t steps -> relative_written (s ++ sep ++ w ++ t) (st :: more ++ steps)
(** Step, [4] and [12]. *)
with step_written : str -> step_of expr -> Prop :=
  | self_written : step_written [46] self_step
  | parent_written : step_written [46; 46] parent_step
  | axis_step_written s a t n w u qs : axis_written s a -> test_written t n -> blank w -> predicates_written u qs ->
      step_written (s ++ t ++ w ++ u) (AxisStep a n qs)
(** Predicate, [8]. *)
with predicates_written : str -> list expr -> Prop :=
  | no_predicate : predicates_written [] []
  | a_predicate s e w t qs : written OrLevel s e -> blank w -> predicates_written t qs ->
      predicates_written (91 :: s ++ 93 :: w ++ t) (e :: qs)
(** PrimaryExpr, [15]; FunctionCall, [16]; VariableReference, [36]. *)
with primary_written : str -> expr -> Prop :=
  | variable n w : ncname n -> blank w -> primary_written (36 :: n ++ w) (EVariable [] n)
  | prefixed_variable p u n w : ncname p -> ncname n -> uri p = Some u -> blank w -> primary_written (36 :: p ++ 58 :: n ++ w) (EVariable u n)
  | number_written s d w : numeral s -> number s = Some d -> blank w -> primary_written (s ++ w) (ENumber d)
  | literal_written l s w : literal l s -> blank w -> primary_written (l ++ w) (ELiteral s)
  | in_brackets v s e w : blank v -> ~ begins (fun c => In c [32; 9; 10; 13]) s -> written OrLevel s e -> blank w ->
      primary_written (40 :: v ++ s ++ 41 :: w) e
  | call_without g v w z : arity_ok g 0 = true -> blank v -> blank w -> blank z ->
      primary_written (function_name g ++ v ++ 40 :: w ++ 41 :: z) (ECall g [])
  | call_with g v s args w : arity_ok g (length args) = true -> blank v -> arguments_written s args -> blank w ->
      primary_written (function_name g ++ v ++ 40 :: s ++ 41 :: w) (ECall g args)
with arguments_written : str -> list expr -> Prop :=
  | one_argument s e : written OrLevel s e -> arguments_written s [e]
  | more_arguments s e w t es : written OrLevel s e -> blank w -> ~ begins (fun c => In c [32; 9; 10; 13]) t -> arguments_written t es ->
      ~ (all_pis e /\ first_is_literal es) -> arguments_written (s ++ 44 :: w ++ t) (e :: es).
Definition expression_written : str -> expr -> Prop := written OrLevel.
End with_context.
