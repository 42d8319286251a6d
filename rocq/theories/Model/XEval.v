(** XPath expressions and their evaluation: include/XPath/impl/xpath_function.hpp,
    xpath_function_holder.hpp, xpath_logical.hpp, xpath_relational.hpp, xpath_arithmetic.hpp,
    xpath_union.hpp, xpath_variable.hpp, xpath_value.hpp. *)
From Verif.Model Require Import Base Text XNode XAxis XNodeSet XCompare XString XStep.

(** * Expressions *)
(** FunctionLookupTable, xpath_function_holder.hpp:75-108. *)
Inductive fn := Position | Last | Count | LocalName | NamespaceUri | Name | String_ | Concat | StartsWith | Contains
  | SubstringBefore | SubstringAfter | Substring | StringLength | NormalizeSpace | Translate
  | Boolean | Not | True_ | False_ | Number | Sum | Floor | Ceiling | Round.
(** The operators of xpath_arithmetic.hpp. *)
Inductive arith := Plus | Minus | Multiply | Divide | Mod.
(** The steps of a path as the parser leaves them: a node test along an axis, or (as the first
    step) an expression; each with its predicates. *)
Inductive step_of (E : Type) := AxisStep (a : axis) (s : test) (qs : list E) | FilterStep (e : E) (qs : list E).
Arguments AxisStep {E} a s qs. Arguments FilterStep {E} e qs.
Inductive expr :=
  | ENumber (n : spec_float)
  | ELiteral (s : str)
  | EVariable (uri name : str)
  | EOr (a b : expr)
  | EAnd (a b : expr)
  | ERel (op : relop) (a b : expr)
  | EArith (op : arith) (a b : expr)
  | ENegate (a : expr)
  | EUnion (a b : expr)
  | ECall (f : fn) (args : list expr)
  | EPath (absolute : bool) (steps : list (step_of expr)).

(** The numbers of arguments of the constructors, xpath_function.hpp:21-27 and those of each
    class; no second number is -1. *)
Definition arity (g : fn) : nat * option nat :=
  match g with
  | Position | Last | True_ | False_ => (0, Some 0)
  | Count | Boolean | Not | Sum | Floor | Ceiling | Round => (1, Some 1)
  | LocalName | NamespaceUri | Name | String_ | StringLength | NormalizeSpace | Number => (0, Some 1)
  | Concat => (2, None)
  | StartsWith | Contains | SubstringBefore | SubstringAfter => (2, Some 2)
  | Substring => (2, Some 3)
  | Translate => (3, Some 3)
  end%nat.
Definition arity_ok (g : fn) (n : nat) : bool :=
  let (least, most) := arity g in (least <=? n)%nat && match most with Some m => (n <=? m)%nat | None => true end.
(** The constructor of a function throws a SyntaxException, 24-26, as the expression is compiled. *)
Fixpoint compiles (e : expr) : bool :=
  match e with
  | ENumber _ | ELiteral _ | EVariable _ _ => true
  | EOr a b | EAnd a b | ERel _ a b | EArith _ a b | EUnion a b => compiles a && compiles b
  | ENegate a => compiles a
  | ECall g args => arity_ok g (length args) && forallb (fun b => b) (map compiles args)
  | EPath _ steps => forallb (fun b => b) (map (fun s => match s with
      | AxisStep _ _ qs => forallb (fun b => b) (map compiles qs)
      | FilterStep e qs => compiles e && forallb (fun b => b) (map compiles qs)
      end) steps)
  end.

(** * Evaluation *)
(** What an evaluation uses: stringAsNumber, the text of a number, the variables
    (VariableResolver::resolveVariable, which may throw), std::sort and the documents. *)
Record env := Env { e_num : str -> spec_float; e_show : spec_float -> str; e_vars : str -> str -> answer value; e_sort : sorter; e_forest : forest }.
Definition node_text (k : env) (x : xnode) : option str := string_value (f_tree (e_forest k) (fst x)) (snd x).
(** nodeStringValue may throw: the comparisons of XCompare.v take a total function, and are
    used only where it does not. *)
Definition reader_of (k : env) : reader := Reader (e_num k) (e_show k) (fun x => match node_text k x with Some s => s | None => [] end).
Definition has_text (k : env) (v : value) : bool :=
  match v with VSet s => forallb (fun x => match node_text k x with Some _ => true | None => false end) (s_nodes s) | _ => true end.
Definition from_option {A} (o : option A) : answer A := match o with Some x => Got x | None => Raises end.
Definition set_text (k : env) (s : nodeset) : answer str := from_option (set_as_string (e_sort k) (e_forest k) s).
(** asString and asNumber, xpath_value.hpp:59-199. *)
Definition to_text (k : env) (v : value) : answer str :=
  match v with VSet s => set_text k s | _ => Got (as_string (reader_of k) (fun _ => []) v) end.
Definition to_number (k : env) (v : value) : answer spec_float :=
  match v with VSet s => andthen (set_text k s) (fun t => Got (e_num k t)) | _ => Got (as_number (reader_of k) (fun _ => []) v) end.
(** xpath_relational.hpp.  None of compare_values is undefined behaviour here.  The code throws
    when it comes to a node without a string value; here also if it would not have come to it. *)
Definition compared (k : env) (op : relop) (v w : value) : answer value :=
  if has_text k v && has_text k w then
    match compare_values (reader_of k) (fun s => match set_text k s with Got t => t | _ => [] end) op v w with
    | Some b => Got (VBool b)
    | None => Broken
    end
  else Raises.
(** ArithmeticOperator, xpath_arithmetic.hpp:15-82; the order in which the two sides are
    evaluated is the compiler's choice, and matters only to which exception is thrown. *)
Definition arithmetic (op : arith) (a b : spec_float) : answer value :=
  match op with
  | Plus => Got (VNum (fadd a b))
  | Minus => Got (VNum (fsub a b))
  | Multiply => Got (VNum (fmul a b))
  | Divide => Got (VNum (fdiv a b))
  | Mod => match modulus a b with Some r => Got (VNum r) | None => Broken end
  end.
(** UnionExpression::evaluate, xpath_union.hpp:24-48, of the two values. *)
Definition united (k : env) (v : answer value) (w : answer value) : answer value :=
  andthen v (fun v => match v with
  | VSet a => andthen w (fun w => match w with VSet b => Got (VSet (union (e_sort k) (e_forest k) a b)) | _ => Raises end)
  | _ => Raises
  end).

(** * Functions, xpath_function.hpp *)
Definition lift {A} (o : outcome A) : answer A := match o with Val a => Got a | UB => Broken | Base.NoFuel => Starved end.
(** The node that local-name, namespace-uri and name speak of, 222-232. *)
Definition node_arg (k : env) (args : list expression) (x : xnode) (position last : Z) : answer (option xnode) :=
  match args with
  | [] => Got (Some x)
  | e :: _ => andthen (e x position last) (fun v =>
      match s_nodes (as_set v) with [] => Got None | _ => match snd (top (e_sort k) (e_forest k) (as_set v)) with Some y => Got (Some y) | None => Broken end end)
  end.
Definition named (k : env) (g : xinfo -> str) (o : option xnode) : answer value :=
  match o with
  | None => Got (VStr [])
  | Some x => match subtree (f_tree (e_forest k) (fst x)) (snd x) with Some u => Got (VStr (g (t_info u))) | None => Broken end
  end.
(** 234-244, 271-279, 307-317.  hasNamespaceURI is taken to be a namespace that is not empty. *)
Definition local_name (i : xinfo) : str :=
  match i_kind i with Xattribute | Xelement | Xpi | Xnamespace => match i_uri i with [] => i_name i | _ => i_local i end | _ => [] end.
Definition namespace_uri (i : xinfo) : str := match i_kind i with Xattribute | Xelement => i_uri i | _ => [] end.
Definition node_name (i : xinfo) : str := match i_kind i with Xattribute | Xelement | Xpi | Xnamespace => i_name i | _ => [] end.
(** An argument as a string, or the context node as one: 336-340, 497-501, 516-519, 635-640. *)
Definition text_arg (k : env) (args : list expression) (x : xnode) (position last : Z) : answer str :=
  match args with [] => from_option (node_text k x) | e :: _ => andthen (e x position last) (to_text k) end.
(** ConcatFn, 346-362. *)
Fixpoint text_args (k : env) (args : list expression) (x : xnode) (position last : Z) : answer (list str) :=
  match args with
  | [] => Got []
  | e :: r => andthen (andthen (e x position last) (to_text k)) (fun s => andthen (text_args k r x position last) (fun l => Got (s :: l)))
  end.
(** SumFn, 646-663. *)
Fixpoint sum_nodes (k : env) (l : list xnode) (sum : spec_float) : answer spec_float :=
  match l with
  | [] => Got sum
  | x :: r => andthen (from_option (node_text k x)) (fun t => sum_nodes k r (fadd sum (e_num k t)))
  end.
(** doEvaluate of the classes, 165-709.  (Functions with a wrong number of arguments are not
    made.) *)
Definition call (k : env) (g : fn) (args : list expression) : expression := fun x position last =>
  let text e := andthen (e x position last) (to_text k) in
  let number e := andthen (e x position last) (to_number k) in
  match g, args with
  | Position, [] => Got (VNum (of_Z position))
  | Last, [] => Got (VNum (of_Z last))
  | Count, [e] => andthen (e x position last) (fun v => Got (VNum (of_Z (Z.of_nat (length (s_nodes (as_set v)))))))
  | LocalName, _ => andthen (node_arg k args x position last) (named k local_name)
  | NamespaceUri, _ => andthen (node_arg k args x position last) (named k namespace_uri)
  | Name, _ => andthen (node_arg k args x position last) (named k node_name)
  | String_, _ => andthen (text_arg k args x position last) (fun s => Got (VStr s))
  | Concat, _ => andthen (text_args k args x position last) (fun l => Got (VStr (concat_strings l)))
  | StartsWith, [a; b] => andthen (text a) (fun s => andthen (text b) (fun t => andthen (lift (starts_with s t)) (fun b => Got (VBool b))))
  | Contains, [a; b] => andthen (text a) (fun s => andthen (text b) (fun t => Got (VBool (contains s t))))
  | SubstringBefore, [a; b] => andthen (text a) (fun s => andthen (text b) (fun t => Got (VStr (substring_before s t))))
  | SubstringAfter, [a; b] => andthen (text a) (fun s => andthen (text b) (fun t => Got (VStr (substring_after s t))))
  | Substring, a :: b :: r => andthen (text a) (fun s =>
      match s with
      | [] => Got (VStr [])
      | _ => andthen (number b) (fun from =>
             andthen (match r with [] => Got None | c :: _ => andthen (number c) (fun n => Got (Some n)) end) (fun count =>
             match substring s from count with Text t => Got (VStr t) | Throws => Raises | Undefined => Broken end))
      end)
  | StringLength, _ => andthen (text_arg k args x position last) (fun s => Got (VNum (string_length s)))
  | NormalizeSpace, _ => andthen (text_arg k args x position last) (fun s => andthen (lift (normalize_whitespace s)) (fun t => Got (VStr t)))
  | Translate, [a; b; c] => andthen (text a) (fun s => andthen (text b) (fun from => andthen (text c) (fun to => andthen (lift (translate s from to)) (fun t => Got (VStr t)))))
  | Boolean, [e] => andthen (e x position last) (fun v => Got (VBool (as_bool v)))
  | Not, [e] => andthen (e x position last) (fun v => Got (VBool (negb (as_bool v))))
  | True_, [] => Got (VBool true)
  | False_, [] => Got (VBool false)
  | Number, [] => andthen (from_option (node_text k x)) (fun t => Got (VNum (e_num k t)))
  | Number, [e] => andthen (number e) (fun n => Got (VNum n))
  | Sum, [e] => andthen (e x position last) (fun v => andthen (sum_nodes k (s_nodes (as_set v)) zero) (fun n => Got (VNum n)))
  | Floor, [e] => andthen (number e) (fun n => Got (VNum (floor n)))
  | Ceiling, [e] => andthen (number e) (fun n => Got (VNum (ceil n)))
  | Round, [e] => andthen (number e) (fun n => Got (VNum (round_number n)))
  | _, _ => Raises
  end.

(** evaluate of each class: NumericValue and StringValue are constants, xpath_value.hpp:82-160;
    xpath_logical.hpp:34-84; xpath_arithmetic.hpp:84-104. *)
Fixpoint eval (k : env) (e : expr) : expression :=
  match e with
  | ENumber n => fun _ _ _ => Got (VNum n)
  | ELiteral s => fun _ _ _ => Got (VStr s)
  | EVariable uri name => fun _ _ _ => e_vars k uri name
  | EOr a b => fun x p l => andthen (eval k a x p l) (fun v => if as_bool v then Got (VBool true) else andthen (eval k b x p l) (fun w => Got (VBool (as_bool w))))
  | EAnd a b => fun x p l => andthen (eval k a x p l) (fun v => if as_bool v then andthen (eval k b x p l) (fun w => Got (VBool (as_bool w))) else Got (VBool false))
  | ERel op a b => fun x p l => andthen (eval k a x p l) (fun v => andthen (eval k b x p l) (compared k op v))
  | EArith op a b => fun x p l => andthen (eval k a x p l) (fun v => andthen (to_number k v) (fun m => andthen (eval k b x p l) (fun w => andthen (to_number k w) (arithmetic op m))))
  | ENegate a => fun x p l => andthen (eval k a x p l) (fun v => andthen (to_number k v) (fun n => Got (VNum (SFopp n))))
  | EUnion a b => fun x p l => united k (eval k a x p l) (eval k b x p l)
  | ECall g args => call k g (map (eval k) args)
  | EPath absolute steps =>
      (if absolute then absolute_path else relative_path) (e_sort k) (e_forest k) (map (fun s => match s with
        | AxisStep a s qs => TestStep a (get_test a s) (map (eval k) qs)
        | FilterStep e qs => ExprStep (eval k e) (map (eval k) qs)
        end) steps)
  end.
(** Compiling and evaluating (XPathExpression::evaluate, include/XPath/XPath.hpp and
    xpath_expression.hpp). *)
Definition evaluate (k : env) (e : expr) : expression := fun x position last =>
  if compiles e then eval k e x position last else Raises.
