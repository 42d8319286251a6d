(** Node tests, predicates, steps and location paths: include/XPath/impl/xpath_step.hpp and
    xpath_node_test.hpp.  Expressions are functions here; Model/XEval.v has their classes. *)
From Verif.Model Require Import Base Containers XNode XAxis XNodeSet XCompare.

(** What an evaluation ends with: a result, an exception, undefined behaviour, or a walk for
    which the model's steps did not suffice. *)
Inductive answer (A : Type) := Got (a : A) | Raises | Broken | Starved.
Arguments Got {A} a. Arguments Raises {A}. Arguments Broken {A}. Arguments Starved {A}.
Definition andthen {A B} (a : answer A) (k : A -> answer B) : answer B :=
  match a with Got x => k x | Raises => Raises | Broken => Broken | Starved => Starved end.

(** * Node tests *)
(** The classes of xpath_node_test.hpp, 32-316. *)
Inductive node_test := AnyNodeTest | NameNodeTest (name : str) | AttributeNameNodeTest (name : str)
  | QNameNodeTest (uri name : str) | AttributeQNameNodeTest (uri name : str) | StarNodeTest | QStarNodeTest (uri : str)
  | TextNodeTest | CommentNodeTest | AttributeNodeTest | AttributeQStarNodeTest (uri : str)
  | ProcessingInstructionNodeTest (target : str) | FailNodeTest
  | NodeNodeTest | NotAttributeNodeTest | RootNodeTest.
Definition element_or_namespace (k : xkind) : bool := match k with Xelement | Xnamespace => true | _ => false end.
Definition is_attribute_kind (k : xkind) : bool := match k with Xattribute => true | _ => false end.
Definition is_root_kind (k : xkind) : bool := match k with Xdocument | Xfragment => true | _ => false end.
Definition empty (s : str) : bool := match s with [] => true | _ => false end.
Definition matches (n : node_test) (u : xtree) : bool :=
  let i := t_info u in
  match n with
  | AnyNodeTest => true
  | NodeNodeTest => negb (is_root_kind (i_kind i))
  | NameNodeTest name => element_or_namespace (i_kind i) && str_eqb name (i_name i) && empty (i_uri i)
  | AttributeNameNodeTest name => is_attribute_kind (i_kind i) && str_eqb name (i_name i) && empty (i_uri i)
  | QNameNodeTest uri name => element_or_namespace (i_kind i) && str_eqb name (i_local i) && str_eqb uri (i_uri i)
  | AttributeQNameNodeTest uri name => is_attribute_kind (i_kind i) && str_eqb name (i_local i) && str_eqb uri (i_uri i)
  | StarNodeTest => element_or_namespace (i_kind i)
  | QStarNodeTest uri => str_eqb uri (i_uri i) && element_or_namespace (i_kind i)
  | TextNodeTest => tree_is_text u
  | CommentNodeTest => match i_kind i with Xcomment => true | _ => false end
  | AttributeNodeTest => is_attribute_kind (i_kind i)
  | AttributeQStarNodeTest uri => str_eqb uri (i_uri i) && is_attribute_kind (i_kind i)
  | NotAttributeNodeTest => negb (is_attribute_kind (i_kind i))
  | ProcessingInstructionNodeTest target =>
      match i_kind i with Xpi => if empty target then true else str_eqb (i_name i) target | _ => false end
  | RootNodeTest => is_root_kind (i_kind i)
  | FailNodeTest => false
  end.
(** A node test as it is written; the prefixes are looked up (NamespaceContext). *)
Inductive test := Named (name : str) | NamedIn (prefix uri name : str) | Any | AnyIn (prefix uri : str)
  | OfNode | OfText | OfComment | OfPi (target : str).
Definition is_attribute_axis (a : axis) : bool := match a with Attribute => true | _ => false end.
(** getTest, xpath_step.hpp:354-460. *)
Definition get_test (a : axis) (s : test) : node_test :=
  match s with
  | NamedIn prefix uri name =>
      if is_attribute_axis a then if str_eqb prefix xmlns then FailNodeTest else AttributeQNameNodeTest uri name
      else QNameNodeTest uri name
  | Named name =>
      if is_attribute_axis a then if str_eqb name xmlns then FailNodeTest else AttributeNameNodeTest name
      else NameNodeTest name
  | OfComment => CommentNodeTest
  | OfText => TextNodeTest
  | OfPi target => ProcessingInstructionNodeTest target
  | OfNode => AnyNodeTest
  | Any => if is_attribute_axis a then AttributeNodeTest else StarNodeTest
  | AnyIn prefix uri =>
      if is_attribute_axis a then if str_eqb prefix xmlns then FailNodeTest else AttributeQStarNodeTest uri
      else QStarNodeTest uri
  end.

(** * Predicates *)
(** XPathExpression_impl::evaluate: the context node, position() and last(). *)
Definition expression := xnode -> Z -> Z -> answer value.
(** The body of the loop of applyPredicate, 66-76: [position] is an unsigned int. *)
Definition passes (position : Z) (v : value) : bool :=
  match v with VNum n => if SFeqb (of_Z position) n then as_bool v else false | _ => as_bool v end.
Fixpoint keep (q : expression) (last position : Z) (l : list xnode) (results : nodeset) : answer nodeset :=
  match l with
  | [] => Got results
  | x :: r => andthen (q x (as_int position) (as_int last)) (fun v =>
      keep q last (wrap32 (position + 1)) r (if passes position v then push_node x results else results))
  end.
(** applyPredicate, 58-80. *)
Definition apply_predicate (q : expression) (nodes : nodeset) : answer nodeset :=
  keep q (Z.of_nat (length (s_nodes nodes))) 1 (s_nodes nodes) (new_set (is_forward nodes)).
(** applyPredicates, 48-55. *)
Fixpoint apply_predicates (qs : list expression) (nodes : nodeset) : answer nodeset :=
  match qs with
  | [] => Got nodes
  | q :: r => match s_nodes nodes with [] => Got nodes | _ => andthen (apply_predicate q nodes) (apply_predicates r) end
  end.

(** * Steps *)
Inductive step := TestStep (a : axis) (n : node_test) (predicates : list expression)
  | ExprStep (e : expression) (predicates : list expression).
Definition push_all (l : list xnode) (s : nodeset) : nodeset := fold_left (fun s x => push_node x s) l s.
(** TestStepExpression::enumerateOver, 133-156.  The namespace axis makes nodes that are unlike
    those of any other walk; here the walks number them from 0 each, so nothing is said about
    steps on that axis. *)
Definition enumerate_over (f : forest) (a : axis) (n : node_test) (qs : list expression) (context : xnode) (results : nodeset) : answer nodeset :=
  let t := f_tree f (fst context) in
  let results := set_forward (axis_forward a) results in
  match enumerate (tree_size t) t 0 a (snd context) with
  | Crash => Broken
  | NoFuel => Starved
  | Nodes l =>
      let tested := map (pair (fst context)) (filter (fun p => match subtree t p with Some u => matches n u | None => false end) l) in
      match qs with
      | [] => Got (push_all tested results)
      | _ => andthen (apply_predicates qs (push_all tested (new_set (axis_forward a)))) (fun m =>
               Got (insert_nodes (length (s_nodes results)) (s_nodes m) results))
      end
  end.
(** The loop of TestStepExpression::evaluate, 124-131. *)
Fixpoint over_all (f : forest) (a : axis) (n : node_test) (qs : list expression) (context : list xnode) (results : nodeset) : answer nodeset :=
  match context with
  | [] => Got results
  | x :: r => andthen (enumerate_over f a n qs x results) (over_all f a n qs r)
  end.
(** asNodeSet, xpath_value.hpp:77, 117, 148, 187-190. *)
Definition as_set (v : value) : nodeset := match v with VSet s => s | _ => new_set true end.
(** ExprStepExpression::evaluate of a node, 181-189. *)
Definition filter_value (ss : sorter) (f : forest) (e : expression) (qs : list expression) (x : xnode) (position last : Z) : answer value :=
  match qs with
  | [] => e x position last
  | _ => andthen (e x position last) (fun v =>
           andthen (apply_predicates qs (to_document_order ss f (as_set v))) (fun s => Got (VSet s)))
  end.
(** StepExpression::evaluate of a node set, 124-131 and 191-195. *)
Definition step_value (ss : sorter) (f : forest) (s : step) (context : nodeset) (position last : Z) : answer value :=
  match s with
  | TestStep a n qs => andthen (over_all f a n qs (s_nodes context) (new_set true)) (fun r => Got (VSet r))
  | ExprStep e qs => match snd (top ss f context) with
                     | None => Broken
                     | Some x => filter_value ss f e qs x position last
                     end
  end.
(** RelativeLocationPath::evaluate, 530-546. *)
Fixpoint steps_value (ss : sorter) (f : forest) (steps : list step) (nodes : nodeset) (position last : Z) : answer nodeset :=
  match steps with
  | [] => Got nodes
  | s :: r => andthen (step_value ss f s nodes position last) (fun v => steps_value ss f r (as_set v) position last)
  end.
Definition relative_path (ss : sorter) (f : forest) (steps : list step) : expression := fun x position last =>
  andthen (steps_value ss f steps (push_node x (new_set true)) position last) (fun s => Got (VSet (sort ss f s))).
(** AbsoluteLocationPath::evaluate, 561-571. *)
Definition absolute_path (ss : sorter) (f : forest) (steps : list step) : expression := fun x position last =>
  let root := match subtree (f_tree f (fst x)) (snd x) with
              | Some u => if is_root_kind (t_kind u) then x else (f_doc f (fst x), [])
              | None => (f_doc f (fst x), [])
              end in
  relative_path ss f steps root position last.
