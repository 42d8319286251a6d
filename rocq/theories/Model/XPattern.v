(** The text of a match pattern: what the trees of the grammar (XParse) are compiled to, in
    include/XPath/impl/xpath_parser.hpp:351-377, 796-1003 and xpath_step.hpp, and the priorities
    that patterns have by default. *)
From Verif.Model Require Import Base XNode XAxis XNodeSet XCompare XStep XSort XEval XMatch XParse.
From Coq Require Import Floats.SpecFloat.
From Coq Require Import List. Import ListNotations. Open Scope Z_scope.

(** A step as compiled, before MatchExpr changes its predicates (XMatch). *)
Inductive mstep := MStep (a : axis) (n : node_test) (qs : list expr).
(** A MatchExpr, by its steps; or an IdKeyStepExpression, by the name of the function and its
    arguments.  Whether there is such a function, and what it finds, is in XKeyPattern.v. *)
Inductive matcher := Path (steps : list mstep) | IdKey (name : str) (args : list str).
(** The priorities: 0, 0.5, -0.5 and -0.25. *)
Definition zero : spec_float := S754_zero false.
Definition half : spec_float := S754_finite false 4503599627370496 (-53).
Definition minus_half : spec_float := S754_finite true 4503599627370496 (-53).
Definition minus_quarter : spec_float := S754_finite true 4503599627370496 (-54).

(** getTest, xpath_step.hpp:354-460, with the tests of patterns: node() and the root.  (A
    NodeTest has none of these inside.) *)
Definition read_pattern_test (x : lexicon) (a : axis) (l : list tree) : answer (option node_test * list tree) :=
  match skip_white l with
  | [] => Broken
  | t :: r =>
      match id_of t with
      | Some NodeMatchPattern_id => Got (Some NodeNodeTest, r)
      | Some Slash_id => Got (Some RootNodeTest, t :: r)
      | _ => andthen (read_test x (t :: r)) (fun '(o, r) => Got (option_map (get_test a) o, r))
      end
  end.
(** createStep, 215-234.  An ExprStepExpression, which no tree of a pattern gives, is not
    modelled. *)
Definition create_pattern_step (n : nat) (x : lexicon) (a : axis) (attribute : bool) (l : list tree) : answer (mstep * list tree) :=
  andthen (read_pattern_test x (if attribute then Attribute else a) l) (fun '(o, l) =>
  match o with
  | Some t => andthen (predicates n x l) (fun '(qs, after) => Got (MStep a t qs, after))
  | None => andthen (compile n x l) (fun _ => Broken)
  end).
(** getPatternAxis, xpath_parser.hpp:902-922; no axis is static_cast<Axis>(-1). *)
Fixpoint skip_predicates (l : list tree) : list tree :=
  match l with t :: r => match id_of t with Some Predicate_id => skip_predicates r | _ => l end | [] => [] end.
Definition get_pattern_axis (l : list tree) : option axis :=
  match skip_predicates (tl l) with
  | [] => Some Self
  | u :: _ =>
      match id_of u with
      | Some SlashSlash_id => Some AncestorOrSelf
      | Some AbbreviatedAxisSpecifier_id | Some Attribute_id => None
      | _ => Some Parent
      end
  end.
(** The first switch of createStepsFromPattern, 935-942, and of createPatternList, 989-996. *)
Definition pattern_start (l : list tree) (steps : list mstep) : answer (list tree * list mstep) :=
  match l with
  | [] => Broken
  | t :: r =>
      match id_of t with
      | Some Slash_id => Got (r, MStep Parent RootNodeTest [] :: steps)
      | Some SlashSlash_id => Got (r, steps)
      | _ => Got (l, steps)
      end
  end.
(** The loop of createStepsFromPattern, 944-976. *)
Fixpoint pattern_loop (n : nat) (x : lexicon) (override : option axis) (attribute : bool) (l : list tree) (steps : list mstep) {struct n} : answer (list mstep) :=
  match n with
  | O => Starved
  | S n =>
      match l with
      | [] => Got steps
      | t :: r =>
          match id_of t with
          | Some StepPattern_id =>
              andthen (andthen (pattern_start (kids_of t) steps) (fun '(l', steps) => pattern_loop n x (get_pattern_axis l) false l' steps))
                (fun steps => pattern_loop n x override attribute r steps)
          | Some RelativePathPattern_id =>
              andthen (andthen (pattern_start (kids_of t) steps) (fun '(l', steps) => pattern_loop n x None false l' steps))
                (fun steps => pattern_loop n x override attribute r steps)
          | Some Child_id | Some Slash_id | Some SlashSlash_id => pattern_loop n x override attribute r steps
          | Some AbbreviatedAxisSpecifier_id | Some Attribute_id => pattern_loop n x override true r steps
          | _ =>
              match match override with Some a => Some a | None => get_pattern_axis l end with
              | None => Broken
              | Some a =>
                  andthen (create_pattern_step n x a attribute l) (fun '(s, after) =>
                    pattern_loop n x override attribute after (s :: MStep Self (if attribute then AttributeNodeTest else NotAttributeNodeTest) [] :: steps))
              end
          end
      end
  end.
(** createStepsFromPattern, 924-977, and createPatternList, 979-1003. *)
Definition steps_from_pattern (n : nat) (x : lexicon) (override : option axis) (l : list tree) (steps : list mstep) : answer (list mstep) :=
  andthen (pattern_start l steps) (fun '(l, steps) => pattern_loop n x override false l steps).
Definition pattern_list (n : nat) (x : lexicon) (l : list tree) : answer (list mstep) :=
  andthen (pattern_start l []) (fun '(l, steps) => steps_from_pattern n x None l steps).

(** defaultPriority, 839-900.  [l] is the node and the siblings that follow it. *)
Definition not_white (t : tree) : bool := match id_of t with Some S_id => false | _ => true end.
Fixpoint default_priority (n : nat) (l : list tree) : answer spec_float :=
  match n with
  | O => Starved
  | S n =>
      match skip_white l with
      | [] => Broken
      | t :: r =>
          let count := length (filter not_white (kids_of t)) in
          let kind_alone :=
            match r with
            | [] => Got minus_half
            | _ => match skip_white r with
                   | [] => Broken
                   | u :: _ => match id_of u with Some Predicate_id => Got half | _ => Got minus_half end
                   end
            end in
          match id_of t with
          | Some QName_id => Got zero
          | Some NCName_id =>
              match r with
              | [] => Got zero
              | _ => match skip_white r with
                     | [] => Broken
                     | u :: _ => match id_of u with Some Predicate_id => Got half | Some AnyName_id => Got minus_quarter | _ => Got zero end
                     end
              end
          | Some NodeTest_id =>
              match skip_white (kids_of t) with
              | [] => Broken
              | c :: _ => match id_of c with Some ProcessingInstruction_id => Got zero | _ => kind_alone end
              end
          | Some NodeMatchPattern_id | Some AnyName_id | Some Text_id | Some Comment_id | Some ProcessingInstruction_id => kind_alone
          | Some NameTest_id | Some StepPattern_id | Some RelativePathPattern_id =>
              if (count <=? 2)%nat then default_priority n (kids_of t) else Got half
          | Some Child_id | Some Attribute_id | Some AbbreviatedAxisSpecifier_id =>
              if (count =? 0)%nat then default_priority n r else Got half
          | _ => Got half
          end
      end
  end.

(** createDocMatch, createSingleMatchStep, createRelativePathPattern and createIdKeyPattern by
    init_matchCreateFunctions, 351-377, 796-830. *)
Definition literals (l : list tree) : list str :=
  map text_of (filter (fun t => match id_of t with Some Literal_id => true | _ => false end) l).
Definition match_steps (n : nat) (x : lexicon) (l : list tree) : answer matcher :=
  match l with
  | [] => Broken
  | t :: r =>
      match id_of t with
      | Some Slash_id => Got (Path [MStep Self RootNodeTest []])
      | Some NameTest_id | Some QName_id | Some NCName_id | Some NodeMatchPattern_id | Some AnyName_id | Some Text_id | Some Comment_id
      | Some ProcessingInstruction_id | Some NodeTest_id =>
          andthen (read_pattern_test x Self l) (fun '(o, _) =>
          match o with Some s => Got (Path [MStep Self NotAttributeNodeTest []; MStep Self s []]) | None => Broken end)
      | Some StepPattern_id | Some LocationPathPattern_id | Some RelativePathPattern_id =>
          andthen (pattern_list n x (kids_of t)) (fun steps => Got (Path steps))
      | Some IdKeyPattern_id => match kids_of t with [] => Broken | m :: r => Got (IdKey (text_of m) (literals r)) end
      | _ => Raises
      end
  end.
Definition match_one (n : nat) (x : lexicon) (l : list tree) : answer (matcher * spec_float) :=
  andthen (match_steps n x l) (fun m => andthen (default_priority n l) (fun p => Got (m, p))).
(** createAlternatePattern, 804-819: a pattern, an operator, a pattern, and so on. *)
Fixpoint match_alternatives (n : nat) (x : lexicon) (l : list tree) {struct n} : answer (list (matcher * spec_float)) :=
  match n with
  | O => Starved
  | S n => andthen (match_one n x l) (fun m =>
             match tl l with [] => Got [m] | _ :: r => andthen (match_alternatives n x r) (fun ms => Got (m :: ms)) end)
  end.
(** XPath::compile_match, 94-98, with do_compile, 142-172. *)
Definition compile_pattern (n : nat) (x : lexicon) (s : str) : answer (list (matcher * spec_float)) :=
  match parse n (Rule Pattern_id) s with
  | Base.NoFuel => Starved
  | Val (Some (ts, [])) =>
      match ts with
      | [] => Broken
      | t :: _ => match id_of t with
                  | Some Pattern_id => match_alternatives n x (kids_of t)
                  | _ => andthen (match_one n x ts) (fun m => Got [m])
                  end
      end
  | _ => Raises
  end.

(** * Trying a compiled pattern on a node *)
(** The constructor of MatchExpr, xpath_match_rewrite.hpp:93-128. *)
Definition run_step (k : env) (s : mstep) : step :=
  match s with MStep a n qs => TestStep a n (map (pred_value k) (fold_predicates n [] qs)) end.
(** MatchExpr::evaluate, xpath_match.hpp:25-29. *)
Definition path_matches (k : env) (l : list mstep) (x : xnode) : answer bool :=
  andthen (relative_path (e_sort k) (e_forest k) (map (run_step k) l) x (-1) (-1)) (fun v => Got (as_bool v)).
