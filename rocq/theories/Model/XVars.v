(** XSLT variables and parameters: include/XSLT/impl/xslt_variable_stack.hpp,
    xslt_execution_context.hpp, xslt_variable_impl.hpp, xslt_with_param.hpp, and the instructions
    that open scopes. *)
From Verif.Model Require Import Base Precedence Template.

(** * Names *)
(** VariableStack::make_clark_name and the choice in resolveVariable,
    xslt_variable_stack.hpp:166 and 188-196.  Names below are such names. *)
Definition clark_name (uri local : str) : str :=
  match uri with [] => local | _ => [123] ++ uri ++ [125] ++ local end.

(** * Instructions *)
(** Values are strings; an XPath expression is given by the variables that it refers to, in the
    order in which it evaluates them, and what it makes of their values.  A variable has a
    select expression, or content whose value is taken to be its text (Variable_impl::value,
    xslt_variable_impl.hpp:44-60).  The nodes that are processed are not modelled: which
    templates are applied to them is given by targets. *)
Inductive target := ToTemplate (name : str) | ToBuiltIn (l : list target).
Inductive expr := Select (refs : list str) (f : list str -> str) | Content (l : list instr)
with instr :=
  | XVariable (n : str) (e : expr)
  | XParam (n : str) (e : expr)
  (** xsl:value-of. *)
  | XValueOf (refs : list str) (f : list str -> str)
  (** xsl:if, xsl:choose, xsl:for-each, xsl:element, xsl:attribute and literal elements: the
      content is run as many times as the value of an expression is long.  xsl:if and xsl:choose
      run it at most once and elements and attributes just once. *)
  | XFramed (refs : list str) (f : list str -> str) (l : list instr)
  (** xsl:copy, xsl:comment, xsl:processing-instruction and xsl:message. *)
  | XUnframed (l : list instr)
  (** xsl:call-template and xsl:apply-templates. *)
  | XApply (withs : list (str * expr)) (ts : list target).

(** * VariableStack, xslt_variable_stack.hpp *)
(** A VariableClosure whose value is known, or that of a top level variable.  What is known was
    declared while templates were running, and has the frozen precedence. *)
Inductive binding := Known (v : str) | Global (n : str) (p : precedence) (e : expr).
Definition b_prec (b : binding) : precedence := match b with Known _ => frozen_precedence | Global _ p _ => p end.
(** std::map from names. *)
Definition scope := list (str * binding).
(** stack_ and params_, 201-202, with their backs first.  They are not empty, as the frames pair
    what they push and pop.  A parameter that is passed is an expression with a copy of the
    context; its value is found when it is declared. *)
Inductive vstack := VStack (stack : list scope) (params : list (list (str * passed)))
with passed := Passed (e : expr) (at_ : vstack).
Definition v_stack (s : vstack) : list scope := match s with VStack a _ => a end.
Definition v_params (s : vstack) : list (list (str * passed)) := match s with VStack _ a => a end.
Definition back {A} (l : list (list A)) : list A := hd [] l.
Definition front {A} (l : list (list A)) : list A := last l [].
(** pushScope, chainScope and popScope, 66-82. *)
Definition push_scope (s : vstack) : vstack := VStack ([] :: v_stack s) ([] :: v_params s).
Definition chain_scope (s : vstack) : vstack := VStack (back (v_stack s) :: v_stack s) (back (v_params s) :: v_params s).
Definition pop_scope (s : vstack) : vstack := VStack (tl (v_stack s)) (tl (v_params s)).

(** What is thrown; or the run was cut short. *)
Inductive failure := Unbound (n : str) | Circular (n : str) | Duplicate (n : str) | DuplicateParam (n : str) | NoTemplate (n : str).
Inductive res (A : Type) := Done (a : A) | Throws (f : failure) | OutOfFuel.
Arguments Done {A} a. Arguments Throws {A} f. Arguments OutOfFuel {A}.
Definition rbind {A B} (m : res A) (k : A -> res B) : res B :=
  match m with Done a => k a | Throws f => Throws f | OutOfFuel => OutOfFuel end.

(** operator[] with assignment, and erase. *)
Definition set_in {V} (n : str) (v : V) (m : list (str * V)) : list (str * V) := update str_eqb n (fun _ => v) m.
Definition erase_in {V} (n : str) (m : list (str * V)) : list (str * V) := filter (fun x => negb (str_eqb n (fst x))) m.
(** passParam, 89-98, and WithParamable::passParams, xslt_with_param.hpp:67-72. *)
Fixpoint pass (s : vstack) (withs : list (str * expr)) : res vstack :=
  match withs with
  | [] => Done s
  | (n, e) :: withs =>
      match assoc str_eqb n (back (v_params s)) with
      | Some _ => Throws (DuplicateParam n)
      | None => pass (VStack (v_stack s) (set_in n (Passed e s) (back (v_params s)) :: tl (v_params s))) withs
      end
  end.
(** unpassParam, 100-103, and unpassParams, xslt_with_param.hpp:74-78. *)
Definition unpass (s : vstack) (withs : list (str * expr)) : vstack :=
  VStack (v_stack s) (fold_left (fun m w => erase_in (fst w) m) withs (back (v_params s)) :: tl (v_params s)).
(** findPassedParam, 105-113. *)
Definition find_passed (s : vstack) (n : str) : option passed := assoc str_eqb n (back (tl (v_params s))).
(** declareVariable, 120-140: what becomes of a new variable, by its precedence and that of the
    one there is. *)
Inductive verdict := Clash | Ignored | Stored.
Definition judge (existing : option binding) (p : precedence) : verdict :=
  match existing with
  | None => Stored
  | Some b =>
      if prec_eq p (b_prec b) then Clash
      else if is_descendant (b_prec b) p then Ignored
      else if prec_gt (b_prec b) p then Ignored
      else Stored
  end.
Definition store (s : vstack) (n : str) (b : binding) : vstack :=
  VStack (set_in n b (back (v_stack s)) :: tl (v_stack s)) (v_params s).
(** While templates run, the value is found before it is stored, 136-139. *)
Definition declare (s : vstack) (n : str) (value : res (vstack * list str)) : res (vstack * list str) :=
  match judge (assoc str_eqb n (back (v_stack s))) frozen_precedence with
  | Clash => Throws (Duplicate n)
  | Ignored => Done (s, [])
  | Stored => rbind value (fun r => Done (store s n (Known (concat (snd r))), []))
  end.
(** resolveVariable, 161-184.  [within] is the name of the top level variable in whose context
    the reference is, if that is not a copy of such a context, and [resolving] has the
    resolutionStack_s of all these contexts: (g, x) if x is in that of g.  Other contexts are
    never entered while they resolve, as what they find is known or belongs to a top level
    variable. *)
Definition pair_eqb (a b : str * str) : bool := str_eqb (fst a) (fst b) && str_eqb (snd a) (snd b).
Inductive resolution := Value (v : str) | Compute (n : str) (e : expr) (resolving : list (str * str)) | Fails (f : failure).
Definition resolve (resolving : list (str * str)) (within : option str) (s : vstack) (x : str) : resolution :=
  let now := match within with Some g => [(g, x)] | None => [] end in
  if existsb (fun k => existsb (pair_eqb k) resolving) now then Fails (Circular x)
  else
    match assoc str_eqb x (back (v_stack s)) with
    | Some (Known v) => Value v
    | Some (Global n _ e) => Compute n e (now ++ resolving)
    | None =>
        match assoc str_eqb x (front (v_stack s)) with
        | Some (Known v) => Value v
        | Some (Global n _ e) => Compute n e resolving
        | None => Fails (Unbound x)
        end
    end.

(** * Running *)
(** The context of a top level variable once the global scope is injected, 142-154; its
    VariableStack was that of the main context before any template was run. *)
Definition global_context (g : scope) : vstack := VStack [g] [[]; []].
(** What is to be done: to find the values of references, or that of an expression; to run
    instructions, once or a number of times, each time in a chained frame
    (xslt_if.hpp:26-32, xslt_choose.hpp:77-95, xslt_for_each.hpp:40-56, xslt_element.hpp:57-60,
    xslt_inline_element.hpp:76-79, xslt_attribute.hpp:56-59); or to run templates, each in a new
    frame (xslt_compiled_stylesheet.hpp:213-226 and 235-267). *)
Inductive task := Refs (l : list str) | Evaluate (e : expr) | Body (l : list instr) | Times (n : nat) (l : list instr) | Targets (l : list target).

(** Gives the strings that are found or written.  The memory that a closure has of its value is
    left out; a context of a top level variable that is entered again while it is in use is taken
    as it was at first. *)
Fixpoint go (tbl : list (str * list instr)) (g : scope) (fuel : nat) (resolving : list (str * str)) (within : option str) (s : vstack) (t : task) {struct fuel} : res (vstack * list str) :=
  match fuel with
  | O => OutOfFuel
  | S fuel =>
      match t with
      | Refs [] => Done (s, [])
      | Refs (x :: l) =>
          rbind (match resolve resolving within s x with
                 | Fails f => Throws f
                 | Value v => Done (s, [v])
                 | Compute n e r => go tbl g fuel r (Some n) (global_context g) (Evaluate e)
                 end) (fun r1 =>
          rbind (go tbl g fuel resolving within s (Refs l)) (fun r2 =>
          Done (s, snd r1 ++ snd r2)))
      | Evaluate (Select refs f) => rbind (go tbl g fuel resolving within s (Refs refs)) (fun r => Done (s, [f (snd r)]))
      | Evaluate (Content l) => rbind (go tbl g fuel resolving within s (Body l)) (fun r => Done (s, [concat (snd r)]))
      | Body [] => Done (s, [])
      | Body (i :: l) =>
          rbind (match i with
                 | XVariable n e => declare s n (go tbl g fuel resolving None s (Evaluate e))
                 | XParam n e =>
                     match find_passed s n with
                     | Some (Passed e' s') => declare s n (go tbl g fuel resolving None s' (Evaluate e'))
                     | None => declare s n (go tbl g fuel resolving None s (Evaluate e))
                     end
                 | XValueOf refs f => go tbl g fuel resolving within s (Evaluate (Select refs f))
                 | XFramed refs f l =>
                     rbind (go tbl g fuel resolving within s (Evaluate (Select refs f))) (fun r =>
                     go tbl g fuel resolving within s (Times (length (concat (snd r))) l))
                 | XUnframed l => go tbl g fuel resolving within s (Body l)
                 | XApply withs ts =>
                     rbind (pass s withs) (fun s1 =>
                     rbind (go tbl g fuel resolving within s1 (Targets ts)) (fun r =>
                     Done (unpass (fst r) withs, snd r)))
                 end) (fun r1 =>
          rbind (go tbl g fuel resolving within (fst r1) (Body l)) (fun r2 =>
          Done (fst r2, snd r1 ++ snd r2)))
      | Times O _ => Done (s, [])
      | Times (S n) l =>
          rbind (go tbl g fuel resolving within (chain_scope s) (Body l)) (fun r1 =>
          rbind (go tbl g fuel resolving within (pop_scope (fst r1)) (Times n l)) (fun r2 =>
          Done (fst r2, snd r1 ++ snd r2)))
      | Targets [] => Done (s, [])
      | Targets (u :: l) =>
          rbind (match u with
                 | ToTemplate n =>
                     match assoc str_eqb n tbl with
                     | None => Throws (NoTemplate n)
                     | Some b => go tbl g fuel resolving within (push_scope s) (Body b)
                     end
                 | ToBuiltIn ts => go tbl g fuel resolving within (push_scope s) (Targets ts)
                 end) (fun r1 =>
          rbind (go tbl g fuel resolving within (pop_scope (fst r1)) (Targets l)) (fun r2 =>
          Done (fst r2, snd r1 ++ snd r2)))
      end
  end.

(** * Top level variables, CompiledStylesheet::execute, xslt_compiled_stylesheet.hpp:98-120 *)
Record decl := Decl { d_param : bool; d_name : str; d_prec : precedence; d_expr : expr }.
(** topLevelParam, xslt_variable_stack.hpp:84-87; of those with one name the last is kept. *)
Definition user_params (user : list (str * str)) : list (str * passed) :=
  fold_left (fun m nv => set_in (fst nv) (Passed (Select [] (fun _ => snd nv)) (VStack [[]] [[]; []])) m) user [].
(** Variable::execute, or ExecutionContext::declareParam, xslt_execution_context.hpp:181-186,
    with findPassedParam and TopLevelParam::precedence, xslt_top_level_param.hpp:42. *)
Definition instance_of (user : list (str * str)) (d : decl) : binding :=
  match assoc str_eqb (d_name d) (user_params user) with
  | Some (Passed e _) => if d_param d then Global (d_name d) initial_precedence e else Global (d_name d) (d_prec d) (d_expr d)
  | None => Global (d_name d) (d_prec d) (d_expr d)
  end.
Definition declare_global (user : list (str * str)) (g : scope) (d : decl) : res scope :=
  let b := instance_of user d in
  match judge (assoc str_eqb (d_name d) g) (b_prec b) with
  | Clash => Throws (Duplicate (d_name d))
  | Ignored => Done g
  | Stored => Done (set_in (d_name d) b g)
  end.
Fixpoint declare_globals (user : list (str * str)) (g : scope) (l : list decl) : res scope :=
  match l with [] => Done g | d :: l => rbind (declare_global user g d) (fun g => declare_globals user g l) end.
(** freezeTopLevel, xslt_variable_stack.hpp:142-149.  std::map's order only decides which of
    several failures is thrown. *)
Definition global_value (tbl : list (str * list instr)) (g : scope) (fuel : nat) (b : binding) : res (list str) :=
  match b with
  | Known v => Done [v]
  | Global n _ e => rbind (go tbl g fuel [] (Some n) (global_context g) (Evaluate e)) (fun r => Done (snd r))
  end.
Fixpoint freeze (tbl : list (str * list instr)) (g : scope) (fuel : nat) (l : scope) : res (list str) :=
  match l with
  | [] => Done []
  | x :: l => rbind (global_value tbl g fuel (snd x)) (fun v => rbind (freeze tbl g fuel l) (fun vs => Done (v ++ vs)))
  end.
Definition main_context (user : list (str * str)) (g : scope) : vstack := VStack [g] [[]; user_params user].
(** All of execute. *)
Definition transform (tbl : list (str * list instr)) (user : list (str * str)) (ds : list decl) (ts : list target) (fuel : nat) : res (list str) :=
  rbind (declare_globals user [] ds) (fun g =>
  rbind (freeze tbl g fuel g) (fun _ =>
  rbind (go tbl g fuel [] None (main_context user g) (Targets ts)) (fun r => Done (snd r)))).
