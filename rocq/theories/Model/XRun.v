(** Running a stylesheet: the execute functions of include/XSLT/impl/xslt_for_each.hpp,
    xslt_apply_templates.hpp, xslt_apply_imports.hpp, xslt_call_template.hpp, xslt_if.hpp,
    xslt_choose.hpp, xslt_copy.hpp, xslt_value_of.hpp, xslt_message.hpp and others, with
    xslt_compiled_stylesheet.hpp and xslt_execution_context.hpp.

    What is executed gives the instructions of Model/XOutput.v.  Variables and parameters are
    modelled in XVars.v, and are left out here; so is what messages say. *)
From Verif.Model Require Import Base XNode XOutput Precedence Template.

(** What an XPath expression sees: the node it is evaluated for, and the currentNode, position
    and last of the XPath::ExecutionContext.  [None] if its evaluation throws. *)
Record view := View { w_node : xnode; w_current : xnode; w_position : Z; w_last : Z }.
Definition expression (A : Type) : Type := view -> option A.
(** Items.  A selection comes with its xsl:sort, or in document order (xslt_sort.hpp:206-219).
    xsl:copy-of selects nodes or a string. *)
Inductive action :=
| AText (disable : bool) (s : str)
| AValueOf (disable : bool) (e : expression str)
| AElement (name : expression (str * str * str)) (body : list action)
| AAttribute (name : expression (str * str * str)) (body : list action)
| AComment (body : list action)
| APi (target : expression str) (body : list action)
| AIf (test : expression bool) (body : list action)
| AChoose (whens : list (expression bool * list action)) (otherwise : list action)
| AForEach (select : expression (list xnode)) (body : list action)
| AApply (select : option (expression (list xnode))) (mode : str)
| AImports
| ACall (name : str)
| ACopy (body : list action)
| ACopyOf (select : expression (str + list xnode))
| AMessage (terminate : bool) (body : list action).

(** The context, and current_mode_ and current_generation_ of the CompiledStylesheet, which are
    mutable, xslt_compiled_stylesheet.hpp:362-363. *)
Record state := State { s_current : xnode; s_position : Z; s_last : Z; s_mode : str; s_generation : precedence }.
Definition set_position (x : xnode) (p : Z) (s : state) : state := State x p (s_last s) (s_mode s) (s_generation s).
Definition set_last (n : Z) (s : state) : state := State (s_current s) (s_position s) n (s_mode s) (s_generation s).
Definition set_rule (mode : str) (g : precedence) (s : state) : state := State (s_current s) (s_position s) (s_last s) mode g.
Definition look (x : xnode) (s : state) : view := View x (s_current s) (s_position s) (s_last s).
(** Exceptions end the transformation: nothing catches them. *)
Inductive result := Done (out : list instruction) (s : state) | Raised | Exhausted.
Definition with_value {A} (o : option A) (k : A -> result) : result := match o with Some v => k v | None => Raised end.
Definition after (r : result) (k : state -> result) : result :=
  match r with
  | Done out s => match k s with Done out' s' => Done (out ++ out') s' | r => r end
  | r => r
  end.
Definition wrap (g : list instruction -> list instruction) (r : result) : result :=
  match r with Done out s => Done (g out) s | r => r end.
(** ~LastFrame, xslt_execution_context.hpp:252-268. *)
Definition restore_last (n : Z) (r : result) : result := match r with Done out s => Done out (set_last n s) | r => r end.

(** What the items write to: whether the Output is buffering (in an attribute, comment or
    processing instruction), when start_element returns false (xslt_output.hpp:60-66), and
    whether it is the message sink (to_msg_). *)
Record sink := Sink { k_inside : bool; k_message : bool }.
Definition inside (k : sink) : sink := Sink true (k_message k).
Definition to_message (k : sink) : sink := Sink (if k_message k then k_inside k else false) true.
Definition start (k : sink) (prefix local uri : str) (s : state) (body : unit -> result) : result :=
  if k_inside k then Done [IElement prefix local uri []] s else wrap (fun out => [IElement prefix local uri out]) (body tt).

(** Nodes.  getChildNodes. *)
Definition tree_at (f : forest) (x : xnode) : option xtree := subtree (f_tree f (fst x)) (snd x).
Definition kid_nodes (f : forest) (x : xnode) : list xnode :=
  match tree_at f x with Some t => map (fun i => (fst x, Kid i :: snd x)) (seq 0 (length (t_kids t))) | None => [] end.
(** CopyOf::copy and process_content, xslt_copy.hpp:25-59, 120-133. *)
Fixpoint copy_tree (t : xtree) : list instruction :=
  match t with
  | Xt i attrs kids =>
      let content := concat (map copy_tree attrs) ++ concat (map copy_tree kids) in
      match i_kind i with
      | Xattribute => [ICopyAttribute (i_uri i) (i_local i) (i_name i) (i_value i)]
      | Xcomment => [IComment [IText false (i_value i)]]
      | Xdocument | Xfragment => content
      | Xelement => [IElement (i_prefix i) (i_local i) (i_uri i) content]
      | Xpi => [IPi (i_name i) [IText false (i_value i)]]
      | Xtext | Xcdata => [IText false (i_value i)]
      | Xdoctype | Xentityref | Xnamespace => []
      end
  end.
Definition copy_node (f : forest) (x : xnode) : list instruction := match tree_at f x with Some t => copy_tree t | None => [] end.
(** Copy::copy, 25-59, with its own process_content, 84-87. *)
Definition copy_shallow (f : forest) (x : xnode) (k : sink) (s : state) (body : unit -> result) : result :=
  match tree_at f x with
  | None => Done [] s
  | Some (Xt i _ _) =>
      match i_kind i with
      | Xdocument | Xfragment => body tt
      | Xelement => start k (i_prefix i) (i_local i) (i_uri i) s body
      | _ => Done (copy_node f x) s
      end
  end.

(** The templates, and what is in them. *)
Record sheet := Sheet { h_rules : compiled; h_body : nat -> list action }.
(** What doApplyTemplates leaves in current_generation_, xslt_compiled_stylesheet.hpp:250-254. *)
Definition last_generation (c : compiled) (generation old : precedence) : precedence := last (lower_precedences c generation) old.
(** Choose::execute, xslt_choose.hpp:69-87. *)
Fixpoint choose_when (v : view) (whens : list (expression bool * list action)) (otherwise : list action) : option (list action) :=
  match whens with
  | [] => Some otherwise
  | (test, body) :: whens => match test v with
                             | Some true => Some body
                             | Some false => choose_when v whens otherwise
                             | None => None
                             end
  end.

(** The execute functions.  [x] is the node they are given. *)
Fixpoint perform (f : forest) (h : sheet) (fuel : nat) (k : sink) (x : xnode) (a : action) (s : state) {struct fuel} : result :=
  match fuel with
  | O => Exhausted
  | S fuel =>
      match a with
      (** xslt_text.hpp:28-38. *)
      | AText disable t => Done [IText disable t] s
      (** xslt_value_of.hpp:22-32. *)
      | AValueOf disable e => with_value (e (look x s)) (fun t => Done [IText disable t] s)
      (** xslt_element.hpp:38-63. *)
      | AElement e body => with_value (e (look x s)) (fun '(p, l, u) => start k p l u s (fun _ => perform_all f h fuel k x body s))
      (** xslt_attribute.hpp:34-61. *)
      | AAttribute e body => with_value (e (look x s)) (fun '(p, l, u) => wrap (fun out => [IAttribute p l u out]) (perform_all f h fuel (inside k) x body s))
      (** xslt_comment.hpp:21-28. *)
      | AComment body => wrap (fun out => [IComment out]) (perform_all f h fuel (inside k) x body s)
      (** xslt_processing_instruction.hpp:29-37. *)
      | APi e body => with_value (e (look x s)) (fun t => wrap (fun out => [IPi t out]) (perform_all f h fuel (inside k) x body s))
      (** xslt_if.hpp:25-31. *)
      | AIf e body => with_value (e (look x s)) (fun b => if (b : bool) then perform_all f h fuel k x body s else Done [] s)
      | AChoose whens otherwise => with_value (choose_when (look x s) whens otherwise) (fun body => perform_all f h fuel k x body s)
      (** xslt_for_each.hpp:37-55. *)
      | AForEach e body => with_value (e (look x s)) (fun nodes =>
          restore_last (s_last s) (perform_each f h fuel k body nodes 1 (set_last (Z.of_nat (length nodes)) s)))
      (** xslt_apply_templates.hpp:30-55; xslt_compiled_stylesheet.hpp:184-206. *)
      | AApply None mode => match kid_nodes f x with
                            | [] => Done [] s
                            | nodes => restore_last (s_last s) (apply_each f h fuel k mode nodes 1 (set_last (Z.of_nat (length nodes)) s))
                            end
      | AApply (Some e) mode => with_value (e (look x s)) (fun nodes =>
          restore_last (s_last s) (apply_each f h fuel k mode nodes 1 (set_last (Z.of_nat (length nodes)) s)))
      (** xslt_compiled_stylesheet.hpp:229-232. *)
      | AImports => apply_rule f h fuel k (s_generation s) (s_mode s) x s
      (** 215-227. *)
      | ACall name => with_value (called (h_rules h) name) (fun t => perform_all f h fuel k x (h_body h (tm_body t)) s)
      | ACopy body => copy_shallow f x k s (fun _ => perform_all f h fuel k x body s)
      (** xslt_copy.hpp:103-117. *)
      | ACopyOf e => with_value (e (look x s)) (fun v => Done match v with inl t => [IText false t] | inr nodes => concat (map (copy_node f) nodes) end s)
      (** xslt_message.hpp:21-28. *)
      | AMessage terminate body => match perform_all f h fuel (to_message k) x body s with
                                   | Done _ s' => if (terminate : bool) then Raised else Done [] s'
                                   | r => r
                                   end
      end
  end
(** execute_children, xslt_item.hpp:32-36. *)
with perform_all (f : forest) (h : sheet) (fuel : nat) (k : sink) (x : xnode) (l : list action) (s : state) {struct fuel} : result :=
  match fuel with
  | O => Exhausted
  | S fuel =>
      match l with
      | [] => Done [] s
      | a :: l => after (perform f h fuel k x a s) (fun s => perform_all f h fuel k x l s)
      end
  end
(** The loop of ForEach::execute. *)
with perform_each (f : forest) (h : sheet) (fuel : nat) (k : sink) (body : list action) (nodes : list xnode) (p : Z) (s : state) {struct fuel} : result :=
  match fuel with
  | O => Exhausted
  | S fuel =>
      match nodes with
      | [] => Done [] s
      | x :: nodes => after (perform_all f h fuel k x body (set_position x p s)) (fun s => perform_each f h fuel k body nodes (p + 1) s)
      end
  end
(** The loop of applyTemplates. *)
with apply_each (f : forest) (h : sheet) (fuel : nat) (k : sink) (mode : str) (nodes : list xnode) (p : Z) (s : state) {struct fuel} : result :=
  match fuel with
  | O => Exhausted
  | S fuel =>
      match nodes with
      | [] => Done [] s
      | x :: nodes => after (apply_rule f h fuel k frozen_precedence mode x (set_position x p s)) (fun s => apply_each f h fuel k mode nodes (p + 1) s)
      end
  end
(** doApplyTemplates, 235-267, and defaultAction, 269-301. *)
with apply_rule (f : forest) (h : sheet) (fuel : nat) (k : sink) (generation : precedence) (mode : str) (x : xnode) (s : state) {struct fuel} : result :=
  match fuel with
  | O => Exhausted
  | S fuel =>
      match choose (h_rules h) generation mode x with
      | Some (t, p) => perform_all f h fuel k x (h_body h (tm_body t)) (set_rule mode p s)
      | None =>
          let s := set_rule mode (last_generation (h_rules h) generation (s_generation s)) s in
          match tree_at f x with
          | None => Done [] s
          | Some (Xt i _ _) =>
              match i_kind i with
              | Xdocument | Xfragment | Xelement =>
                  restore_last (s_last s) (apply_each f h fuel k mode (kid_nodes f x) 1 (set_last (Z.of_nat (length (kid_nodes f x))) s))
              | Xattribute | Xtext | Xcdata => Done [IText false (i_value i)] s
              | _ => Done [] s
              end
          end
      end
  end.
(** execute, 92-117.  [mode] and [g] are what an earlier execute left. *)
Definition transform (f : forest) (h : sheet) (fuel : nat) (mode : str) (g : precedence) (x : xnode) : result :=
  restore_last (-1) (apply_each f h fuel (Sink false false) [] [x] 1 (State x (-1) 1 mode g)).
