(** Choosing a template: include/XSLT/impl/xslt_compiled_stylesheet.hpp and xslt_template.hpp. *)
From Coq Require Import SpecFloat.
From Verif.Model Require Import Base XNode XNumber Precedence.

(** MatchExpr: whether a node matches, and the priority.  Matching is taken to depend on the
    node only, and not to throw. *)
Record pattern := Pattern { p_matches : xnode -> bool; p_priority : spec_float }.
(** Template; [tm_body] stands for its content. *)
Record template := Template { tm_patterns : list pattern; tm_name : str; tm_mode : str; tm_body : nat }.
(** The constructor, xslt_template.hpp:33-49, with the priority attribute as a number. *)
Definition make_template (ps : list pattern) (priority : option spec_float) (name mode : str) (body : nat) : template :=
  Template match priority with Some p => map (fun q => Pattern (p_matches q) p) ps | None => ps end name mode body.

(** std::map, as a list of pairs.  operator[] with what is done to the value. *)
Fixpoint assoc {K V} (eqb : K -> K -> bool) (k : K) (m : list (K * V)) : option V :=
  match m with [] => None | (k', v) :: m => if eqb k k' then Some v else assoc eqb k m end.
Fixpoint update {K V} (eqb : K -> K -> bool) (k : K) (f : option V -> V) (m : list (K * V)) : list (K * V) :=
  match m with
  | [] => [(k, f None)]
  | (k', v) :: m => if eqb k k' then (k', f (Some v)) :: m else (k', v) :: update eqb k f m
  end.
Definition or_empty {V} (o : option (list V)) : list V := match o with Some l => l | None => [] end.

(** MatchTemplate, ModeTemplates, TemplateStack and NamedTemplates, 309-352. *)
Definition match_template := (pattern * template)%type.
Definition mode_templates := list (str * list match_template).
Record compiled := Compiled { c_rules : list (precedence * mode_templates); c_named : list (str * (template * precedence)) }.
(** 131-132. *)
Definition push_rule (p : precedence) (t : template) (rs : list (precedence * mode_templates)) (q : pattern) : list (precedence * mode_templates) :=
  update prec_eq p (fun ms => update str_eqb (tm_mode t) (fun l => or_empty l ++ [(q, t)]) (or_empty ms)) rs.
(** add_template, 123-151; [None] is the SAXException. *)
Definition add_template (c : compiled) (tp : template * precedence) : option compiled :=
  let (t, p) := tp in
  let rules := fold_left (push_rule p t) (tm_patterns t) (c_rules c) in
  match tm_name t with
  | [] => Some (Compiled rules (c_named c))
  | name =>
      match assoc str_eqb name (c_named c) with
      | Some (_, existing) =>
          if prec_gt existing p then Some (Compiled rules (c_named c))
          else if prec_eq existing p then None
          else Some (Compiled rules (update str_eqb name (fun _ => (t, p)) (c_named c)))
      | None => Some (Compiled rules (update str_eqb name (fun _ => (t, p)) (c_named c)))
      end
  end.
Fixpoint add_templates (c : compiled) (l : list (template * precedence)) : option compiled :=
  match l with
  | [] => Some c
  | tp :: l => match add_template c tp with Some c => add_templates c l | None => None end
  end.

(** A stable sort, whose result is the only one if [less] is a strict weak order. *)
Fixpoint insert_by {A} (less : A -> A -> bool) (x : A) (l : list A) : list A :=
  match l with [] => [x] | y :: r => if less y x then y :: insert_by less x r else x :: y :: r end.
Fixpoint sort_by {A} (less : A -> A -> bool) (l : list A) : list A :=
  match l with [] => [] | x :: l => insert_by less x (sort_by less l) end.
(** MatchTemplate::operator<, 329-333. *)
Definition higher (x y : match_template) : bool := SFltb (p_priority (fst y)) (p_priority (fst x)).
(** prepare, 171-181.  std::stable_sort with a NaN among the priorities, which lexical_cast
    reads, is undefined behaviour. *)
Definition sortable (l : list match_template) : bool := (length l <=? 1)%nat || forallb (fun x => negb (is_nan (p_priority (fst x)))) l.
Definition all_sortable (rs : list (precedence * mode_templates)) : bool := forallb (fun pm => forallb (fun ml => sortable (snd ml)) (snd pm)) rs.
Definition sort_modes (ms : mode_templates) : mode_templates := map (fun ml => (fst ml, sort_by higher (rev (snd ml)))) ms.
Definition sort_rules (rs : list (precedence * mode_templates)) : list (precedence * mode_templates) := map (fun pm => (fst pm, sort_modes (snd pm))) rs.
Definition prepare (c : compiled) : outcome compiled :=
  if all_sortable (c_rules c) then Val (Compiled (sort_rules (c_rules c)) (c_named c)) else UB.
(** Compiling a stylesheet with all it includes and imports; [None] if it is rejected. *)
Definition load (s : list (item template)) : outcome (option compiled) :=
  match compile s with
  | None => NoFuel
  | Some out => match add_templates (Compiled [] []) out with
                | None => Val None
                | Some c => match prepare c with Val c => Val (Some c) | UB => UB | NoFuel => NoFuel end
                end
  end.

(** doApplyTemplates, 235-267: the template that is chosen, with current_generation_; [None] if
    it goes on with defaultAction. *)
Definition lower_precedences (c : compiled) (generation : precedence) : list precedence :=
  rev (sort_by prec_lt (filter (is_descendant generation) (map fst (c_rules c)))).
Fixpoint first_match (c : compiled) (mode : str) (x : xnode) (l : list precedence) : option (template * precedence) :=
  match l with
  | [] => None
  | p :: l =>
      match find (fun m => p_matches (fst m) x) (or_empty (assoc str_eqb mode (or_empty (assoc prec_eq p (c_rules c))))) with
      | Some (_, t) => Some (t, p)
      | None => first_match c mode x l
      end
  end.
Definition choose (c : compiled) (generation : precedence) (mode : str) (x : xnode) : option (template * precedence) :=
  first_match c mode x (lower_precedences c generation).
(** callTemplate, 217-226; [None] is the SAXException. *)
Definition called (c : compiled) (name : str) : option template := option_map fst (assoc str_eqb name (c_named c)).
