(** Import precedence and the order in which stylesheets are compiled:
    include/XSLT/impl/xslt_precedence.hpp, handler/xslt_include_handler.hpp and
    xslt_compilation_context.hpp. *)
From Verif.Model Require Import Base.

(** * Precedence, xslt_precedence.hpp:6-122 *)
(** precedence_; children_ is only used by next_generation, and is kept by [reading].  The
    numbers are int; more than 2^31 imports in one stylesheet are not considered. *)
Definition precedence := list Z.
(** 9-13, 15-19. *)
Definition initial_precedence : precedence := [0].
Definition frozen_precedence : precedence := [].
(** 51-54. *)
Fixpoint prec_eq (l r : precedence) : bool :=
  match l, r with
  | [], [] => true
  | a :: l, b :: r => (a =? b) && prec_eq l r
  | _, _ => false
  end.
(** 64-74. *)
Fixpoint same_start (l other : precedence) : bool :=
  match l, other with
  | a :: l, b :: other => (b =? a) && same_start l other
  | _, _ => true
  end.
Definition is_descendant (l other : precedence) : bool :=
  if (length other <=? length l)%nat then false else same_start l other.
(** operator<, 91-108: the loop and what follows it. *)
Fixpoint less_loop (l r : precedence) : bool :=
  match l, r with
  | a :: l, b :: r => if a <? b then true else if b <? a then false else less_loop l r
  | [], _ :: _ => false
  | _, [] => true
  end.
Definition prec_lt (l r : precedence) : bool := if prec_eq l r then false else less_loop l r.
(** operator>, 110-113. *)
Definition prec_gt (l r : precedence) : bool := negb (prec_eq l r) && negb (prec_lt l r).

(** * Compiling a stylesheet with what it includes and imports *)
(** The top level elements of a stylesheet, with the stylesheets that their hrefs name: a
    finite tree, as check_for_loops sees to it that no stylesheet includes itself
    (xslt_include_handler.hpp:132-142).  [T] is what else is declared (templates, variables,
    keys). *)
Inductive item (T : Type) := Declares (t : T) | Includes (l : list (item T)) | Imports (l : list (item T)).
Arguments Declares {T} t. Arguments Includes {T} l. Arguments Imports {T} l.
(** CompilationContext::precedence_, as its numbers and children_; the import stack; and what
    was declared, with its precedence. *)
Record reading (T : Type) := Reading { r_prec : precedence; r_kids : Z; r_pending : list (list (item T) * precedence); r_out : list (T * precedence) }.
Arguments Reading {T} _ _ _ _. Arguments r_prec {T} r. Arguments r_kids {T} r. Arguments r_pending {T} r. Arguments r_out {T} r.
(** IncludeHandler::startElement and endElement, 49-105, with include_stylesheet, 150-173,
    which gives set_precedence the precedence that is set already; next_precedence,
    xslt_compilation_context.hpp:182-185, and next_generation, xslt_precedence.hpp:76-81.  The
    declarations take CompilationContext::precedence, e.g. xslt_template_handler.hpp:97-107. *)
Fixpoint read_item {T} (i : item T) (r : reading T) : reading T :=
  match i with
  | Declares t => Reading (r_prec r) (r_kids r) (r_pending r) (r_out r ++ [(t, r_prec r)])
  | Includes l => fold_left (fun r i => read_item i r) l r
  | Imports l => Reading (r_prec r) (r_kids r + 1) (r_pending r ++ [(l, r_prec r ++ [r_kids r + 1])]) (r_out r)
  end.
Definition read_items {T} (l : list (item T)) (r : reading T) : reading T := fold_left (fun r i => read_item i r) l r.
(** unwind_imports, 114-121, with ImportStack::current and pop, 217-226, and import_stylesheet,
    144-148. *)
Fixpoint unwind {T} (fuel : nat) (r : reading T) : option (reading T) :=
  let most_recent := (length (r_pending r) - 1)%nat in
  match nth_error (r_pending r) most_recent with
  | None => Some r
  | Some (l, p) =>
      match fuel with
      | O => None
      | S fuel =>
          let r := read_items l (Reading p 0 (r_pending r) (r_out r)) in
          unwind fuel (Reading (r_prec r) (r_kids r) (firstn most_recent (r_pending r) ++ skipn (S most_recent) (r_pending r)) (r_out r))
      end
  end.
(** The number of imports, which is enough fuel. *)
Fixpoint imports {T} (i : item T) : nat :=
  match i with
  | Declares _ => 0
  | Includes l => list_sum (map imports l)
  | Imports l => S (list_sum (map imports l))
  end.
(** StylesheetHandler, xslt_stylesheet_compiler.hpp:42-82: all that is declared, in the order in
    which it is added to the compiled stylesheet. *)
Definition compile {T} (l : list (item T)) : option (list (T * precedence)) :=
  match unwind (list_sum (map imports l)) (read_items l (Reading initial_precedence 0 [] [])) with
  | Some r => Some (r_out r)
  | None => None
  end.
