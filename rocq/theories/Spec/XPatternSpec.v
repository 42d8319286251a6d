(** How XSLT 1.0 writes patterns as text (section 5.2), and the priority a pattern has when the
    template rule does not say one (section 5.5). *)
From Coq Require Import String Floats.SpecFloat.
From Verif.Model Require Import Base XNode XAxis XNumber XCompare XStep XSort XEval XMatch.
From Verif.Spec Require Import XParseSpec.
From Coq Require Import List. Import ListNotations. Open Scope Z_scope.

(** ChildOrAttributeAxisSpecifier, [6]: whether it is the attribute axis, and whether it is written
    out.  (A blank before the colons is left out.) *)
Inductive pattern_axis : str -> bool -> bool -> Prop :=
  | child_default : pattern_axis [] false false
  | attribute_sign : pattern_axis [64] true false
  | child_in_full : pattern_axis (ascii_str "child::") false true
  | attribute_in_full : pattern_axis (ascii_str "attribute::") true true.
Inductive link_written : str -> link -> Prop :=
  | one_slash : link_written [47] OneSlash
  | two_slashes : link_written [47; 47] TwoSlashes.
Definition unblanked (s : str) : Prop := Forall (fun c => ~ In c [32; 9; 10; 13]) s.
Section with_context.
Context (uri : str -> option str) (number : str -> option spec_float).
(** StepPattern, [5], and whether it is written tightly, with no blank in its node test nor next
    to it.  (Blanks in node() and next to it are left out, and so are those before the axis.) *)
Inductive step_pattern : str -> pstep -> bool -> Prop :=
  | node_step a attribute spelled u qs : pattern_axis a attribute spelled -> predicates_written uri number u qs ->
      step_pattern (a ++ ascii_str "node()" ++ u) (PStep attribute spelled OfNode qs) true
  | test_step a attribute spelled v t n w u qs (tight : bool) : pattern_axis a attribute spelled -> blank v -> test_written uri t n -> n <> OfNode -> blank w ->
      predicates_written uri number u qs -> (tight = true -> v = [] /\ unblanked t /\ w = []) ->
      step_pattern (a ++ v ++ t ++ w ++ u) (PStep attribute spelled n qs) tight.
(** RelativePathPattern, [4]. *)
Inductive relative_pattern : str -> pstep -> list (link * pstep) -> bool -> Prop :=
  | one_step s p tight : step_pattern s p tight -> relative_pattern s p [] tight
  | step_and_more s p tight sep l t q r tight' : step_pattern s p tight -> link_written sep l -> relative_pattern t q r tight' ->
      relative_pattern (s ++ sep ++ t) p ((l, q) :: r) tight.
(** LocationPathPattern, [2], but for id(...) and key(...). *)
Inductive location_pattern : str -> location -> bool -> Prop :=
  | root_pattern : location_pattern [47] TheRoot true
  | anywhere_pattern s p r tight : relative_pattern s p r tight -> ~ begins (fun c => In c [32; 9; 10; 13]) s -> location_pattern s (Steps Anywhere p r) tight
  | root_path_pattern s p r tight : relative_pattern s p r tight -> location_pattern (47 :: s) (Steps FromRoot p r) tight
  | below_pattern s p r tight : relative_pattern s p r tight -> location_pattern (47 :: 47 :: s) (Steps Below p r) tight.
(** Pattern, [1]. *)
Inductive pattern_written : str -> list (location * bool) -> Prop :=
  | one_pattern w s p v (tight : bool) tight' : blank w -> location_pattern s p tight' -> blank v -> (tight = true -> tight' = true /\ v = []) ->
      pattern_written (w ++ s ++ v) [(p, tight)]
  | more_patterns w s p v (tight : bool) tight' t ps : blank w -> location_pattern s p tight' -> blank v -> (tight = true -> tight' = true /\ v = []) ->
      pattern_written t ps -> pattern_written (w ++ s ++ v ++ 124 :: t) ((p, tight) :: ps).
End with_context.

(** * Default priorities, section 5.5 *)
Definition quarters (z : Z) : spec_float := SFdiv 53 1024 (of_Z z) (of_Z 4).
Definition test_priority (s : test) : spec_float :=
  match s with
  | Named _ | NamedIn _ _ _ => quarters 0
  | OfPi (_ :: _) => quarters 0
  | AnyIn _ _ => quarters (-1)
  | _ => quarters (-2)
  end.
Definition priority_of (p : location) : spec_float :=
  match p with
  | Steps Anywhere (PStep _ _ s []) [] => test_priority s
  | _ => quarters 2
  end.
(** Where the toolkit gives these: a single name, name with a prefix, prefix with a star, or
    processing-instruction(), is written tightly; a predicate alone does not come after a name
    with a prefix, a prefix with a star or processing-instruction(...). *)
Definition priority_right (p : location) (tight : bool) : Prop :=
  match p with
  | Steps Anywhere (PStep attribute spelled s qs) [] =>
      match qs with
      | [] => match s with Named _ | NamedIn _ _ _ | AnyIn _ _ | OfPi [] => tight = true | _ => True end
      | [_] => attribute = true \/ spelled = true \/
               match s with NamedIn _ _ _ | AnyIn _ _ | OfPi (_ :: _) => False | OfPi [] => tight = true | _ => True end
      | _ => True
      end
  | _ => True
  end.

(** The same pattern, but for parentheses around paths in the predicates. *)
Definition step_alike (p q : pstep) : Prop :=
  ps_attribute p = ps_attribute q /\ ps_spelled p = ps_spelled q /\ ps_test p = ps_test q /\ map flat (ps_predicates p) = map flat (ps_predicates q).
Definition alike (p q : location) : Prop :=
  match p, q with
  | TheRoot, TheRoot => True
  | Steps s a l, Steps s' a' l' => s = s' /\ step_alike a a' /\ Forall2 (fun x y => fst x = fst y /\ step_alike (snd x) (snd y)) l l'
  | _, _ => False
  end.
(** A pattern without predicates is only like itself. *)
Definition plain (p : location) : Prop :=
  match p with TheRoot => True | Steps _ a l => ps_predicates a = [] /\ Forall (fun x => ps_predicates (snd x) = []) l end.
