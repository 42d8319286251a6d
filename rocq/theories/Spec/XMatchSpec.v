(** XSLT 1.0 section 5.2: which nodes a pattern matches. *)
From Verif.Model Require Import Base XNode XAxis XNodeSet XCompare XStep XEval XMatch.
From Verif.Spec Require Import XOrder XAxisSpec XNodeSetSpec XStepSpec.

(** * A pattern as an expression *)
(** The steps of a location path one after the other, from one node to one node. *)
Inductive leads (f : forest) : list (axis * test * list meaning) -> xnode -> xnode -> Prop :=
  | leads_nowhere : forall x, leads f [] x x
  | leads_on : forall a s qs r x y z l, step_list f a s qs x l -> In y l -> leads f r y z -> leads f ((a, s, qs) :: r) x z.
(** A step of a pattern is a step along the child axis or the attribute axis; [//] is short for
    [/descendant-or-self::node()/]. *)
Definition step_axis (p : pstep) : axis := if ps_attribute p then Attribute else Child.
Definition as_step (k : env) (p : pstep) : axis * test * list meaning := (step_axis p, ps_test p, map (fun e => computes (eval k e)) (ps_predicates p)).
Definition at_any_depth : axis * test * list meaning := (DescendantOrSelf, OfNode, []).
Fixpoint further_steps (k : env) (rest : list (link * pstep)) : list (axis * test * list meaning) :=
  match rest with
  | [] => []
  | (OneSlash, p) :: r => as_step k p :: further_steps k r
  | (TwoSlashes, p) :: r => at_any_depth :: as_step k p :: further_steps k r
  end.
(** A node matches a pattern if there is some possible context (the node itself, or one above
    it) such that the node is a member of what the pattern gives as an expression there; an
    absolute pattern starts at the root of the document in any context. *)
Definition is_match (k : env) (p : location) (x : xnode) : Prop :=
  match p with
  | TheRoot => snd x = []
  | Steps Anywhere p r => exists c, (is_above c (snd x) \/ c = snd x) /\ leads (e_forest k) (as_step k p :: further_steps k r) (fst x, c) x
  | Steps FromRoot p r => leads (e_forest k) (as_step k p :: further_steps k r) (fst x, []) x
  | Steps Below p r => leads (e_forest k) (at_any_depth :: as_step k p :: further_steps k r) (fst x, []) x
  end.

(** * Where the matching is right *)
(** An expression that is a number by its form, and one that asks for the position in an operand. *)
Definition numeric (e : expr) : bool :=
  match e with
  | ENumber _ | EArith _ _ _ | ENegate _ => true
  | ECall g _ => match g with Position | Last | Count | StringLength | Number | Sum | Floor | Ceiling | Round => true | _ => false end
  | _ => false
  end.
Fixpoint asks_position (e : expr) : bool :=
  match e with
  | EOr a b | EAnd a b | ERel _ a b | EArith _ a b | EUnion a b => asks_position a || asks_position b
  | ENegate a => asks_position a
  | ECall Position _ | ECall Last _ => true
  | _ => false
  end.
(** An expression whose value does not depend on the position: position() and last() are
    nowhere in it, except in the predicates of its paths, where they speak of other nodes. *)
Fixpoint positionless (e : expr) : bool :=
  match e with
  | ENumber _ | ELiteral _ | EVariable _ _ => true
  | EOr a b | EAnd a b | ERel _ a b | EArith _ a b | EUnion a b => positionless a && positionless b
  | ENegate a => positionless a
  | ECall Position _ | ECall Last _ => false
  | ECall _ args => forallb (fun b => b) (map positionless args)
  | EPath _ steps => forallb (fun b => b) (map (fun s => match s with AxisStep _ _ _ => true | FilterStep e _ => positionless e end) steps)
  end.
(** A predicate that picks by position openly; one that does not pick by position.  (A variable
    may turn out to be a number.) *)
Definition by_position (e : expr) : Prop := numeric e = true \/ asks_position e = true.
Definition by_truth (e : expr) : Prop :=
  numeric e = false /\ positionless e = true /\ match e with EVariable _ _ => False | _ => True end.
(** The predicate has a value at every node of the document. *)
Definition has_value (k : env) (d : nat) (e : expr) : Prop :=
  forall x position last, fst x = d -> In (snd x) (nodes (f_tree (e_forest k) d)) -> exists v, eval k e x position last = Got v.
Definition step_sound (k : env) (d : nat) (p : pstep) : Prop :=
  Forall (has_value k d) (ps_predicates p) /\
  if ps_attribute p
  then Forall by_truth (ps_predicates p) /\ match ps_test p with Named name => name <> xmlns | NamedIn prefix _ _ | AnyIn prefix _ => prefix <> xmlns | _ => True end
  else Forall (fun e => by_position e \/ by_truth e) (ps_predicates p).
(** No node passes the tests of two steps. *)
Definition fits (p : pstep) (i : xinfo) : Prop := (ps_attribute p = true <-> i_kind i = Xattribute) /\ node_passes (step_axis p) (ps_test p) i.
Definition apart (p q : pstep) : Prop := forall i, fits p i -> fits q i -> False.
Fixpoint links_sound (p : pstep) (rest : list (link * pstep)) : Prop :=
  match rest with
  | [] => True
  | (OneSlash, q) :: r => links_sound q r
  | (TwoSlashes, q) :: r => apart p q /\ links_sound q r
  end.
Definition location_sound (k : env) (d : nat) (p : location) : Prop :=
  match p with TheRoot => True | Steps _ first rest => step_sound k d first /\ Forall (fun lq => step_sound k d (snd lq)) rest /\ links_sound first rest end.
(** A document has its root at the top only. *)
Definition one_root (t : xtree) : Prop := forall p u, In p (order t []) -> p <> [] -> subtree t p = Some u -> t_kind u <> Xfragment.
(** The node is one of XPath: attributes that declare namespaces are not. *)
Definition matchable (t : xtree) (p : path) : Prop :=
  In p (nodes t) /\ forall u, subtree t p = Some u -> t_kind u = Xattribute -> i_uri (t_info u) <> xmlns_uri.
