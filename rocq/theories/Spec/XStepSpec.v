(** XPath 1.0 sections 2 to 2.4: location paths, node tests and predicates. *)
From Coq Require Import SpecFloat Sorted.
From Verif.Model Require Import Base XNode XAxis XNodeSet XCompare XStep.
From Verif.Spec Require Import XOrder XAxisSpec XNodeSetSpec XCompareSpec.

(** The principal node type of an axis, and when a node test is true of a node on it.  A node
    test is as written, with the namespace its prefix stands for; OfPi [] has no literal. *)
Definition principal (a : axis) : xkind :=
  match a with Attribute => Xattribute | Namespace => Xnamespace | _ => Xelement end.
Definition node_passes (a : axis) (s : test) (i : xinfo) : Prop :=
  match s with
  | Named name => i_kind i = principal a /\ i_uri i = [] /\ i_name i = name
  | NamedIn _ uri name => i_kind i = principal a /\ i_uri i = uri /\ i_local i = name
  | Any => i_kind i = principal a
  | AnyIn _ uri => i_kind i = principal a /\ i_uri i = uri
  | OfNode => True
  | OfText => i_kind i = Xtext \/ i_kind i = Xcdata
  | OfComment => i_kind i = Xcomment
  | OfPi target => i_kind i = Xpi /\ (target = [] \/ i_name i = target)
  end.

(** What an expression means for a context node, a context position and a context size. *)
Definition meaning := xnode -> Z -> Z -> value -> Prop.
(** A predicate holds at a position when its value is a number equal to it, or, if not a
    number, when it is true. *)
Definition holds (v : value) (position : Z) : Prop :=
  match v with VNum n => numbers OpEq n (of_Z position) | _ => truth v = true end.
(** What a predicate leaves of a list: each node is tried with its position in the list. *)
Inductive kept (q : meaning) (size : Z) : Z -> list xnode -> list xnode -> Prop :=
  | kept_end : forall position, kept q size position [] []
  | kept_in : forall position x l m v, q x position size v -> holds v position -> kept q size (position + 1) l m -> kept q size position (x :: l) (x :: m)
  | kept_out : forall position x l m v, q x position size v -> ~ holds v position -> kept q size (position + 1) l m -> kept q size position (x :: l) m.
(** Predicates, one after the other, each on what the one before leaves. *)
Inductive filtered : list meaning -> list xnode -> list xnode -> Prop :=
  | filtered_end : forall l, filtered [] l l
  | filtered_by : forall q qs l m n, kept q (Z.of_nat (length l)) 1 l m -> filtered qs m n -> filtered (q :: qs) l n.
(** A step from a node: the nodes of the axis, in its order, that pass the test, filtered. *)
Definition step_list (f : forest) (a : axis) (s : test) (qs : list meaning) (x : xnode) (l : list xnode) : Prop :=
  let t := f_tree f (fst x) in
  exists nodes tested, axis_list t a (snd x) nodes /\
    picks (fun p => exists u, subtree t p = Some u /\ node_passes a s (t_info u)) nodes tested /\
    filtered qs (map (pair (fst x)) tested) l.

(** The steps of a location path, and what it gives from some nodes.  A step from a set is
    taken from each of its nodes.  The first step may be an expression whose value is a set of
    nodes: its predicates see them in document order.  (Another value is an error by XPath; it
    stands here for no nodes.) *)
Inductive wanted := ByAxis (a : axis) (s : test) (qs : list meaning) | ByValue (v : meaning) (qs : list meaning).
Inductive gives (f : forest) (position last : Z) : list wanted -> list xnode -> list xnode -> Prop :=
  | gives_here : forall l m, (forall x, In x l <-> In x m) -> gives f position last [] l m
  | gives_axis : forall a s qs r l m g, (forall x, In x l -> step_list f a s qs x (g x)) -> gives f position last r (flat_map g l) m ->
      gives f position last (ByAxis a s qs :: r) l m
  | gives_value : forall (v : meaning) qs r l m x w n, (forall y, In y l <-> y = x) -> v x position last w ->
      match w with VSet s => exists o, (forall y, In y o <-> In y (s_nodes s)) /\ StronglySorted (precedes f) o /\ filtered qs o n | _ => n = [] end ->
      gives f position last r n m -> gives f position last (ByValue v qs :: r) l m.

(** A whole document: its size is less than 2147483648, and attributes have only text in them. *)
Definition whole_document (t : xtree) : Prop :=
  t_kind t = Xdocument /\ shape_ok t /\ small t /\ Z.of_nat (length (order t [])) < 2147483648 /\
  (forall p u, In p (order t []) -> subtree t p = Some u -> t_kind u <> Xnamespace) /\
  (forall i p u k, In (Att i :: p) (order t []) -> subtree t (Att i :: p) = Some u -> In k (t_kids u) -> t_kind k = Xtext).
(** Where steps do what they should: not on the namespace axis, not for attributes called
    xmlns; the preceding axis in a document without adjacent texts, and not to the texts below
    an attribute ([from] tells whether the step may start at an attribute). *)
Definition step_allowed (t : xtree) (from : bool) (a : axis) (s : test) : Prop :=
  a <> Namespace /\ (a = Preceding -> normal t) /\ (a = Child -> from = true -> s <> OfNode /\ s <> OfText) /\
  (a = Attribute -> match s with Named name => name <> xmlns | NamedIn prefix _ _ | AnyIn prefix _ => prefix <> xmlns | _ => True end).
Definition to_attribute (a : axis) (from : bool) : bool :=
  match a with Attribute => true | Self | AncestorOrSelf | DescendantOrSelf => from | _ => false end.
Fixpoint steps_allowed (t : xtree) (from : bool) (steps : list (axis * test)) : Prop :=
  match steps with [] => True | (a, s) :: r => step_allowed t from a s /\ steps_allowed t (to_attribute a from) r end.
(** An expression of the code as a meaning. *)
Definition computes (q : expression) : meaning := fun x position last v => q x position last = Got v.
