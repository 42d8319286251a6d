(** XSLT 1.0, sections 5.1, 5.4 to 5.8, 6, 7, 8, 9, 11.3 and 13: what the content of a template
    is instantiated to.  A node is taken as XPath sees it, except that adjacent text nodes are
    not joined. *)
From Verif.Model Require Import Base XNode XOutput Precedence Template XRun.
From Verif.Spec Require Import PrecedenceSpec TemplateSpec.

(** The current node, its position in the current node list and the size of this; and the
    current template rule: where it is, and its mode. *)
Record place := At { at_node : xnode; at_position : Z; at_size : Z; at_rule : option (address * str) }.
(** How an expression of the stylesheet sees it: its context node is the current node. *)
Definition sight (e : place) : view := View (at_node e) (at_node e) (at_position e) (at_size e).
(** The children of a node in XPath's data model: attributes have none, and there are no
    document type declarations. *)
Definition has_children (t : xtree) : bool := match t_kind t with Xdocument | Xfragment | Xelement => true | _ => false end.
Definition is_child (t : xtree) : bool := match t_kind t with Xelement | Xtext | Xcdata | Xcomment | Xpi => true | _ => false end.
Definition children (f : forest) (x : xnode) : list xnode :=
  match tree_at f x with
  | Some t => if has_children t
              then map (fun ik => (fst x, Kid (fst ik) :: snd x)) (filter (fun ik => is_child (snd ik)) (combine (seq 0 (length (t_kids t))) (t_kids t)))
              else []
  | None => []
  end.
(** Section 11.3.  Section 7.5: for xsl:copy only of nodes that are no elements and no roots. *)
Inductive copied : xtree -> list instruction -> Prop :=
| C_root i attrs kids out : i_kind i = Xdocument \/ i_kind i = Xfragment -> copied_all (attrs ++ kids) out -> copied (Xt i attrs kids) out
| C_element i attrs kids out : i_kind i = Xelement -> copied_all (attrs ++ kids) out ->
    copied (Xt i attrs kids) [IElement (i_prefix i) (i_local i) (i_uri i) out]
| C_attribute i attrs kids : i_kind i = Xattribute -> copied (Xt i attrs kids) [ICopyAttribute (i_uri i) (i_local i) (i_name i) (i_value i)]
| C_text i attrs kids : i_kind i = Xtext \/ i_kind i = Xcdata -> copied (Xt i attrs kids) [IText false (i_value i)]
| C_comment i attrs kids : i_kind i = Xcomment -> copied (Xt i attrs kids) [IComment [IText false (i_value i)]]
| C_pi i attrs kids : i_kind i = Xpi -> copied (Xt i attrs kids) [IPi (i_name i) [IText false (i_value i)]]
| C_other i attrs kids : i_kind i = Xdoctype \/ i_kind i = Xentityref \/ i_kind i = Xnamespace -> copied (Xt i attrs kids) []
with copied_all : list xtree -> list instruction -> Prop :=
| C_none : copied_all [] []
| C_next t l out outs : copied t out -> copied_all l outs -> copied_all (t :: l) (out ++ outs).
(** The nodes that are selected, in order. *)
Inductive nodes_copied (f : forest) : list xnode -> list instruction -> Prop :=
| N_none : nodes_copied f [] []
| N_next x l t out outs : tree_at f x = Some t -> copied t out -> nodes_copied f l outs -> nodes_copied f (x :: l) (out ++ outs).

(** [v] are the stylesheets in order of precedence, [body] the content of the templates.  Where
    only text may be created (sections 7.1.3, 7.3 and 7.4) an element is an error from which one
    recovers by ignoring it with its content: [k] says where this is so, and whether it is in the
    content of xsl:message, of which nothing comes into the result.  There is nothing for what is an error: a missing template, xsl:apply-imports without a
    current template rule, an expression whose evaluation fails, or xsl:message with terminate. *)
Inductive gives (f : forest) (v : list (address * list template)) (body : nat -> list action) : sink -> place -> action -> list instruction -> Prop :=
| G_text k e disable s : gives f v body k e (AText disable s) [IText disable s]
| G_value_of k e disable g s : g (sight e) = Some s -> gives f v body k e (AValueOf disable g) [IText disable s]
| G_element k e g p l u content out : k_inside k = false -> g (sight e) = Some (p, l, u) -> gives_all f v body k e content out ->
    gives f v body k e (AElement g content) [IElement p l u out]
| G_element_ignored k e g p l u content : k_inside k = true -> g (sight e) = Some (p, l, u) -> gives f v body k e (AElement g content) [IElement p l u []]
| G_attribute k e g p l u content out : g (sight e) = Some (p, l, u) -> gives_all f v body (inside k) e content out ->
    gives f v body k e (AAttribute g content) [IAttribute p l u out]
| G_comment k e content out : gives_all f v body (inside k) e content out -> gives f v body k e (AComment content) [IComment out]
| G_pi k e g t content out : g (sight e) = Some t -> gives_all f v body (inside k) e content out ->
    gives f v body k e (APi g content) [IPi t out]
| G_if k e g content out : g (sight e) = Some true -> gives_all f v body k e content out -> gives f v body k e (AIf g content) out
| G_if_not k e g content : g (sight e) = Some false -> gives f v body k e (AIf g content) []
| G_when k e before g content later otherwise out :
    (forall b, In b before -> fst b (sight e) = Some false) -> g (sight e) = Some true ->
    gives_all f v body k e content out -> gives f v body k e (AChoose (before ++ (g, content) :: later) otherwise) out
| G_otherwise k e whens otherwise out :
    (forall b, In b whens -> fst b (sight e) = Some false) ->
    gives_all f v body k e otherwise out -> gives f v body k e (AChoose whens otherwise) out
| G_for_each k e g nodes content out : g (sight e) = Some nodes ->
    gives_each f v body k content (Z.of_nat (length nodes)) 1 nodes out -> gives f v body k e (AForEach g content) out
| G_apply k e mode out :
    applies_each f v body k mode (Z.of_nat (length (children f (at_node e)))) 1 (children f (at_node e)) out ->
    gives f v body k e (AApply None mode) out
| G_apply_select k e g mode nodes out : g (sight e) = Some nodes ->
    applies_each f v body k mode (Z.of_nat (length nodes)) 1 nodes out -> gives f v body k e (AApply (Some g) mode) out
| G_imports k e a mode out : at_rule e = Some (a, mode) ->
    applies f v body k (imports_from a) mode (at_node e) (at_position e) (at_size e) out -> gives f v body k e AImports out
| G_call k e name t out : named v name t -> gives_all f v body k e (body (tm_body t)) out -> gives f v body k e (ACall name) out
| G_copy_root k e t content out : tree_at f (at_node e) = Some t -> t_kind t = Xdocument \/ t_kind t = Xfragment ->
    gives_all f v body k e content out -> gives f v body k e (ACopy content) out
| G_copy_element k e i attrs kids content out : k_inside k = false -> tree_at f (at_node e) = Some (Xt i attrs kids) -> i_kind i = Xelement ->
    gives_all f v body k e content out -> gives f v body k e (ACopy content) [IElement (i_prefix i) (i_local i) (i_uri i) out]
| G_copy_element_ignored k e i attrs kids content : k_inside k = true -> tree_at f (at_node e) = Some (Xt i attrs kids) -> i_kind i = Xelement ->
    gives f v body k e (ACopy content) [IElement (i_prefix i) (i_local i) (i_uri i) []]
| G_copy_other k e t content out : tree_at f (at_node e) = Some t -> t_kind t <> Xdocument -> t_kind t <> Xfragment -> t_kind t <> Xelement ->
    copied t out -> gives f v body k e (ACopy content) out
| G_copy_of_text k e g s : g (sight e) = Some (inl s) -> gives f v body k e (ACopyOf g) [IText false s]
| G_copy_of k e g nodes out : g (sight e) = Some (inr nodes) -> nodes_copied f nodes out -> gives f v body k e (ACopyOf g) out
| G_message k e content out : gives_all f v body (to_message k) e content out ->
    gives f v body k e (AMessage false content) []
(** The content of an element, in order. *)
with gives_all (f : forest) (v : list (address * list template)) (body : nat -> list action) : sink -> place -> list action -> list instruction -> Prop :=
| G_none k e : gives_all f v body k e [] []
| G_next k e a l out outs : gives f v body k e a out -> gives_all f v body k e l outs ->
    gives_all f v body k e (a :: l) (out ++ outs)
(** The content of xsl:for-each for the nodes from position [p] on, of [size]: there is no
    current template rule. *)
with gives_each (f : forest) (v : list (address * list template)) (body : nat -> list action) : sink -> list action -> Z -> Z -> list xnode -> list instruction -> Prop :=
| G_each_none k content size p : gives_each f v body k content size p [] []
| G_each k content size p x nodes out outs : gives_all f v body k (At x p size None) content out ->
    gives_each f v body k content size (p + 1) nodes outs ->
    gives_each f v body k content size p (x :: nodes) (out ++ outs)
(** Each of these nodes is processed by its template rule. *)
with applies_each (f : forest) (v : list (address * list template)) (body : nat -> list action) : sink -> str -> Z -> Z -> list xnode -> list instruction -> Prop :=
| P_each_none k mode size p : applies_each f v body k mode size p [] []
| P_each k mode size p x nodes out outs : applies f v body k (fun _ => True) mode x p size out ->
    applies_each f v body k mode size (p + 1) nodes outs ->
    applies_each f v body k mode size p (x :: nodes) (out ++ outs)
(** A node is processed by the rule that is chosen, or by the built-in rule. *)
with applies (f : forest) (v : list (address * list template)) (body : nat -> list action) : sink -> (address -> Prop) -> str -> xnode -> Z -> Z -> list instruction -> Prop :=
| P_rule k (scope : address -> Prop) mode x p size t a out : applied v scope mode x t a ->
    gives_all f v body k (At x p size (Some (a, mode))) (body (tm_body t)) out ->
    applies f v body k scope mode x p size out
| P_content k (scope : address -> Prop) mode x p size t out : none_applicable v scope mode x -> tree_at f x = Some t -> has_children t = true ->
    applies_each f v body k mode (Z.of_nat (length (children f x))) 1 (children f x) out ->
    applies f v body k scope mode x p size out
| P_text k (scope : address -> Prop) mode x p size i attrs kids : none_applicable v scope mode x -> tree_at f x = Some (Xt i attrs kids) ->
    i_kind i = Xattribute \/ i_kind i = Xtext \/ i_kind i = Xcdata ->
    applies f v body k scope mode x p size [IText false (i_value i)]
| P_nothing k (scope : address -> Prop) mode x p size t : none_applicable v scope mode x -> tree_at f x = Some t ->
    t_kind t = Xcomment \/ t_kind t = Xpi \/ t_kind t = Xnamespace ->
    applies f v body k scope mode x p size [].

(** * Stylesheets for which the results are the same *)
(** The code does not restore the position, the node that current() returns, and the current
    template rule after it processed other nodes.  So what comes later in the same template may
    not depend on them. *)
(** Whether other nodes are, or may be, processed. *)
Fixpoint moves (a : action) : bool :=
  match a with
  | AForEach _ _ | AApply _ _ | AImports | ACall _ => true
  | AElement _ l | AAttribute _ l | AComment l | APi _ l | AIf _ l | ACopy l | AMessage _ l => existsb moves l
  | AChoose whens otherwise => existsb (fun b => existsb moves (snd b)) whens || existsb moves otherwise
  | AText _ _ | AValueOf _ _ | ACopyOf _ => false
  end.
(** Expressions without position() and current(). *)
Definition unmoved {A} (g : expression A) : Prop := forall v w, w_node v = w_node w -> w_last v = w_last w -> g v = g w.
Definition each (P : action -> Prop) : list action -> Prop := fix go (l : list action) : Prop :=
  match l with [] => True | a :: l => P a /\ go l end.
Fixpoint unaffected (a : action) : Prop :=
  match a with
  | AText _ _ => True
  | AValueOf _ g => unmoved g
  | AElement g l | AAttribute g l => unmoved g /\ each unaffected l
  | AComment l | ACopy l | AMessage _ l => each unaffected l
  | APi g l => unmoved g /\ each unaffected l
  | AIf g l => unmoved g /\ each unaffected l
  | AChoose whens otherwise =>
      (fix go (l : list (expression bool * list action)) : Prop :=
         match l with [] => True | (g, b) :: l => (unmoved g /\ each unaffected b) /\ go l end) whens /\ each unaffected otherwise
  | AForEach g _ => unmoved g
  | AApply None _ => True
  | AApply (Some g) _ => unmoved g
  | AImports | ACall _ => False
  | ACopyOf g => unmoved g
  end.
Fixpoint no_imports (a : action) : bool :=
  match a with
  | AImports => false
  | AElement _ l | AAttribute _ l | AComment l | APi _ l | AIf _ l | ACopy l | AMessage _ l | AForEach _ l => forallb no_imports l
  | AChoose whens otherwise => forallb (fun b => forallb no_imports (snd b)) whens && forallb no_imports otherwise
  | ACall _ | AApply _ _ | AText _ _ | AValueOf _ _ | ACopyOf _ => true
  end.
(** Expressions select nodes of the trees, and attributes only if [attributes]. *)
Definition proper (f : forest) (attributes : bool) (x : xnode) : Prop :=
  exists t, tree_at f x = Some t /\ t_kind t <> Xdoctype /\ t_kind t <> Xentityref /\ (t_kind t = Xattribute -> attributes = true).
Definition selects (f : forest) (attributes : bool) (g : expression (list xnode)) : Prop :=
  forall v l, g v = Some l -> Forall (proper f attributes) l.
Definition in_order (P : action -> Prop) : list action -> Prop := fix go (l : list action) : Prop :=
  match l with [] => True | a :: l => P a /\ go l /\ (moves a = true -> each unaffected l) end.
(** If attributes are processed, no xsl:apply-templates is without select. *)
Fixpoint tidy (f : forest) (attributes : bool) (a : action) : Prop :=
  match a with
  | AText _ _ | AValueOf _ _ => True
  | AElement _ l | AAttribute _ l | AComment l | APi _ l | AIf _ l | ACopy l | AMessage _ l => in_order (tidy f attributes) l
  | AChoose whens otherwise =>
      (fix go (l : list (expression bool * list action)) : Prop :=
         match l with [] => True | (_, b) :: l => in_order (tidy f attributes) b /\ go l end) whens /\ in_order (tidy f attributes) otherwise
  | AForEach g l => selects f attributes g /\ forallb no_imports l = true /\ in_order (tidy f attributes) l
  | AApply None _ => attributes = false
  | AApply (Some g) _ => selects f attributes g
  | AImports => True
  | ACall name => name <> []
  | ACopyOf g => forall v l, g v = Some (inr l) -> forall x, In x l -> tree_at f x <> None
  end.
(** [v] as above; a template that is called has no xsl:apply-imports. *)
Definition tidy_sheet (f : forest) (attributes : bool) (v : list (address * list template)) (body : nat -> list action) : Prop :=
  (forall n, in_order (tidy f attributes) (body n)) /\
  forall a own t, In (a, own) v -> In t own -> tm_name t <> [] -> forallb no_imports (body (tm_body t)) = true.
(** Documents without document types and entity references. *)
Definition plain (f : forest) : Prop := forall x t, tree_at f x = Some t ->
  (has_children t = true -> forallb is_child (t_kids t) = true) /\ (has_children t = false -> t_kind t <> Xattribute -> t_kids t = []).

(** * Stylesheets whose execution ends *)
(** [y] is a node of the tree further down than [x]: a descendant or an attribute, say. *)
Definition down (s : xstep) : Prop := match s with Ns _ _ _ => False | _ => True end.
Definition below (f : forest) (x y : xnode) : Prop :=
  fst y = fst x /\ tree_at f y <> None /\ exists p, p <> [] /\ Forall down p /\ snd y = p ++ snd x.
Definition goes_below (f : forest) (g : expression (list xnode)) : Prop := forall v l, g v = Some l -> Forall (below f (w_node v)) l.
(** No templates are used. *)
Fixpoint stays (a : action) : bool :=
  match a with
  | AApply _ _ | AImports | ACall _ => false
  | AElement _ l | AAttribute _ l | AComment l | APi _ l | AIf _ l | ACopy l | AMessage _ l | AForEach _ l => forallb stays l
  | AChoose whens otherwise => forallb (fun b => forallb stays (snd b)) whens && forallb stays otherwise
  | AText _ _ | AValueOf _ _ | ACopyOf _ => true
  end.
(** Templates are only applied further down. *)
Fixpoint descends (f : forest) (a : action) : Prop :=
  match a with
  | AText _ _ | AValueOf _ _ | ACopyOf _ => True
  | AElement _ l | AAttribute _ l | AComment l | APi _ l | AIf _ l | ACopy l | AMessage _ l => each (descends f) l
  | AChoose whens otherwise =>
      (fix go (l : list (expression bool * list action)) : Prop :=
         match l with [] => True | (_, b) :: l => each (descends f) b /\ go l end) whens /\ each (descends f) otherwise
  | AForEach g l => forallb stays l = true \/ (goes_below f g /\ each (descends f) l)
  | AApply None _ => True
  | AApply (Some g) _ => goes_below f g
  | AImports | ACall _ => False
  end.
