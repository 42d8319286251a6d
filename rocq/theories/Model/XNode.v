(** The nodes XPath works on: include/XPath/impl/xpath_object.hpp:38-177 and
    xpath_namespace_node.hpp.

    A tree is immutable here, and a node is the way from the root to it: an XPath evaluation
    does not change the document.  That getParentNode, getFirstChild, getNextSibling and
    getPreviousSibling of the DOM describe such trees is C21 (Props/DomProps.v).  Entity
    and notation nodes are not modelled. *)
From Verif.Model Require Import Base.

Inductive xkind := Xdocument | Xfragment | Xelement | Xattribute | Xtext | Xcdata | Xcomment | Xpi | Xdoctype | Xentityref | Xnamespace.
Definition xkind_eqb (a b : xkind) : bool :=
  match a, b with
  | Xdocument, Xdocument | Xfragment, Xfragment | Xelement, Xelement | Xattribute, Xattribute | Xtext, Xtext
  | Xcdata, Xcdata | Xcomment, Xcomment | Xpi, Xpi | Xdoctype, Xdoctype | Xentityref, Xentityref | Xnamespace, Xnamespace => true
  | _, _ => false
  end.
(** getNodeType, getNodeName, getPrefix, getLocalName, getNamespaceURI, getNodeValue. *)
Record xinfo := Info { i_kind : xkind; i_name : str; i_prefix : str; i_local : str; i_uri : str; i_value : str }.
(** A node with its attributes, in the order of its NamedNodeMap, and its children.  An
    attribute is a tree too: it has text children. *)
Inductive xtree := Xt (i : xinfo) (attrs kids : list xtree).
Definition t_info (t : xtree) : xinfo := let 'Xt i _ _ := t in i.
Definition t_attrs (t : xtree) : list xtree := let 'Xt _ a _ := t in a.
Definition t_kids (t : xtree) : list xtree := let 'Xt _ _ k := t in k.
Definition t_kind (t : xtree) : xkind := i_kind (t_info t).

(** A step down: a child, an attribute, or a namespace node.  The axis makes new namespace
    nodes each time (xpath_axis_enumerator.hpp:518-524): [id] tells them apart. *)
Inductive xstep := Kid (i : nat) | Att (i : nat) | Ns (id : nat) (prefix uri : str).
(** The steps from the root to the node, the last one first. *)
Definition path := list xstep.
Definition xstep_eqb (a b : xstep) : bool :=
  match a, b with
  | Kid i, Kid j | Att i, Att j => Nat.eqb i j
  | Ns i p u, Ns j q v => Nat.eqb i j && str_eqb p q && str_eqb u v
  | _, _ => false
  end.
Fixpoint path_eqb (a b : path) : bool :=
  match a, b with
  | [], [] => true
  | x :: p, y :: q => xstep_eqb x y && path_eqb p q
  | _, _ => false
  end.
(** NamespaceNodeImpl, xpath_namespace_node.hpp:75-118. *)
Definition ns_tree (prefix uri : str) : xtree := Xt (Info Xnamespace prefix [] prefix [] uri) [] [].
Fixpoint subtree (t : xtree) (p : path) : option xtree :=
  match p with
  | [] => Some t
  | s :: q =>
      match subtree t q with
      | None => None
      | Some u => match s with
                  | Kid i => nth_error (t_kids u) i
                  | Att i => nth_error (t_attrs u) i
                  | Ns _ p v => Some (ns_tree p v)
                  end
      end
  end.

(** getParentNode (null for an attribute), getOwnerElement, getFirstChild, getNextSibling,
    getPreviousSibling. *)
Definition parent (p : path) : option path :=
  match p with Kid _ :: q | Ns _ _ _ :: q => Some q | _ => None end.
Definition owner_element (p : path) : option path := match p with Att _ :: q => Some q | _ => None end.
Definition first_child (t : xtree) (p : path) : option path :=
  match subtree t p with Some (Xt _ _ (_ :: _)) => Some (Kid 0 :: p) | _ => None end.
Definition next_sibling (t : xtree) (p : path) : option path :=
  match p with
  | Kid i :: q =>
      match subtree t q with
      | Some u => match nth_error (t_kids u) (S i) with Some _ => Some (Kid (S i) :: q) | None => None end
      | None => None
      end
  | _ => None
  end.
Definition prev_sibling (p : path) : option path :=
  match p with Kid (S i) :: q => Some (Kid i :: q) | _ => None end.
Definition is_kind (t : xtree) (p : path) (k : xkind) : bool :=
  match subtree t p with Some u => xkind_eqb (t_kind u) k | None => false end.

(** * Document order *)
(** 32 bit unsigned int, and its conversion to int. *)
Definition wrap32 (z : Z) : Z := z mod 4294967296.
Definition as_int (z : Z) : Z := let u := wrap32 z in if u <? 2147483648 then u else u - 4294967296.
(** node_child_position, xpath_object.hpp:57-79, with node_attribute_index, 46-55: for a child
    the loop goes back over the siblings and adds 1000 for each and for itself. *)
Fixpoint back_count (i : nat) : Z :=
  match i with O => wrap32 1000 | S j => wrap32 (back_count j + 1000) end.
Definition child_position (s : xstep) : Z :=
  match s with Kid i => back_count i | Att i => wrap32 (Z.of_nat i + 1) | Ns _ _ _ => 0 end.
(** node_position, 110-122, the root first: node_parent_or_owner, 38-44, drops a step. *)
Fixpoint positions (p : path) : list Z :=
  match p with [] => [back_count 0] | s :: q => positions q ++ [child_position s] end.
(** The loop of compareNodes, 152-167. *)
Fixpoint compare_positions (a b : list Z) : Z :=
  match a, b with
  | x :: a', y :: b' => if x =? y then compare_positions a' b' else as_int (x - y)
  | _ :: _, [] => 1
  | [], _ :: _ => -1
  | [], [] => 0
  end.
(** Documents and the trees that belong to them: the tree of a number, the number of its owner
    document, and the address of its root. *)
Record forest := Forest { f_tree : nat -> xtree; f_doc : nat -> nat; f_addr : nat -> Z }.
Definition xnode : Type := nat * path.
Definition xnode_eqb (x y : xnode) : bool := Nat.eqb (fst x) (fst y) && path_eqb (snd x) (snd y).
(** resolve_different_subtrees, 94-109: the last line compares an address with itself. *)
Definition different_subtrees (f : forest) (x y : xnode) : Z :=
  if xkind_eqb (t_kind (f_tree f (fst x))) Xdocument then -1
  else if xkind_eqb (t_kind (f_tree f (fst y))) Xdocument then 1
  else if f_addr f (fst x) <? f_addr f (fst x) then -1 else 1.
(** compareNodes, 132-168. *)
Definition compare_nodes (f : forest) (x y : xnode) : Z :=
  if xnode_eqb x y then 0
  else if negb (Nat.eqb (f_doc f (fst x)) (f_doc f (fst y))) then
    if f_addr f (f_doc f (fst x)) <? f_addr f (f_doc f (fst y)) then 1 else -1
  else if negb (Nat.eqb (fst x) (fst y)) then different_subtrees f x y
  else compare_positions (positions (snd x)) (positions (snd y)).
(** nodes_less_than, 171-175. *)
Definition nodes_less_than (f : forest) (x y : xnode) : bool := compare_nodes f x y <? 0.
