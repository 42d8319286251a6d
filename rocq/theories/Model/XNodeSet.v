(** Node sets: include/XPath/impl/xpath_object.hpp:180-302, and the string value of a node,
    444-485. *)
From Verif.Model Require Import Base XNode XAxis.

(** nodes_, forward_, sorted_. *)
Record nodeset := Set_ { s_nodes : list xnode; s_forward : bool; s_sorted : bool }.
(** The constructors, 189-202. *)
Definition new_set (forward : bool) : nodeset := Set_ [] forward false.
(** push_back of a node, 242-246; insert, 235-240: [at_] is the place of the iterator;
    push_back of a set, 248-251. *)
Definition push_node (x : xnode) (s : nodeset) : nodeset := Set_ (s_nodes s ++ [x]) (s_forward s) false.
Definition insert_nodes (at_ : nat) (l : list xnode) (s : nodeset) : nodeset :=
  Set_ (firstn at_ (s_nodes s) ++ l ++ skipn at_ (s_nodes s)) (s_forward s) false.
Definition push_set (r s : nodeset) : nodeset := insert_nodes (length (s_nodes s)) (s_nodes r) s.
(** forward(), reverse() and forward(bool), 253-262. *)
Definition is_forward (s : nodeset) : bool := s_sorted s && s_forward s.
Definition is_reverse (s : nodeset) : bool := s_sorted s && negb (s_forward s).
Definition set_forward (b : bool) (s : nodeset) : nodeset :=
  if Bool.eqb (s_forward s) b then s else Set_ (s_nodes s) b false.
(** std::unique, 287. *)
Fixpoint unique (l : list xnode) : list xnode :=
  match l with
  | x :: r => match r with
              | y :: _ => if xnode_eqb x y then unique r else x :: unique r
              | [] => [x]
              end
  | [] => []
  end.
(** What std::sort does with an ordering and a sequence is a parameter. *)
Definition sorter := (xnode -> xnode -> bool) -> list xnode -> list xnode.
(** sort, 275-289. *)
Definition sort (ss : sorter) (f : forest) (s : nodeset) : nodeset :=
  if s_sorted s then s
  else let l := if s_forward s then ss (nodes_less_than f) (s_nodes s) else rev (ss (nodes_less_than f) (rev (s_nodes s))) in
       Set_ (unique l) (s_forward s) true.
(** to_document_order, 264-273. *)
Definition to_document_order (ss : sorter) (f : forest) (s : nodeset) : nodeset :=
  let r := sort ss f s in
  if s_forward r then r else Set_ (rev (s_nodes r)) true (s_sorted r).
(** top, 291-297: the set after sorting and the node; none is a read outside the vector. *)
Definition top (ss : sorter) (f : forest) (s : nodeset) : nodeset * option xnode :=
  let r := sort ss f s in
  (r, if s_forward r then hd_error (s_nodes r) else hd_error (rev (s_nodes r))).
(** UnionExpression::evaluate, xpath_union.hpp:26-48, of two node sets. *)
Definition union (ss : sorter) (f : forest) (a b : nodeset) : nodeset :=
  match s_nodes a, s_nodes b with
  | [], _ => b
  | _, [] => a
  | _, _ => to_document_order ss f (insert_nodes (length (s_nodes a) - 1) (s_nodes b) a)
  end.

(** c_str. *)
Fixpoint cut_nul (s : str) : str := match s with [] => [] | c :: r => if c =? 0 then [] else c :: cut_nul r end.
(** nodeStringValue, 444-485.  For a text: its value and that of the texts right after it. *)
Fixpoint text_run (l : list xtree) : str :=
  match l with
  | k :: r => match r with
              | n :: _ => if tree_is_text n then cut_nul (i_value (t_info k) ++ text_run r) else i_value (t_info k)
              | [] => i_value (t_info k)
              end
  | [] => []
  end.
Definition text_value (t : xtree) (p : path) : str :=
  match p with
  | Kid i :: q => match subtree t q with Some w => text_run (skipn i (t_kids w)) | None => [] end
  | _ => match subtree t p with Some u => i_value (t_info u) | None => [] end
  end.
Fixpoint tree_size (t : xtree) : nat :=
  match t with
  | Xt _ attrs kids => S (length attrs + (fix go (l : list xtree) := match l with [] => O | k :: r => (tree_size k + go r)%nat end) kids)
  end.
(** None: an exception (an entity, a notation, a doctype, an entity reference) or, for an
    element, a walk that does not end well.  The walk is given a step for each node. *)
Definition string_value (t : xtree) (p : path) : option str :=
  match subtree t p with
  | None => None
  | Some u =>
      match t_kind u with
      | Xdocument | Xfragment | Xelement =>
          match enumerate (tree_size t) t 0 Descendant p with
          | Nodes l => Some (cut_nul (flat_map (fun q => if is_text t q then text_value t q else []) l))
          | _ => None
          end
      | Xattribute | Xpi | Xcomment | Xnamespace => Some (i_value (t_info u))
      | Xtext | Xcdata => Some (text_value t p)
      | Xdoctype | Xentityref => None
      end
  end.
(** NodeSetValue, xpath_value.hpp:173-186: asBool and asString. *)
Definition set_as_bool (s : nodeset) : bool := match s_nodes s with [] => false | _ => true end.
Definition set_as_string (ss : sorter) (f : forest) (s : nodeset) : option str :=
  match s_nodes s with
  | [] => Some []
  | _ => match snd (top ss f s) with Some (d, p) => string_value (f_tree f d) p | None => None end
  end.
