(** ElementByTagList, include/DOM/Simple/ElementByTagImpl.hpp: the live lists that
    getElementsByTagName and getElementsByTagNameNS return. *)
From Verif.Model Require Import Base Dom.

(** The constructors, 19-54.  [tl_ns] is Some exactly if useNamespace_ is set. *)
Record tag_list := TagList {
  tl_root : nat; tl_doc : nat; tl_ns : option str; tl_tag : str;
  tl_nodes : list nat; tl_changes : Z }.
Definition star : str := [42].
(** The tests of checkNode, 105-118.  getNodeName is the (qualified) name, getLocalName
    empty for an element made without a namespace (NodeImpl.hpp:140).  The list calls
    checkNode for elements only. *)
Definition tag_matches (h : heap) (ns : option str) (tag : str) (n : nat) : bool :=
  match ns with
  | Some uri =>
      ((match n_uri (h n) with Some u => str_eqb uri u | None => false end) || str_eqb uri star)
      && (str_eqb tag (n_local (h n)) || (str_eqb tag star && has_kind h n KElement))
  | None => str_eqb tag (n_name (h n)) || (str_eqb tag star && has_kind h n KElement)
  end.
(** checkNode and checkChildren, 105-129, by first child and next sibling.  None: fuel. *)
Fixpoint check_children (fuel : nat) (h : heap) (ns : option str) (tag : str) (child : option nat) : option (list nat) :=
  match fuel with
  | O => None
  | S f =>
      match child with
      | None => Some []
      | Some c =>
          let here :=
            if has_kind h c KElement then
              match check_children f h ns tag (first_child h c) with
              | Some l => Some ((if tag_matches h ns tag c then [c] else []) ++ l)
              | None => None
              end
            else Some [] in
          match here, check_children f h ns tag (n_next (h c)) with
          | Some a, Some b => Some (a ++ b)
          | _, _ => None
          end
      end
  end.
(** populate, 95-103.  changes_ is an unsigned int and the document's counter an unsigned
    long: the comparison of item and getLength then differs once the counter passes 2^32,
    and the list is built afresh each time.  Here both are unbounded. *)
Definition populate (fuel : nat) (h : heap) (l : tag_list) : option tag_list :=
  match check_children fuel h (tl_ns l) (tl_tag l) (first_child h (tl_root l)) with
  | Some nodes => Some (TagList (tl_root l) (tl_doc l) (tl_ns l) (tl_tag l) nodes (n_changes (h (tl_doc l))))
  | None => None
  end.
Definition make_list (fuel : nat) (h : heap) (doc root : nat) (ns : option str) (tag : str) : option tag_list :=
  populate fuel h (TagList root doc ns tag [] 0).
Definition refresh (fuel : nat) (h : heap) (l : tag_list) : option tag_list :=
  if Z.eqb (tl_changes l) (n_changes (h (tl_doc l))) then Some l else populate fuel h l.
(** getLength, 86-92. *)
Definition list_length (fuel : nat) (h : heap) (l : tag_list) : option (tag_list * Z) :=
  match refresh fuel h l with
  | Some l' => Some (l', Z.of_nat (length (tl_nodes l')))
  | None => None
  end.
(** item, 75-84: the bound is tested against the old nodes_.  UB: the index is out of the
    new ones. *)
Definition list_item (fuel : nat) (h : heap) (l : tag_list) (index : nat) : outcome (tag_list * option nat) :=
  if (length (tl_nodes l) <=? index)%nat then Val (l, None)
  else match refresh fuel h l with
       | None => NoFuel
       | Some l' => match nth_error (tl_nodes l') index with
                    | Some n => Val (l', Some n)
                    | None => UB
                    end
       end.
(** setPrefix of an element made with a namespace, ElementNSImpl.hpp:88-97: the name
    changes and the document's counter does not.  The checks are left out. *)
Definition set_qname (h : heap) (n : nat) (name : str) : heap := upd h n (set_name_f name).
