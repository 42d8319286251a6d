(** The axes: include/XPath/impl/xpath_axis_enumerator.hpp.  The context node is not null. *)
From Verif.Model Require Import Base XNode.

Inductive axis := Ancestor | AncestorOrSelf | Attribute | Child | Descendant | DescendantOrSelf | Following
  | FollowingSibling | Namespace | Parent | Preceding | PrecedingSibling | Self.
(** The argument of AxisWalker's constructor, 200-703. *)
Definition axis_forward (a : axis) : bool :=
  match a with Ancestor | AncestorOrSelf | Parent | Preceding | PrecedingSibling => false | _ => true end.

(** nodeIsText, 189-193. *)
Definition tree_is_text (t : xtree) : bool := match t_kind t with Xtext | Xcdata => true | _ => false end.
Definition is_text (t : xtree) (p : path) : bool := match subtree t p with Some u => tree_is_text u | None => false end.

(** findNextSibling, 160-169: the loop goes over the rest of the child list. *)
Fixpoint skip_texts (l : list xtree) (i : nat) : option nat :=
  match l with [] => None | k :: r => if tree_is_text k then skip_texts r (S i) else Some i end.
Definition find_next_sibling (t : xtree) (p : path) : option path :=
  if negb (is_text t p) then next_sibling t p
  else match p with
       | Kid i :: q => match subtree t q with
                       | Some u => option_map (fun j => Kid j :: q) (skip_texts (skipn (S i) (t_kids u)) (S i))
                       | None => None
                       end
       | _ => None
       end.
(** findPreviousSibling, 171-186: the loop goes back over the child list. *)
Fixpoint back_texts (kids : list xtree) (i : nat) : nat :=
  match i with
  | O => O
  | S j => match nth_error kids j with
           | Some k => if tree_is_text k then back_texts kids j else i
           | None => i
           end
  end.
Definition find_previous_sibling (t : xtree) (p : path) : option path :=
  match prev_sibling p with
  | None => None
  | Some q => if negb (is_text t q) then Some q
              else match q with
                   | Kid i :: r => match subtree t r with Some u => Some (Kid (back_texts (t_kids u) i) :: r) | None => None end
                   | _ => Some q
                   end
  end.

(** A pointer, or a call through the null pointer, which is undefined. *)
Inductive moved := To (p : option path) | Undefined.
Definition opt_path_eqb (a b : option path) : bool :=
  match a, b with Some p, Some q => path_eqb p q | None, None => true | _, _ => false end.
(** The loop that looks for the next sibling of a parent, 150-156, 352-358, 433-438, from
    [parent] = [p]. *)
Fixpoint up (t : xtree) (origin : option path) (p : path) : moved :=
  if opt_path_eqb (Some p) origin then To None
  else match next_sibling t p with
       | Some n => To (Some n)
       | None => match p with
                 | Kid _ :: q | Ns _ _ _ :: q => up t origin q
                 | _ => match origin with None => To None | Some _ => Undefined end
                 end
       end.
Definition up_from (t : xtree) (origin : option path) (p : option path) : moved :=
  match p with
  | Some q => up t origin q
  | None => match origin with None => To None | Some _ => Undefined end
  end.
(** walkDown, 133-158. *)
Definition walk_down (t : xtree) (context : path) (origin : option path) : moved :=
  if is_kind t context Xattribute then To None
  else match first_child t context with
       | Some n => To (Some n)
       | None =>
           if opt_path_eqb (Some context) origin then To None
           else match find_next_sibling t context with
                | Some n => To (Some n)
                | None => up_from t origin (parent context)
                end
       end.
(** nextDescendant, 343-361. *)
Definition next_descendant (t : xtree) (context origin : path) : moved :=
  match (match first_child t context with Some n => Some n | None => find_next_sibling t context end) with
  | Some n => To (Some n)
  | None => up_from t (Some origin) (parent context)
  end.
(** getOwnerDocument: null for a document; another document, here the place of a namespace
    node no walk reaches, when the root of the tree is not a document. *)
Definition elsewhere : path := [Ns 0 [] []; Ns 0 [] []].
Definition owner_document (t : xtree) (p : path) : option path :=
  if is_kind t p Xdocument then None
  else if xkind_eqb (t_kind t) Xdocument then Some [] else Some elsewhere.
(** firstFollowing, 417-441; an attribute's element is in [p] itself. *)
Definition first_following_of (t : xtree) (p : path) : moved :=
  match find_next_sibling t p with
  | Some n => To (Some n)
  | None => up_from t (owner_document t p) (parent p)
  end.
Definition first_following (t : xtree) (p : path) : moved :=
  if is_kind t p Xattribute then
    match owner_element p with
    | None => Undefined
    | Some e => match first_child t e with Some n => To (Some n) | None => first_following_of t e end
    end
  else first_following_of t p.
(** getLastDescendant, 651-661. *)
Fixpoint last_descendant (u : xtree) (p : path) : path :=
  match u with
  | Xt _ _ kids =>
      (fix go (i : nat) (l : list xtree) :=
         match l with
         | [] => p
         | k :: r => match r with [] => last_descendant k (Kid i :: p) | _ => go (S i) r end
         end) O kids
  end.
Definition last_below (t : xtree) (p : path) : path := match subtree t p with Some u => last_descendant u p | None => p end.
(** previousInDocument, 629-649: the node and the new nextAncestor_. *)
Fixpoint previous_in_document (t : xtree) (ancestor : option path) (p : path) : option path * option path :=
  match find_previous_sibling t p with
  | Some n => (Some (last_below t n), ancestor)
  | None =>
      if negb (opt_path_eqb (parent p) ancestor) then (parent p, ancestor)
      else match ancestor with
           | None => (None, None)
           | Some a =>
               match parent a with
               | None => (None, None)
               | Some b => match p with
                           | Kid _ :: q | Ns _ _ _ :: q => previous_in_document t (Some b) q
                           | _ => (None, Some b)
                           end
               end
           end
  end.

(** A walker: current_, and origin_, nextAncestor_ or what is left of the attributes or
    namespace nodes. *)
Record walker := Walker { w_axis : axis; w_origin : path; w_current : option path; w_ancestor : option path; w_left : list path }.
Definition at_ (w : walker) (m : moved) : option walker :=
  match m with To p => Some (Walker (w_axis w) (w_origin w) p (w_ancestor w) (w_left w)) | Undefined => None end.
(** AttributeAxisWalker, 256-303: set_next goes on to the next attribute that does not
    declare a namespace. *)
Definition xmlns_uri : str :=
  [104; 116; 116; 112; 58; 47; 47; 119; 119; 119; 46; 119; 51; 46; 111; 114; 103; 47; 50; 48; 48; 48; 47; 120; 109; 108; 110; 115; 47].
Fixpoint attribute_nodes (p : path) (i : nat) (l : list xtree) : list path :=
  match l with
  | [] => []
  | a :: r => if str_eqb (i_uri (t_info a)) xmlns_uri then attribute_nodes p (S i) r else (Att i :: p) :: attribute_nodes p (S i) r
  end.
(** NamespaceAxisWalker, 481-512: the declarations of the element and of all elements above;
    [first] is the first unused identity. *)
Definition xmlns : str := [120; 109; 108; 110; 115].
Definition xml : str := [120; 109; 108].
Definition xml_uri : str :=
  [104; 116; 116; 112; 58; 47; 47; 119; 119; 119; 46; 119; 51; 46; 111; 114; 103; 47; 88; 77; 76; 47; 49; 57; 57; 56; 47; 110; 97; 109; 101; 115; 112; 97; 99; 101].
Definition declarations (u : xtree) : list (str * str) :=
  flat_map (fun a => (if str_eqb (i_prefix (t_info a)) xmlns then [(i_local (t_info a), i_value (t_info a))] else []) ++
                     (if str_eqb (i_name (t_info a)) xmlns then [([], i_value (t_info a))] else [])) (t_attrs u).
Fixpoint declared_above (t : xtree) (p : path) : list (str * str) :=
  match subtree t p with
  | Some u => match t_kind u with
              | Xelement => declarations u ++ match p with Kid _ :: q => declared_above t q | _ => [] end
              | _ => []
              end
  | None => []
  end.
Fixpoint ns_nodes (p : path) (id : nat) (l : list (str * str)) : list path :=
  match l with [] => [] | (a, b) :: r => (Ns id a b :: p) :: ns_nodes p (S id) r end.
Definition namespace_nodes (t : xtree) (first : nat) (p : path) : list path :=
  ns_nodes p first ((if is_kind t p Xattribute then [] else [(xml, xml_uri)]) ++ declared_above t p).
Definition take (a : axis) (p : path) (l : list path) : walker :=
  match l with [] => Walker a p None None [] | x :: r => Walker a p (Some x) None r end.
Definition parent_or_owner (t : xtree) (p : path) : option path :=
  if is_kind t p Xattribute then owner_element p else parent p.
(** The constructors, 200-703. *)
Definition start (t : xtree) (first : nat) (a : axis) (p : path) : option walker :=
  let w c := Walker a p c None [] in
  match a with
  | Ancestor | Parent => Some (w (parent_or_owner t p))
  | AncestorOrSelf | DescendantOrSelf | Self => Some (w (Some p))
  | Attribute => Some (take a p (match subtree t p with Some u => attribute_nodes p 0 (t_attrs u) | None => [] end))
  | Child => Some (w (first_child t p))
  | Descendant => Some (w (if is_kind t p Xattribute then None else first_child t p))
  | Following => at_ (w None) (first_following t p)
  | FollowingSibling => Some (w (find_next_sibling t p))
  | Namespace => Some (take a p (namespace_nodes t first p))
  | Preceding =>
      let c := if is_kind t p Xattribute then owner_element p else Some p in
      match c with
      | None => None
      | Some c => let (n, anc) := previous_in_document t (parent c) c in Some (Walker a p n anc [])
      end
  | PrecedingSibling => Some (w (find_previous_sibling t p))
  end.
(** advance, with a node that is not null. *)
Definition advance (t : xtree) (w : walker) (c : path) : option walker :=
  let go p := Some (Walker (w_axis w) (w_origin w) p (w_ancestor w) (w_left w)) in
  match w_axis w with
  | Ancestor => go (parent c)
  | AncestorOrSelf => go (parent_or_owner t c)
  | Attribute | Namespace => Some (take (w_axis w) (w_origin w) (w_left w))
  | Child | FollowingSibling => go (find_next_sibling t c)
  | Descendant => at_ w (next_descendant t c (w_origin w))
  | DescendantOrSelf => at_ w (walk_down t c (Some (w_origin w)))
  | Following => at_ w (walk_down t c (owner_document t c))
  | Parent | Self => go None
  | Preceding => let (n, anc) := previous_in_document t (w_ancestor w) c in
                 Some (Walker (w_axis w) (w_origin w) n anc (w_left w))
  | PrecedingSibling => go (find_previous_sibling t c)
  end.
(** The nodes an enumerator gives one after the other, 52-102; None when it is undefined or the
    fuel is out. *)
Inductive listed := Nodes (l : list path) | Crash | NoFuel.
Definition first_is (p : path) (r : listed) : listed := match r with Nodes l => Nodes (p :: l) | x => x end.
Fixpoint run_walker (fuel : nat) (t : xtree) (w : option walker) : listed :=
  match w with
  | None => Crash
  | Some v => match w_current v with
              | None => Nodes []
              | Some c => match fuel with O => NoFuel | S f => first_is c (run_walker f t (advance t v c)) end
              end
  end.
Definition enumerate (fuel : nat) (t : xtree) (first : nat) (a : axis) (p : path) : listed := run_walker fuel t (start t first a p).
