(** The node structure of include/DOM/Simple: child lists, parent and sibling
    pointers, owner documents, and the mutation methods.

    Nodes are natural numbers; a heap gives each node's members.  Creating a node is
    not modelled as an operation: the heap holds an unlimited supply of detached nodes
    of every kind ([fresh_heap]), and a created node is one of these not used before.
    Attributes are in Model/AttrMap.v.  Null arguments other than a missing reference
    child are not modelled.  Destruction is not modelled. *)
From Verif.Model Require Import Base.

(** Node_base::Type, include/DOM/Node.hpp:34-45. *)
Inductive nkind := KElement | KAttr | KText | KCData | KEntityRef | KEntity | KPI | KComment
  | KDocument | KDocType | KFragment | KNotation.
Definition nkind_eqb (a b : nkind) : bool :=
  match a, b with
  | KElement, KElement | KAttr, KAttr | KText, KText | KCData, KCData | KEntityRef, KEntityRef
  | KEntity, KEntity | KPI, KPI | KComment, KComment | KDocument, KDocument
  | KDocType, KDocType | KFragment, KFragment | KNotation, KNotation => true
  | _, _ => false
  end.

(** The members of NodeImpl (NodeImpl.hpp:229-233), of NodeImplWithChildren (nodes_, 549),
    of DocumentImpl (documentElement_, documentType_, changesCount_,
    DocumentImpl.hpp:526-532), of CharacterDataImpl (data_) and the names of elements
    (ElementImpl.hpp:207, ElementNSImpl.hpp:115-118).  [n_orphan] says whether the node is
    in orphans_ of its owner document (DocumentImpl.hpp:535). *)
Record node := Node {
  n_kind : nkind; n_parent : option nat; n_prev : option nat; n_next : option nat;
  n_kids : list nat; n_owner : option nat; n_ro : bool; n_orphan : bool;
  n_docel : option nat; n_doctype : option nat; n_changes : Z;
  n_data : str; n_name : str; n_uri : option str; n_local : str }.
Definition heap := nat -> node.
Definition upd (h : heap) (i : nat) (f : node -> node) : heap :=
  fun j => if Nat.eqb j i then f (h j) else h j.

Definition set_parent_f v n := Node (n_kind n) v (n_prev n) (n_next n) (n_kids n) (n_owner n)
  (n_ro n) (n_orphan n) (n_docel n) (n_doctype n) (n_changes n) (n_data n) (n_name n) (n_uri n) (n_local n).
Definition set_prev_f v n := Node (n_kind n) (n_parent n) v (n_next n) (n_kids n) (n_owner n)
  (n_ro n) (n_orphan n) (n_docel n) (n_doctype n) (n_changes n) (n_data n) (n_name n) (n_uri n) (n_local n).
Definition set_next_f v n := Node (n_kind n) (n_parent n) (n_prev n) v (n_kids n) (n_owner n)
  (n_ro n) (n_orphan n) (n_docel n) (n_doctype n) (n_changes n) (n_data n) (n_name n) (n_uri n) (n_local n).
Definition set_kids_f v n := Node (n_kind n) (n_parent n) (n_prev n) (n_next n) v (n_owner n)
  (n_ro n) (n_orphan n) (n_docel n) (n_doctype n) (n_changes n) (n_data n) (n_name n) (n_uri n) (n_local n).
Definition set_owner_f v n := Node (n_kind n) (n_parent n) (n_prev n) (n_next n) (n_kids n) v
  (n_ro n) (n_orphan n) (n_docel n) (n_doctype n) (n_changes n) (n_data n) (n_name n) (n_uri n) (n_local n).
Definition set_orphan_f v n := Node (n_kind n) (n_parent n) (n_prev n) (n_next n) (n_kids n) (n_owner n)
  (n_ro n) v (n_docel n) (n_doctype n) (n_changes n) (n_data n) (n_name n) (n_uri n) (n_local n).
Definition set_docel_f v n := Node (n_kind n) (n_parent n) (n_prev n) (n_next n) (n_kids n) (n_owner n)
  (n_ro n) (n_orphan n) v (n_doctype n) (n_changes n) (n_data n) (n_name n) (n_uri n) (n_local n).
Definition set_doctype_f v n := Node (n_kind n) (n_parent n) (n_prev n) (n_next n) (n_kids n) (n_owner n)
  (n_ro n) (n_orphan n) (n_docel n) v (n_changes n) (n_data n) (n_name n) (n_uri n) (n_local n).
Definition set_changes_f v n := Node (n_kind n) (n_parent n) (n_prev n) (n_next n) (n_kids n) (n_owner n)
  (n_ro n) (n_orphan n) (n_docel n) (n_doctype n) v (n_data n) (n_name n) (n_uri n) (n_local n).
Definition set_data_f v n := Node (n_kind n) (n_parent n) (n_prev n) (n_next n) (n_kids n) (n_owner n)
  (n_ro n) (n_orphan n) (n_docel n) (n_doctype n) (n_changes n) v (n_name n) (n_uri n) (n_local n).
Definition set_ro_f v n := Node (n_kind n) (n_parent n) (n_prev n) (n_next n) (n_kids n) (n_owner n)
  v (n_orphan n) (n_docel n) (n_doctype n) (n_changes n) (n_data n) (n_name n) (n_uri n) (n_local n).
Definition set_name_f v n := Node (n_kind n) (n_parent n) (n_prev n) (n_next n) (n_kids n) (n_owner n)
  (n_ro n) (n_orphan n) (n_docel n) (n_doctype n) (n_changes n) (n_data n) v (n_uri n) (n_local n).

(** A node as its constructor leaves it: NodeImpl.hpp:36-42, DocumentImpl.hpp:57-70.
    createElement and the others register the node as an orphan
    (DocumentImpl.hpp:149-226); a document type has no owner and is no orphan
    (DocumentTypeImpl.hpp:33-47); a document owns itself and is no orphan. *)
Record naming := Naming { nm_name : str; nm_data : str; nm_uri : option str; nm_local : str }.
Definition plain (name : str) : naming := Naming name [] None [].
Definition new_node (i : nat) (k : nkind) (doc : nat) (nm : naming) : node :=
  match k with
  | KDocument => Node k None None None [] (Some i) false false None None 0 [] [] None []
  | KDocType => Node k None None None [] None false false None None 0 [] (nm_name nm) None []
  | _ => Node k None None None [] (Some doc) false true None None 0 (nm_data nm) (nm_name nm) (nm_uri nm) (nm_local nm)
  end.

(** DOMException codes used here, include/DOM/DOMException.hpp:48-65. *)
Inductive exn := INDEX_SIZE | HIERARCHY_REQUEST | WRONG_DOCUMENT | NO_MODIFICATION | NOT_FOUND.
(** The outcome of a call: normal return, exception (with the heap it leaves), or no
    return within the fuel. *)
Inductive res (A : Type) := Ok (h : heap) (a : A) | Ex (e : exn) (h : heap) | Div.
Arguments Ok {A} h a. Arguments Ex {A} e h. Arguments Div {A}.
Definition rbind {A B} (r : res A) (f : heap -> A -> res B) : res B :=
  match r with Ok h a => f h a | Ex e h => Ex e h | Div => Div end.

Definition has_kind (h : heap) (i : nat) (k : nkind) : bool := nkind_eqb (n_kind (h i)) k.
(** ChildlessNodeImpl is the base of these kinds. *)
Definition childless (k : nkind) : bool :=
  match k with KText | KCData | KPI | KComment | KDocType | KNotation => true | _ => false end.

(** getParentNode: NodeImpl.hpp:74; 0 in AttrImpl.hpp:74, DocumentImpl.hpp:385,
    DocumentFragmentImpl.hpp:49-52, EntityImpl.hpp:64-67 and NotationImpl.hpp:58. *)
Definition get_parent (h : heap) (i : nat) : option nat :=
  match n_kind (h i) with
  | KAttr | KDocument | KFragment | KEntity | KNotation => None
  | _ => n_parent (h i)
  end.
Definition first_child (h : heap) (i : nat) : option nat := hd_error (n_kids (h i)).
Fixpoint last_opt {A} (l : list A) : option A :=
  match l with [] => None | [x] => Some x | _ :: r => last_opt r end.
Definition last_child (h : heap) (i : nat) : option nat := last_opt (n_kids (h i)).

(** setParentNode, NodeImpl.hpp:153-160, with orphaned and adopted,
    DocumentImpl.hpp:474-477, 490-495. *)
Definition set_parent (h : heap) (i : nat) (p : option nat) : heap :=
  let h1 :=
    match n_owner (h i) with
    | Some _ =>
        match p, n_parent (h i) with
        | None, Some _ => upd h i (set_orphan_f true)
        | Some _, None => upd h i (set_orphan_f false)
        | _, _ => h
        end
    | None => h
    end in
  upd h1 i (set_parent_f p).
Definition set_prev (h : heap) (i : nat) (v : option nat) : heap := upd h i (set_prev_f v).
Definition set_next (h : heap) (i : nat) (v : option nat) : heap := upd h i (set_next_f v).
Definition set_kids (h : heap) (i : nat) (v : list nat) : heap := upd h i (set_kids_f v).
Definition set_prev_opt (h : heap) (i : option nat) (v : option nat) : heap :=
  match i with Some j => set_prev h j v | None => h end.
Definition set_next_opt (h : heap) (i : option nat) (v : option nat) : heap :=
  match i with Some j => set_next h j v | None => h end.
(** markChanged, NodeImpl.hpp:543-547, DocumentImpl.hpp:471.  The counter is unbounded. *)
Definition mark_changed (h : heap) (this : nat) : heap :=
  match n_owner (h this) with
  | Some d => upd h d (fun n => set_changes_f (n_changes n + 1) n)
  | None => h
  end.

(** checkChildType of each class with children: ElementImpl.hpp:194-204,
    AttrImpl.hpp:192-198, DocumentFragmentImpl.hpp:55-65, EntityReferenceImpl.hpp:48-61,
    EntityImpl.hpp:70-80, DocumentImpl.hpp:515-523. *)
Definition content_kind (k : nkind) : bool :=
  match k with KElement | KText | KComment | KPI | KCData | KEntityRef => true | _ => false end.
Definition child_kind_ok (parent child : nkind) : bool :=
  match parent with
  | KElement | KFragment | KEntityRef | KEntity => content_kind child
  | KAttr => match child with KText | KEntityRef => true | _ => false end
  | KDocument => match child with KElement | KPI | KComment | KDocType => true | _ => false end
  | _ => false
  end.

(** The ancestor loop of checkCanAdd, NodeImpl.hpp:535-537: is [target] [n] or above it? *)
Fixpoint climb (fuel : nat) (h : heap) (n target : nat) : option bool :=
  match fuel with
  | O => None
  | S f => if Nat.eqb n target then Some true
           else match get_parent h n with
                | Some p => climb f h p target
                | None => Some false
                end
  end.
Definition opt_eqb (a b : option nat) : bool :=
  match a, b with
  | Some x, Some y => Nat.eqb x y
  | None, None => true
  | _, _ => false
  end.
(** checkCanAdd, NodeImpl.hpp:517-541.  Only document types are created without an
    owner, and they have no children, so setOwnerDoc (181-186) sets one pointer. *)
Definition check_can_add (fuel : nat) (h : heap) (this child : nat) : res unit :=
  match n_owner (h child) with
  | None => Ok (upd h child (set_owner_f (n_owner (h this)))) tt
  | Some cd =>
      if has_kind h child KDocument then
        if has_kind h this KDocument && Nat.eqb cd this then Ok h tt else Ex WRONG_DOCUMENT h
      else if match n_owner (h this) with Some d => negb (Nat.eqb cd d) | None => false end
      then Ex WRONG_DOCUMENT h
      else match climb fuel h this child with
           | None => Div
           | Some true => Ex HIERARCHY_REQUEST h
           | Some false =>
               if has_kind h this KEntityRef && n_ro (h this) then Ex NO_MODIFICATION h
               else if child_kind_ok (n_kind (h this)) (n_kind (h child)) then Ok h tt
               else Ex HIERARCHY_REQUEST h
           end
  end.

(** Removing the first occurrence, inserting before it, replacing it: std::deque's erase,
    insert and assignment at the iterator that findChild (NodeImpl.hpp:503-509) returns;
    None if it throws. *)
Fixpoint erase (x : nat) (l : list nat) : option (list nat) :=
  match l with
  | [] => None
  | y :: r => if Nat.eqb y x then Some r
              else match erase x r with Some r' => Some (y :: r') | None => None end
  end.
Fixpoint insert_at (x new : nat) (l : list nat) : option (list nat) :=
  match l with
  | [] => None
  | y :: r => if Nat.eqb y x then Some (new :: y :: r)
              else match insert_at x new r with Some r' => Some (y :: r') | None => None end
  end.
Fixpoint replace_at (x new : nat) (l : list nat) : option (list nat) :=
  match l with
  | [] => None
  | y :: r => if Nat.eqb y x then Some (new :: r)
              else match replace_at x new r with Some r' => Some (y :: r') | None => None end
  end.

(** do_removeChild, NodeImpl.hpp:467-487. *)
Definition do_remove (h : heap) (this : nat) (old : option nat) : res (option nat) :=
  if n_ro (h this) then Ex NO_MODIFICATION h
  else match old with
  | None => Ex NOT_FOUND h
  | Some o =>
      match erase o (n_kids (h this)) with
      | None => Ex NOT_FOUND h
      | Some l =>
          let h1 := set_kids h this l in
          let prev := n_prev (h1 o) in
          let next := n_next (h1 o) in
          let h2 := set_next_opt h1 prev next in
          let h3 := set_prev_opt h2 next prev in
          let h4 := set_next (set_prev (set_parent h3 o None) o None) o None in
          Ok (mark_changed h4 this) (Some o)
      end
  end.
(** removeChild: ChildlessNodeImpl (NodeImpl.hpp:268-271), DocumentImpl
    (DocumentImpl.hpp:432-442), the others (NodeImpl.hpp:355-358). *)
Definition vremove (h : heap) (this : nat) (old : option nat) : res (option nat) :=
  if childless (n_kind (h this)) then Ex NOT_FOUND h
  else if has_kind h this KDocument then
    if opt_eqb (n_doctype (h this)) old then Ex HIERARCHY_REQUEST h
    else rbind (do_remove h this old) (fun h r =>
      if opt_eqb (n_docel (h this)) old then Ok (upd h this (set_docel_f None)) r else Ok h r)
  else do_remove h this old.

(** removeIfRequired, NodeImpl.hpp:511-515. *)
Definition remove_if_required (h : heap) (new : nat) : res unit :=
  match get_parent h new with
  | None => Ok h tt
  | Some p => rbind (vremove h p (Some new)) (fun h _ => Ok h tt)
  end.

(** do_insertBefore for a node that is no fragment, NodeImpl.hpp:401-428. *)
Definition insert_node (fuel : nat) (h : heap) (this new : nat) (ref : option nat) : res nat :=
  rbind (check_can_add fuel h this new) (fun h _ =>
  rbind (remove_if_required h new) (fun h _ =>
  match ref with
  | Some r =>
      match insert_at r new (n_kids (h this)) with
      | None => Ex NOT_FOUND h
      | Some l =>
          let h1 := set_kids h this l in
          let prev := n_prev (h1 r) in
          let h2 := set_next_opt h1 prev (Some new) in
          let h3 := set_prev (set_next (set_prev h2 new prev) new (Some r)) r (Some new) in
          Ok (mark_changed (set_parent h3 new (Some this)) this) new
      end
  | None =>
      let h1 := match last_child h this with
                | Some l => set_prev (set_next h l (Some new)) new (Some l)
                | None => h
                end in
      let h2 := set_kids h1 this (n_kids (h1 this) ++ [new]) in
      Ok (mark_changed (set_parent h2 new (Some this)) this) new
  end)).

(** insertBefore: ChildlessNodeImpl (NodeImpl.hpp:258-261), DocumentImpl
    (DocumentImpl.hpp:395-410), the others (343-347); do_insertBefore, 389-428.  The
    fragment loop (395-397) calls insertBefore again for each child. *)
Fixpoint vinsert (fuel : nat) (h : heap) (this new : nat) (ref : option nat) : res nat :=
  match fuel with
  | O => Div
  | S f =>
      let base (h : heap) : res nat :=
        if n_ro (h this) then Ex NO_MODIFICATION h
        else if has_kind h new KFragment then frag_loop f h this new ref
        else insert_node f h this new ref in
      if childless (n_kind (h this)) then Ex HIERARCHY_REQUEST h
      else if has_kind h this KDocument then
        if has_kind h new KElement && negb (opt_eqb (n_docel (h this)) None) then Ex HIERARCHY_REQUEST h
        else if has_kind h new KDocType && negb (opt_eqb (n_doctype (h this)) None)
        then Ex HIERARCHY_REQUEST h
        else rbind (base h) (fun h r =>
          let h1 := if has_kind h new KElement && opt_eqb (n_docel (h this)) None
                    then upd h this (set_docel_f (Some new)) else h in
          let h2 := if has_kind h1 new KDocType && opt_eqb (n_doctype (h1 this)) None
                    then upd h1 this (set_doctype_f (Some new)) else h1 in
          Ok h2 r)
      else base h
  end
with frag_loop (fuel : nat) (h : heap) (this frag : nat) (ref : option nat) : res nat :=
  match fuel with
  | O => Div
  | S f =>
      match first_child h frag with
      | None => Ok h frag
      | Some c =>
          rbind (vremove h frag (Some c)) (fun h _ =>
          rbind (vinsert f h this c ref) (fun h _ => frag_loop f h this frag ref))
      end
  end.
(** appendChild: NodeImpl.hpp:278-281 (childless), 360-363, 489-492,
    DocumentImpl.hpp:444-447. *)
Definition vappend (fuel : nat) (h : heap) (this new : nat) : res nat := vinsert fuel h this new None.

(** do_replaceChild for a node that is no fragment, NodeImpl.hpp:441-465. *)
Definition replace_node (fuel : nat) (h : heap) (this new old : nat) : res nat :=
  rbind (check_can_add fuel h this new) (fun h _ =>
  rbind (remove_if_required h new) (fun h _ =>
  match replace_at old new (n_kids (h this)) with
  | None => Ex NOT_FOUND h
  | Some l =>
      let h1 := set_parent (set_kids h this l) new (Some this) in
      let prev := n_prev (h1 old) in
      let next := n_next (h1 old) in
      let h2 := set_next (set_prev h1 new prev) new next in
      let h3 := set_prev_opt (set_next_opt h2 prev (Some new)) next (Some new) in
      let h4 := set_next (set_prev (set_parent h3 old None) old None) old None in
      Ok (mark_changed h4 this) old
  end)).
(** replaceChild: ChildlessNodeImpl (NodeImpl.hpp:263-266), DocumentImpl
    (DocumentImpl.hpp:412-430), the others (349-353); do_replaceChild, 430-465. *)
Fixpoint vreplace (fuel : nat) (h : heap) (this new old : nat) : res nat :=
  match fuel with
  | O => Div
  | S f =>
      let base (h : heap) : res nat :=
        if n_ro (h this) then Ex NO_MODIFICATION h
        else if has_kind h new KFragment then
          let lc := last_child h new in
          rbind (vremove h new lc) (fun h r =>
          match r with
          | None => Div (* not reached: vremove throws for a missing child *)
          | Some c =>
              rbind (vreplace f h this c old) (fun h _ =>
              rbind (vinsert f h this new (Some c)) (fun h _ => Ok h old))
          end)
        else replace_node f h this new old in
      if childless (n_kind (h this)) then Ex HIERARCHY_REQUEST h
      else if has_kind h this KDocument then
        if negb (child_kind_ok KDocument (n_kind (h new))) then Ex HIERARCHY_REQUEST h
        else if has_kind h new KDocType && opt_eqb (n_doctype (h this)) (Some old)
        then Ex HIERARCHY_REQUEST h
        else if has_kind h new KElement && negb (opt_eqb (n_docel (h this)) None)
                && negb (opt_eqb (n_docel (h this)) (Some old)) then Ex HIERARCHY_REQUEST h
        else rbind (base h) (fun h r =>
          if has_kind h new KElement
             && (opt_eqb (n_docel (h this)) None || opt_eqb (n_docel (h this)) (Some old))
          then Ok (upd h this (set_docel_f (Some new))) r else Ok h r)
      else base h
  end.

(** setReadOnly, NodeImpl.hpp:189-199: the node and everything below it;
    createEntityReference (DocumentImpl.hpp:217-229) calls it on a new entity reference.
    The argument is ignored and the flag never reset.  Attributes are left out.  None:
    fuel. *)
Definition set_read_only (h : heap) (i : nat) : heap := upd h i (set_ro_f true).
Fixpoint freeze (fuel : nat) (h : heap) (i : nat) : option heap :=
  match fuel with
  | O => None
  | S f =>
      (fix each (l : list nat) (h : heap) : option heap :=
         match l with
         | [] => Some h
         | c :: r => match freeze f h c with Some h' => each r h' | None => None end
         end) (n_kids (h i)) (set_read_only h i)
  end.

(** A call of the API, and a history of calls.  An exception leaves the heap it names and
    the history goes on. *)
Inductive domop :=
  | OpInsert (this new : nat) (ref : option nat)
  | OpReplace (this new old : nat)
  | OpRemove (this old : nat)
  | OpFreeze (this : nat).
Definition dom_call (fuel : nat) (h : heap) (o : domop) : res unit :=
  match o with
  | OpInsert t n r => rbind (vinsert fuel h t n r) (fun h _ => Ok h tt)
  | OpReplace t n old => rbind (vreplace fuel h t n old) (fun h _ => Ok h tt)
  | OpRemove t old => rbind (vremove h t (Some old)) (fun h _ => Ok h tt)
  | OpFreeze t => match freeze fuel h t with Some h' => Ok h' tt | None => Div end
  end.
Fixpoint dom_run (fuel : nat) (h : heap) (ops : list domop) : option heap :=
  match ops with
  | [] => Some h
  | o :: r => match dom_call fuel h o with
              | Ok h' _ | Ex _ h' => dom_run fuel h' r
              | Div => None
              end
  end.

(** The supply of nodes: [kinds i] says what node i is, [docs i] which document created
    it, [names i] its name, data, namespace and local name. *)
Definition fresh_heap (kinds : nat -> nkind) (docs : nat -> nat) (names : nat -> naming) : heap :=
  fun i => new_node i (kinds i) (docs i) (names i).
