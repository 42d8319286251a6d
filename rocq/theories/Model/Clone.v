(** Copying nodes: importNode and cloneNode, include/DOM/Simple/DocumentImpl.hpp,
    ElementImpl.hpp, ElementNSImpl.hpp, AttrImpl.hpp, AttrNSImpl.hpp and the other node
    classes.

    The node structure and appendChild are those of Model/Dom.v; a created node is the next
    number.  Attributes are nodes of kind KAttr.  The table of ID attributes and the public
    and system identifiers of entities and notations are left out.  The loops over children
    follow the sibling pointers in the code and the deque of children here; C24 shows that
    they give the same nodes, and copying changes neither. *)
From Verif.Model Require Import Base Chars Dom.
From Verif.Model Require AttrMap.

(** [s_atts]: nodes_ of the AttrMap of an element (NamedNodeMapImpl.hpp:226-230);
    [s_host]: ownerElement_ of an attribute, [s_spec]: specified_ (AttrImpl.hpp:201-204);
    [s_ents]: the entities of the type of a document, by name, and [s_defs]: the default
    attributes its exemplar of an element has (DocumentTypeImpl.hpp), both empty when it has
    no type. *)
Record store := Store {
  s_heap : heap; s_atts : nat -> list nat; s_host : nat -> option nat; s_spec : nat -> bool; s_next : nat;
  s_ents : nat -> str -> option nat; s_defs : nat -> str -> list (str * str) }.
Definition put_heap h s := Store h (s_atts s) (s_host s) (s_spec s) (s_next s) (s_ents s) (s_defs s).
Definition put_atts e l s := Store (s_heap s) (fun i => if Nat.eqb i e then l else s_atts s i) (s_host s) (s_spec s) (s_next s) (s_ents s) (s_defs s).
Definition put_host a v s := Store (s_heap s) (s_atts s) (fun i => if Nat.eqb i a then v else s_host s i) (s_spec s) (s_next s) (s_ents s) (s_defs s).
Definition put_spec a v s := Store (s_heap s) (s_atts s) (s_host s) (fun i => if Nat.eqb i a then v else s_spec s i) (s_next s) (s_ents s) (s_defs s).
Definition put_next n s := Store (s_heap s) (s_atts s) (s_host s) (s_spec s) n (s_ents s) (s_defs s).

(** The exceptions: the codes of Model/Dom.v, and three more of DOMException.hpp:48-65. *)
Inductive code := Of (e : exn) | INVALID_CHARACTER | NAMESPACE | NOT_SUPPORTED.
(** Normal return, a DOMException, or no return within the fuel. *)
Inductive cres (A : Type) := Done (s : store) (a : A) | Throw (e : code) (s : store) | Long.
Arguments Done {A} s a. Arguments Throw {A} e s. Arguments Long {A}.
Definition cbind {A B} (r : cres A) (f : store -> A -> cres B) : cres B :=
  match r with Done s a => f s a | Throw e s => Throw e s | Long => Long end.

(** new and orphaned, DocumentImpl.hpp:149-226, 472-475; AttrImpl.hpp:29-37: a new attribute
    is specified. *)
Definition alloc (s : store) (k : nkind) (d : nat) (nm : naming) : store * nat :=
  let i := s_next s in
  (put_next (S i) (put_atts i [] (put_host i None (put_spec i true
     (put_heap (upd (s_heap s) i (fun _ => new_node i k d nm)) s)))), i).
Definition append (fuel : nat) (s : store) (this new : nat) : cres unit :=
  match vappend fuel (s_heap s) this new with
  | Ok h _ => Done (put_heap h s) tt
  | Ex e h => Throw (Of e) (put_heap h s)
  | Div => Long
  end.
Definition set_orphan (s : store) (i : nat) (v : bool) : store := put_heap (upd (s_heap s) i (set_orphan_f v)) s.

(** nameIs and namespaceAndNameIs, NamedNodeMapImpl.hpp:15-58. *)
Definition uri_of (n : node) : str := match n_uri n with Some u => u | None => [] end.
Definition is_empty (x : str) : bool := match x with [] => true | _ => false end.
Definition name_is (name : str) (n : node) : bool := str_eqb (n_name n) name.
Definition ns_name_is (uri local : str) (n : node) : bool :=
  (is_empty uri && match n_uri n with None => true | Some _ => false end
     && (str_eqb (n_local n) local || (is_empty (n_local n) && str_eqb (n_name n) local)))
  || (str_eqb (uri_of n) uri && str_eqb (n_local n) local).
(** AttrMap::setNamedItem and setNamedItemNS, AttrMap.hpp:38-47 and 133-142, of an attribute
    that has no owner element: setOwnerElement (AttrImpl.hpp:148-161), then
    NamedNodeMapImpl.hpp:109-114 and 137-142 with setNode 190-204. *)
Definition set_attr (s : store) (e a : nat) (p : node -> bool) : cres unit :=
  let h := s_heap s in
  if n_ro (h e) then Throw (Of NO_MODIFICATION) s
  else
    let s1 := set_orphan (put_host a (Some e) s) a false in
    if negb (opt_eqb (n_owner (h a)) (n_owner (h e))) then Throw (Of WRONG_DOCUMENT) s1
    else
      let l := s_atts s e in
      match find (fun x => p (h x)) l with
      | None => Done (put_atts e (l ++ [a]) s1) tt
      | Some old => Done (set_orphan (put_atts e (AttrMap.replace_first (fun x => p (h x)) a l) s1) old true) tt
      end.
Definition set_attribute_node s e a := set_attr s e a (name_is (n_name (s_heap s a))).
Definition set_attribute_node_ns s e a :=
  set_attr s e a (ns_name_is (uri_of (s_heap s a)) (n_local (s_heap s a))).
(** getDefaults, AttrMap.hpp:189-201: one default attribute of the element; its clone
    (AttrImpl.hpp:108-114) has one text child and is not specified. *)
Definition add_default (fuel : nat) (s : store) (d e : nat) (default : str * str) : cres unit :=
  let '(name, value) := default in
  match find (fun x => ns_name_is [] name (s_heap s x)) (s_atts s e) with
  | Some _ => Done s tt
  | None =>
      let '(s1, a) := alloc s KAttr d (plain name) in
      let '(s2, t) := alloc s1 KText d (Naming [] value None []) in
      cbind (append fuel s2 a t) (fun s3 _ => set_attribute_node_ns (put_spec a false s3) e a)
  end.
Fixpoint add_defaults (fuel : nat) (s : store) (d e : nat) (l : list (str * str)) : cres unit :=
  match l with
  | [] => Done s tt
  | x :: r => cbind (add_default fuel s d e x) (fun s _ => add_defaults fuel s d e r)
  end.

(** Whether the copy is made by importNode or by cloneNode. *)
Inductive way := Import | Clone.
(** checkName: the create functions call it, the create_nocheck functions do not. *)
Definition checked (w : way) (name : str) : bool :=
  match w with Import => true | Clone => AttrMap.check_name name end.
(** checkChars, NodeImpl.hpp:221-229, which createProcessingInstruction calls too. *)
Definition checked_data (w : way) (data : str) : bool :=
  match w with Import => true | Clone => forallb is_char data end.
(** The constructor of ElementNSImpl, ElementNSImpl.hpp:20-48, with
    checkPrefixAndNamespace for an element, Helpers.hpp:12-50.  None: it throws. *)
Definition ns_naming (uri qname : str) : option naming :=
  let given := match uri with [] => None | _ => Some uri end in
  match AttrMap.at_colon qname with
  | None => Some (Naming qname [] given qname)
  | Some (p, l) =>
      if AttrMap.has_colon p then None
      else if str_eqb p AttrMap.xml_prefix then
        if str_eqb uri AttrMap.xml_ns then Some (Naming qname [] given l) else None
      else match uri with [] => None | _ => Some (Naming qname [] given l) end
  end.
(** The constructor of AttrNSImpl, AttrNSImpl.hpp:20-54. *)
Definition ns_attr_naming (uri qname : str) : option naming :=
  match AttrMap.ns_attr 0 uri qname true with
  | inl a => Some (Naming (AttrMap.a_name a) [] (AttrMap.a_uri a) (AttrMap.a_local a))
  | inr _ => None
  end.
(** importNode (DocumentImpl.hpp:246, 259) and the loops over attributes ask whether the
    local name is empty; the clone functions (ElementImpl.hpp:149-154, ElementNSImpl.hpp:52-57)
    are those of the class, and only a node with neither a local name nor a namespace is no
    ElementNSImpl or AttrNSImpl. *)
Definition level2 (n : node) : bool := negb (is_empty (n_local n)).
Definition is_ns (w : way) (n : node) : bool :=
  match w with
  | Import => level2 n
  | Clone => level2 n || match n_uri n with Some _ => true | None => false end
  end.
(** createElement_nocheck and createElementNS_nocheck, DocumentImpl.hpp:149-156, 343-349,
    with the constructor of ElementImpl, ElementImpl.hpp:30-37, for the element [n]. *)
Definition create_element (fuel : nat) (w : way) (s : store) (d n : nat) : cres nat :=
  let x := s_heap s n in
  if checked w (n_name x) then
    let start nm :=
      let '(s1, e) := alloc s KElement d nm in
      cbind (add_defaults fuel s1 d e (s_defs s d (n_name x))) (fun s2 _ => Done s2 e) in
    if is_ns w x then match ns_naming (uri_of x) (n_name x) with Some nm => start nm | None => Throw NAMESPACE s end
    else start (plain (n_name x))
  else Throw INVALID_CHARACTER s.
(** createAttribute_nocheck and createAttributeNS_nocheck, DocumentImpl.hpp:204-210, 356-362. *)
Definition create_attribute (w : way) (s : store) (d n : nat) : cres nat :=
  let x := s_heap s n in
  if checked w (n_name x) then
    if is_ns w x then
      match ns_attr_naming (uri_of x) (n_name x) with
      | Some nm => let '(s1, a) := alloc s KAttr d nm in Done s1 a
      | None => Throw NAMESPACE s
      end
    else let '(s1, a) := alloc s KAttr d (plain (n_name x)) in Done s1 a
  else Throw INVALID_CHARACTER s.

(** setReadOnly, NodeImpl.hpp:189-199 and ElementImpl.hpp:168-172: the node, its children and
    its attributes. *)
Fixpoint freeze_all (fuel : nat) (s : store) (i : nat) : option store :=
  match fuel with
  | O => None
  | S f =>
      let each := fix each (l : list nat) (s : store) : option store :=
        match l with
        | [] => Some s
        | c :: r => match freeze_all f s c with Some s' => each r s' | None => None end
        end in
      match each (n_kids (s_heap s i)) (put_heap (set_read_only (s_heap s) i) s) with
      | Some s1 => each (s_atts s i) s1
      | None => None
      end
  end.
Definition frozen (fuel : nat) (s : store) (i : nat) : cres unit :=
  match freeze_all fuel s i with Some s1 => Done s1 tt | None => Long end.

(** The loops over children: the copy of each is appended to [this]. *)
Fixpoint copy_kids (copy : store -> nat -> cres nat) (fuel : nat) (s : store) (this : nat) (l : list nat) : cres unit :=
  match l with
  | [] => Done s tt
  | c :: r =>
      cbind (copy s c) (fun s n => cbind (append fuel s this n) (fun s _ => copy_kids copy fuel s this r))
  end.
(** The loops over attributes, DocumentImpl.hpp:264-277 and ElementImpl.hpp:176-187. *)
Fixpoint copy_atts (copy : store -> nat -> cres nat) (s : store) (this : nat) (l : list nat) : cres unit :=
  match l with
  | [] => Done s tt
  | a :: r =>
      if s_spec s a then
        cbind (copy s a) (fun s n =>
        cbind (if level2 (s_heap s a) then set_attribute_node_ns s this n else set_attribute_node s this n)
          (fun s _ => copy_atts copy s this r))
      else copy_atts copy s this r
  end.
(** importNode, DocumentImpl.hpp:239-335, into the document [d]; cloneNode,
    ElementImpl.hpp:149-191, ElementNSImpl.hpp:50-55, AttrImpl.hpp:108-114 and 173-178,
    AttrNSImpl.hpp:60-66, TextImpl.hpp:52-55, CDATASectionImpl.hpp:49-52,
    CommentImpl.hpp:32-35, ProcessingInstructionImpl.hpp:64-67, EntityReferenceImpl.hpp:40-43,
    DocumentFragmentImpl.hpp:34-41, EntityImpl.hpp:54-62 and NotationImpl.hpp:51-56, of a node
    of the document [d].  The two have the same course for each kind of node.
    createEntityReference_nocheck, DocumentImpl.hpp:217-230, imports the children of the
    entity.  A document or a document type cannot be imported; their clones are
    [clone_document] below. *)
Fixpoint copy_node (fuel : nat) (w : way) (d : nat) (deep : bool) (s : store) (n : nat) : cres nat :=
  match fuel with
  | O => Long
  | S f =>
      let x := s_heap s n in
      let kids s this (deep : bool) :=
        if deep then copy_kids (copy_node f w d true) f s this (n_kids (s_heap s n)) else Done s tt in
      let fresh k nm (deep : bool) :=
        let '(s1, i) := alloc s k d nm in cbind (kids s1 i deep) (fun s2 _ => Done s2 i) in
      match n_kind x with
      | KText | KCData | KComment => fresh (n_kind x) (Naming [] (n_data x) None []) false
      | KPI => if checked w (n_name x) && checked_data w (n_data x) then fresh KPI (Naming (n_name x) (n_data x) None []) false
               else Throw INVALID_CHARACTER s
      | KFragment => fresh KFragment (plain []) deep
      | KNotation => fresh KNotation (plain (n_name x)) false
      | KEntity =>
          cbind (fresh KEntity (plain (n_name x)) deep) (fun s1 i =>
          match w with Import => cbind (frozen f s1 i) (fun s2 _ => Done s2 i) | Clone => Done s1 i end)
      | KEntityRef =>
          if checked w (n_name x) then
            let '(s1, i) := alloc s KEntityRef d (plain (n_name x)) in
            cbind (match s_ents s1 d (n_name x) with
                   | Some ent => copy_kids (copy_node f Import d true) f s1 i (n_kids (s_heap s1 ent))
                   | None => Done s1 tt
                   end) (fun s2 _ => cbind (frozen f s2 i) (fun s3 _ => Done s3 i))
          else Throw INVALID_CHARACTER s
      | KAttr =>
          cbind (create_attribute w s d n) (fun s1 a => cbind (kids s1 a true) (fun s2 _ =>
          match w with Import => Done s2 a | Clone => Done (put_spec a (s_spec s2 n) s2) a end))
      | KElement =>
          cbind (create_element f w s d n) (fun s1 e =>
          cbind (copy_atts (copy_node f w d true) s1 e (s_atts s1 n)) (fun s2 _ =>
          cbind (kids s2 e deep) (fun s3 _ => Done s3 e)))
      | KDocument | KDocType => Throw NOT_SUPPORTED s
      end
  end.
Definition import_node (fuel : nat) (s : store) (d n : nat) (deep : bool) : cres nat := copy_node fuel Import d deep s n.
(** cloneNode of a node that is no document and no document type; the owner document is
    never null. *)
Definition clone_node (fuel : nat) (s : store) (n : nat) (deep : bool) : cres nat :=
  match n_owner (s_heap s n) with Some d => copy_node fuel Clone d deep s n | None => Throw NOT_SUPPORTED s end.

(** cloneNode of a document, DocumentImpl.hpp:449-466, and of its type,
    DocumentTypeImpl.hpp:107-111: a new document and a new type of the same name, with no
    entities, notations or default attributes.  The type is given its document by
    setOwnerDoc before appendChild there, and by appendChild here. *)
Fixpoint import_kids (fuel : nat) (s : store) (d new : nat) (l : list nat) : cres unit :=
  match l with
  | [] => Done s tt
  | c :: r =>
      if opt_eqb (Some c) (n_doctype (s_heap s d)) then import_kids fuel s d new r
      else cbind (import_node fuel s new c true) (fun s n =>
           cbind (append fuel s new n) (fun s _ => import_kids fuel s d new r))
  end.
Definition bare (d : nat) (s : store) : store :=
  Store (s_heap s) (s_atts s) (s_host s) (s_spec s) (s_next s)
    (fun i => if Nat.eqb i d then fun _ => None else s_ents s i) (fun i => if Nat.eqb i d then fun _ => [] else s_defs s i).
Definition clone_document (fuel : nat) (s : store) (d : nat) (deep : bool) : cres nat :=
  let '(s1, new) := alloc s KDocument d (plain []) in
  let s2 := bare new s1 in
  cbind (match n_doctype (s_heap s d) with
         | None => Done s2 tt
         | Some t => let '(s3, dt) := alloc s2 KDocType new (plain (n_name (s_heap s t))) in append fuel s3 new dt
         end) (fun s4 _ =>
  cbind (if deep then import_kids fuel s4 d new (n_kids (s_heap s d)) else Done s4 tt) (fun s5 _ => Done s5 new)).
