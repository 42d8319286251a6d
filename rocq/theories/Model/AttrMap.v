(** Attributes of elements: include/DOM/Simple/AttrMap.hpp, NamedNodeMapImpl.hpp,
    ElementImpl.hpp, AttrImpl.hpp and AttrNSImpl.hpp.

    Attributes and elements are natural numbers.  An attribute's children are modelled as
    the list of the data of its text children; entity references in attribute values
    and the specified flag are not modelled; the table of ID attributes is in Ids.v.  An element's owner
    document is never null here, and the default attributes its document type declares for
    it do not change. *)
From Verif.Model Require Import Base Chars.

(** AttrImpl.hpp:29-33 and AttrNSImpl.hpp:122-125: [a_local] is empty and [a_uri] absent for
    an attribute that is not an AttrNSImpl; [a_uri] is absent when hasNamespaceURI_ is
    false.  [a_cache] is value_ when valueCalculated_ is true.  [a_orphan] says whether the
    attribute is in orphans_ of its document (DocumentImpl.hpp:472-480). *)
Record attr := Attr {
  a_doc : nat; a_name : str; a_local : str; a_uri : option str; a_texts : list str;
  a_cache : option str; a_owner : option nat; a_orphan : bool; a_ro : bool }.
(** An attribute declared with a default value (the attributes of the exemplar element,
    SAX2DOM/DocumentTypeImpl.hpp:42-54, made by createAttribute). *)
Record default_attr := Default { t_name : str; t_value : str }.
(** The AttrMap of an element: nodes_, readOnly_ (NamedNodeMapImpl.hpp:226-230), and the
    declared defaults. *)
Record elem := Elem { e_doc : nat; e_attrs : list nat; e_ro : bool; e_defaults : list default_attr }.
(** [w_next] is the next unused attribute. *)
Record world := World { w_attr : nat -> attr; w_elem : nat -> elem; w_next : nat }.

Definition set_cache v a := Attr (a_doc a) (a_name a) (a_local a) (a_uri a) (a_texts a) v (a_owner a) (a_orphan a) (a_ro a).
Definition set_texts v a := Attr (a_doc a) (a_name a) (a_local a) (a_uri a) v (a_cache a) (a_owner a) (a_orphan a) (a_ro a).
Definition set_owner_el v a := Attr (a_doc a) (a_name a) (a_local a) (a_uri a) (a_texts a) (a_cache a) v (a_orphan a) (a_ro a).
Definition set_orphan v a := Attr (a_doc a) (a_name a) (a_local a) (a_uri a) (a_texts a) (a_cache a) (a_owner a) v (a_ro a).
Definition set_a_ro v a := Attr (a_doc a) (a_name a) (a_local a) (a_uri a) (a_texts a) (a_cache a) (a_owner a) (a_orphan a) v.
Definition set_a_name v a := Attr (a_doc a) v (a_local a) (a_uri a) (a_texts a) (a_cache a) (a_owner a) (a_orphan a) (a_ro a).
Definition put_attr (w : world) (a : nat) (f : attr -> attr) : world :=
  World (fun b => if Nat.eqb b a then f (w_attr w b) else w_attr w b) (w_elem w) (w_next w).
Definition put_list (w : world) (e : nat) (l : list nat) : world :=
  World (w_attr w) (fun x => if Nat.eqb x e then Elem (e_doc (w_elem w x)) l (e_ro (w_elem w x)) (e_defaults (w_elem w x))
                             else w_elem w x) (w_next w).

(** DOMException codes, include/DOM/DOMException.hpp:48-65. *)
Inductive aexn := A_INVALID_CHARACTER | A_NO_MODIFICATION | A_NOT_FOUND | A_INUSE | A_WRONG_DOCUMENT | A_NAMESPACE.
(** What a call gives back. *)
Inductive reply := RNone | RAttr (a : option nat) | RStr (s : str) | RBool (b : bool) | RThrow (e : aexn).

(** checkName, NodeImpl.hpp:209-219. *)
Definition check_name (s : str) : bool := match s with [] => false | _ => forallb is_name_char s end.

(** std::find_if over nodes_ and what follows it: the first attribute that satisfies p. *)
Definition find_attr (w : world) (p : attr -> bool) (l : list nat) : option nat :=
  find (fun a => p (w_attr w a)) l.
(** nodes_.erase at the found position, and *n = arg there. *)
Fixpoint erase_first (q : nat -> bool) (l : list nat) : list nat :=
  match l with [] => [] | x :: r => if q x then r else x :: erase_first q r end.
Fixpoint replace_first (q : nat -> bool) (n : nat) (l : list nat) : list nat :=
  match l with [] => [] | x :: r => if q x then n :: r else x :: replace_first q n r end.

(** nameIs, NamedNodeMapImpl.hpp:15-27. *)
Definition name_is (n : str) (a : attr) : bool := str_eqb (a_name a) n.
(** getNamespaceURI of an attribute: empty when there is none. *)
Definition uri_of (a : attr) : str := match a_uri a with Some u => u | None => [] end.
Definition is_empty (s : str) : bool := match s with [] => true | _ => false end.
(** namespaceAndNameIs, NamedNodeMapImpl.hpp:29-58. *)
Definition ns_name_is (uri local : str) (a : attr) : bool :=
  (is_empty uri && match a_uri a with None => true | Some _ => false end
     && (str_eqb (a_local a) local || (is_empty (a_local a) && str_eqb (a_name a) local)))
  || (str_eqb (uri_of a) uri && str_eqb (a_local a) local).

(** isOrphaned, AttrImpl.hpp:165-171. *)
Definition is_orphaned (a : attr) : bool := match a_owner a with None => true | Some _ => a_orphan a end.
(** setOwnerElement, AttrImpl.hpp:148-161; for the ID table see Ids.v. *)
Definition set_owner_element (w : world) (a e : nat) : world :=
  put_attr w a (fun x => set_orphan false (set_owner_el (Some e) x)).

(** NamedNodeMapImpl::setNamedItem and setNamedItemNS, 109-114 and 137-142, with setNode
    190-204; the two differ in the predicate. *)
Definition base_set (w : world) (e a : nat) (p : attr -> bool) : world * reply :=
  if e_ro (w_elem w e) then (w, RThrow A_NO_MODIFICATION)
  else if negb (Nat.eqb (a_doc (w_attr w a)) (e_doc (w_elem w e))) then (w, RThrow A_WRONG_DOCUMENT)
  else
    let w1 := put_attr w a (set_orphan false) in
    let l := e_attrs (w_elem w e) in
    match find_attr w p l with
    | None => (put_list w1 e (l ++ [a]), RAttr None)
    | Some old =>
        (put_attr (put_list w1 e (replace_first (fun x => p (w_attr w x)) a l)) old (set_orphan true), RAttr (Some old))
    end.
(** AttrMap::setNamedItem and setNamedItemNS, AttrMap.hpp:38-47 and 133-142, with alreadyHere
    and checkNotInUse 218-227; called by setAttributeNode and setAttributeNodeNS. *)
Definition map_set (w : world) (e a : nat) (p : attr -> bool) : world * reply :=
  let x := w_attr w a in
  let mine := match a_owner x with Some o => Nat.eqb o e | None => false end in
  if negb (is_orphaned x) && mine then (w, RAttr (Some a))
  else if e_ro (w_elem w e) then (w, RThrow A_NO_MODIFICATION)
  else if negb (is_orphaned x) && negb mine then (w, RThrow A_INUSE)
  else base_set (set_owner_element w a e) e a p.
Definition set_attribute_node w e a := map_set w e a (name_is (a_name (w_attr w a))).
Definition set_attribute_node_ns w e a := map_set w e a (ns_name_is (uri_of (w_attr w a)) (a_local (w_attr w a))).

(** A new node. *)
Definition new_attr (w : world) (a : attr) : world * nat :=
  (World (fun b => if Nat.eqb b (w_next w) then a else w_attr w b) (w_elem w) (S (w_next w)), w_next w).
(** createAttribute, DocumentImpl.hpp:199-210. *)
Definition level1 (doc : nat) (name : str) (texts : list str) (orphan : bool) : attr :=
  Attr doc name [] None texts None None orphan false.
Definition create_attribute (w : world) (doc : nat) (name : str) : world * reply :=
  if check_name name then let '(w1, a) := new_attr w (level1 doc name [] true) in (w1, RAttr (Some a))
  else (w, RThrow A_INVALID_CHARACTER).

Definition xml_prefix : str := [120; 109; 108].
Definition xmlns_prefix : str := [120; 109; 108; 110; 115].
Definition xml_ns : str := [104;116;116;112;58;47;47;119;119;119;46;119;51;46;111;114;103;47;88;77;76;47;49;57;57;56;47;110;97;109;101;115;112;97;99;101].
Definition xmlns_ns : str := [104;116;116;112;58;47;47;119;119;119;46;119;51;46;111;114;103;47;50;48;48;48;47;120;109;108;110;115;47].
Definition has_colon (s : str) : bool := existsb (Z.eqb 58) s.
(** checkPrefixAndNamespace for an attribute, Helpers.hpp:12-50.  [uri] is the pair
    (hasNamespaceURI, namespaceURI), where the flag is true exactly when the string is not
    empty: all callers pass such pairs. *)
Definition check_prefix (prefix : option str) (uri : str) : option str + aexn :=
  let given := if is_empty uri then None else Some uri in
  match prefix with
  | None => inl given
  | Some p =>
      if has_colon p then inr A_NAMESPACE
      else if str_eqb p xml_prefix then (if str_eqb uri xml_ns then inl given else inr A_NAMESPACE)
      else if str_eqb p xmlns_prefix then
        (if str_eqb uri xmlns_ns || is_empty uri then inl (Some xmlns_ns) else inr A_NAMESPACE)
      else if is_empty uri then inr A_NAMESPACE else inl given
  end.
(** The position of the first colon, as two halves. *)
Fixpoint at_colon (s : str) : option (str * str) :=
  match s with
  | [] => None
  | c :: r => if c =? 58 then Some ([], r)
              else match at_colon r with Some (p, l) => Some (c :: p, l) | None => None end
  end.
(** The constructor of AttrNSImpl, AttrNSImpl.hpp:20-54. *)
Definition ns_attr (doc : nat) (uri qname : str) (orphan : bool) : attr + aexn :=
  let '(prefix, local) :=
    match at_colon qname with
    | None => (if str_eqb qname xmlns_prefix then Some qname else None, qname)
    | Some (p, l) => (Some p, l)
    end in
  match check_prefix prefix uri with
  | inr e => inr e
  | inl u => inl (Attr doc qname local u [] None None orphan false)
  end.
(** createAttributeNS, DocumentImpl.hpp:350-361. *)
Definition create_attribute_ns (w : world) (doc : nat) (uri qname : str) : world * reply :=
  if check_name qname then
    match ns_attr doc uri qname true with
    | inl x => let '(w1, a) := new_attr w x in (w1, RAttr (Some a))
    | inr e => (w, RThrow e)
    end
  else (w, RThrow A_INVALID_CHARACTER).

(** getNodeValue, AttrImpl.hpp:121-129, concatNodes 181-190. *)
Definition node_value (a : attr) : str := match a_cache a with Some v => v | None => concat (a_texts a) end.
Definition read_value (w : world) (a : nat) : world * str :=
  (put_attr w a (fun x => set_cache (Some (node_value x)) x), node_value (w_attr w a)).
(** getAttribute and getAttributeNS, AttrMap.hpp:65-69 and 101-105. *)
Definition get_by (w : world) (e : nat) (p : attr -> bool) : world * str :=
  match find_attr w p (e_attrs (w_elem w e)) with Some a => read_value w a | None => (w, []) end.
(** setAttribute, ElementImpl.hpp:52-57 and AttrMap.hpp:71-76.  When the map throws, the new
    node is in no list and not an orphan and the program has no handle of it: the code leaks
    it, and it is left out of the state here. *)
Definition set_attribute (w : world) (e : nat) (name value : str) : world * reply :=
  if check_name name then
    let '(w0, _) := get_by w e (name_is name) in
    let '(w1, a) := new_attr w0 (level1 (e_doc (w_elem w e)) name [value] false) in
    match base_set (set_owner_element w1 a e) e a (name_is name) with
    | (_, RThrow x) => (w0, RThrow x)
    | (w2, _) => (w2, RNone)
    end
  else (w, RThrow A_INVALID_CHARACTER).
(** setAttributeNS, ElementImpl.hpp:92-96 and AttrMap.hpp:107-116; the same leak. *)
Definition set_attribute_ns (w : world) (e : nat) (uri qname value : str) : world * reply :=
  if check_name qname then
    match ns_attr (e_doc (w_elem w e)) uri qname false with
    | inr x => (w, RThrow x)
    | inl x =>
        let '(w1, a) := new_attr w (set_texts [value] x) in
        match base_set (set_owner_element w1 a e) e a (ns_name_is (uri_of x) (a_local x)) with
        | (_, RThrow x) => (w, RThrow x)
        | (w2, _) => (w2, RNone)
        end
    end
  else (w, RThrow A_INVALID_CHARACTER).

(** createDefault, AttrMap.hpp:167-187: by name with setAttributeNode, by namespace and
    name with setAttributeNodeNS.  The clone is made by createAttribute and its text copied. *)
Definition default_match (p : attr -> bool) (t : default_attr) : bool := p (level1 0 (t_name t) [] false).
Definition create_default (w : world) (e : nat) (p : attr -> bool) (ns : bool) : world :=
  match find (default_match p) (e_defaults (w_elem w e)) with
  | None => w
  | Some t =>
      let '(w1, a) := new_attr w (level1 (e_doc (w_elem w e)) (t_name t) [t_value t] true) in
      fst (if ns then set_attribute_node_ns w1 e a else set_attribute_node w1 e a)
  end.
(** removeNamedItem and removeNamedItemNS, AttrMap.hpp:49-61, NamedNodeMapImpl.hpp:116-120,
    144-148, 206-214. *)
Definition remove_by (w : world) (e : nat) (p : attr -> bool) (ns : bool) : world * reply :=
  if e_ro (w_elem w e) then (w, RThrow A_NO_MODIFICATION)
  else
    let l := e_attrs (w_elem w e) in
    match find_attr w p l with
    | None => (w, RThrow A_NOT_FOUND)
    | Some old =>
        let w1 := put_attr (put_list w e (erase_first (fun x => p (w_attr w x)) l)) old (set_orphan true) in
        (create_default w1 e p ns, RAttr (Some old))
    end.
Definition drop_reply (r : world * reply) : world * reply :=
  match r with (w, RThrow x) => (w, RThrow x) | (w, _) => (w, RNone) end.
(** removeAttribute, ElementImpl.hpp:59-63; removeAttributeNS 98-101. *)
Definition remove_attribute (w : world) (e : nat) (name : str) : world * reply :=
  let '(w0, _) := get_by w e (name_is name) in drop_reply (remove_by w0 e (name_is name) false).
Definition remove_attribute_ns (w : world) (e : nat) (uri local : str) : world * reply :=
  drop_reply (remove_by w e (ns_name_is uri local) true).
(** removeAttributeNode, AttrMap.hpp:93-99. *)
Definition remove_attribute_node (w : world) (e a : nat) : world * reply :=
  match a_owner (w_attr w a) with
  | Some o =>
      if Nat.eqb o e then
        match remove_by w e (name_is (a_name (w_attr w a))) false with
        | (w1, RThrow x) => (w1, RThrow x)
        | (w1, _) => (w1, RAttr (Some a))
        end
      else (w, RThrow A_NOT_FOUND)
  | None => (w, RThrow A_NOT_FOUND)
  end.
(** getDefaults, AttrMap.hpp:189-201: run when an element is made (ElementImpl.hpp:36) and
    when its document is set. *)
Fixpoint get_defaults_from (w : world) (e : nat) (ts : list default_attr) : world :=
  match ts with
  | [] => w
  | t :: r =>
      match find_attr w (ns_name_is [] (t_name t)) (e_attrs (w_elem w e)) with
      | Some _ => get_defaults_from w e r
      | None =>
          let '(w1, a) := new_attr w (level1 (e_doc (w_elem w e)) (t_name t) [t_value t] true) in
          get_defaults_from (fst (set_attribute_node_ns w1 e a)) e r
      end
  end.

(** setNodeValue, AttrImpl.hpp:131-144. *)
Definition set_value (w : world) (a : nat) (v : str) : world * reply :=
  if a_ro (w_attr w a) then (w, RThrow A_NO_MODIFICATION)
  else (put_attr w a (fun x => set_cache None (set_texts [v] x)), RNone).
(** appendChild of a new text, AttrImpl.hpp:96-100. *)
Definition append_text (w : world) (a : nat) (v : str) : world * reply :=
  let w1 := put_attr w a (set_cache None) in
  if a_ro (w_attr w a) then (w1, RThrow A_NO_MODIFICATION)
  else (put_attr w1 a (fun x => set_texts (a_texts x ++ [v]) x), RNone).
(** setData on the k-th text child, CharacterDataImpl.hpp: the attribute is not told. *)
Fixpoint set_nth (k : nat) (v : str) (l : list str) : list str :=
  match l, k with [], _ => [] | _ :: r, O => v :: r | x :: r, S k => x :: set_nth k v r end.
Definition edit_text (w : world) (a k : nat) (v : str) : world * reply :=
  if a_ro (w_attr w a) then (w, RThrow A_NO_MODIFICATION)
  else (put_attr w a (fun x => set_texts (set_nth k v (a_texts x)) x), RNone).
(** setPrefix, AttrNSImpl.hpp:78-98; of an AttrImpl, NodeImpl.hpp: does nothing. *)
Definition set_prefix (w : world) (a : nat) (p : str) : world * reply :=
  match a_uri (w_attr w a) with
  | None => if is_empty (a_local (w_attr w a)) then (w, RNone) else (w, RThrow A_NAMESPACE)
  | Some u =>
      if is_empty p then (put_attr w a (fun x => set_a_name (a_local x) x), RNone)
      else match check_prefix (Some p) u with
           | inr e => (w, RThrow e)
           | inl _ => (put_attr w a (fun x => set_a_name (p ++ 58 :: a_local x) x), RNone)
           end
  end.
(** setReadOnly of an element, ElementImpl.hpp:166-170 and NodeImpl.hpp:189-199, for the
    element's own attributes. *)
Definition freeze_elem (w : world) (e : nat) : world :=
  World (fun b => if existsb (Nat.eqb b) (e_attrs (w_elem w e)) then set_a_ro true (w_attr w b) else w_attr w b)
        (fun x => if Nat.eqb x e then Elem (e_doc (w_elem w x)) (e_attrs (w_elem w x)) true (e_defaults (w_elem w x))
                  else w_elem w x) (w_next w).

(** The calls a program can make. *)
Inductive acall :=
  | ACreate (doc : nat) (name : str) | ACreateNS (doc : nat) (uri qname : str)
  | AGet (e : nat) (name : str) | AGetNS (e : nat) (uri local : str)
  | AHas (e : nat) (name : str) | AHasNS (e : nat) (uri local : str)
  | AGetNode (e : nat) (name : str) | AGetNodeNS (e : nat) (uri local : str)
  | ASet (e : nat) (name value : str) | ASetNS (e : nat) (uri qname value : str)
  | ASetNode (e a : nat) | ASetNodeNS (e a : nat)
  | ARemove (e : nat) (name : str) | ARemoveNS (e : nat) (uri local : str) | ARemoveNode (e a : nat)
  | ADefaults (e : nat) | AFreeze (e : nat)
  | AValue (a : nat) | ASetValue (a : nat) (v : str) | AAppendText (a : nat) (v : str)
  | AEditText (a k : nat) (v : str) | ASetPrefix (a : nat) (p : str).
Definition attr_call (w : world) (c : acall) : world * reply :=
  match c with
  | ACreate d n => create_attribute w d n
  | ACreateNS d u q => create_attribute_ns w d u q
  | AGet e n => let '(w1, s) := get_by w e (name_is n) in (w1, RStr s)
  | AGetNS e u l => let '(w1, s) := get_by w e (ns_name_is u l) in (w1, RStr s)
  | AHas e n => (w, RBool (match find_attr w (name_is n) (e_attrs (w_elem w e)) with Some _ => true | None => false end))
  | AHasNS e u l => (w, RBool (match find_attr w (ns_name_is u l) (e_attrs (w_elem w e)) with Some _ => true | None => false end))
  | AGetNode e n => (w, RAttr (find_attr w (name_is n) (e_attrs (w_elem w e))))
  | AGetNodeNS e u l => (w, RAttr (find_attr w (ns_name_is u l) (e_attrs (w_elem w e))))
  | ASet e n v => set_attribute w e n v
  | ASetNS e u q v => set_attribute_ns w e u q v
  | ASetNode e a => set_attribute_node w e a
  | ASetNodeNS e a => set_attribute_node_ns w e a
  | ARemove e n => remove_attribute w e n
  | ARemoveNS e u l => remove_attribute_ns w e u l
  | ARemoveNode e a => remove_attribute_node w e a
  | ADefaults e => (get_defaults_from w e (e_defaults (w_elem w e)), RNone)
  | AFreeze e => (freeze_elem w e, RNone)
  | AValue a => let '(w1, s) := read_value w a in (w1, RStr s)
  | ASetValue a v => set_value w a v
  | AAppendText a v => append_text w a v
  | AEditText a k v => edit_text w a k v
  | ASetPrefix a p => set_prefix w a p
  end.
Fixpoint attr_calls (w : world) (cs : list acall) : world * list reply :=
  match cs with
  | [] => (w, [])
  | c :: r => let '(w1, x) := attr_call w c in let '(w2, xs) := attr_calls w1 r in (w2, x :: xs)
  end.
(** Elements without attributes, in documents and with declared defaults as given. *)
Definition first_world (docs : nat -> nat) (dflt : nat -> list default_attr) : world :=
  World (fun _ => level1 0 [] [] false) (fun e => Elem (docs e) [] false (dflt e)) 0.
