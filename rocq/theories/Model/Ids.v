(** getElementById: DocumentImpl.hpp:28-40, 370-376, 495-505 and 535, with setOwnerElement,
    AttrImpl.hpp:148-161, over the calls of Model/AttrMap.v.  Which attributes are IDs was told
    before the first element was made, by attributeDecl, SAX2DOM.hpp:365-377, of which
    addElementId keeps the names of attributes (DocumentTypeImpl.hpp:127-130, 160-163).
    removeElementId (500-505) is called by nothing. *)
From Verif.Model Require Import Base Chars AttrMap.

(** An element of idNodes_.  [Lost] is an attribute that setAttribute or setAttributeNS made and
    then leaked, when the map threw (see [set_attribute]): its value and ownerElement_, which
    nothing can change. *)
Inductive entry := Entry (a : nat) | Lost (value : str) (owner : nat).
Definition same_entry (x y : entry) : bool :=
  match x, y with Entry a, Entry b => Nat.eqb a b | _, _ => false end.
(** A call of setOwnerElement: the document, the name and the attribute. *)
Definition claim : Type := nat * str * entry.
(** [d_w]: attributes and elements; [d_ids]: idNodes_ of each document; [d_dead]: attributes and
    elements that have been deleted. *)
Record dstate := DState { d_w : world; d_ids : nat -> list entry; d_dead : (nat -> bool) * (nat -> bool) }.

Section Ids.
  (** The attributes declared as IDs, of each document: names of element and attribute. *)
  Context (declared : nat -> list (str * str)).
  (** The order of idNodes_, which is that of addresses. *)
  Context (order : list entry -> list entry).

  Definition id_names (d : nat) : list str := map snd (declared d).
  (** setOwnerElement, 151-160, and std::set::insert.  The attributes of [Lost] are new. *)
  Definition claim_id (ids : nat -> list entry) (c : claim) : nat -> list entry :=
    let '(d, n, x) := c in
    if existsb (str_eqb n) (id_names d)
    then fun d' => if Nat.eqb d' d then if existsb (same_entry x) (ids d) then ids d else ids d ++ [x] else ids d'
    else ids.

  (** Where the calls of Model/AttrMap.v call setOwnerElement: AttrMap::setNamedItem and
      setNamedItemNS (AttrMap.hpp:38-47, 133-142) *)
  Definition node_claims (w : world) (e a : nat) : list claim :=
    let x := w_attr w a in
    let mine := match a_owner x with Some o => Nat.eqb o e | None => false end in
    if negb (is_orphaned x) && mine then []
    else if e_ro (w_elem w e) then []
    else if negb (is_orphaned x) && negb mine then []
    else [(a_doc x, a_name x, Entry a)].
  (** setAttribute and setAttributeNS (71-76, 107-116): before the map may throw *)
  Definition new_claims (w : world) (e : nat) (n v : str) : list claim :=
    [(e_doc (w_elem w e), n, if e_ro (w_elem w e) then Lost v e else Entry (w_next w))].
  (** createDefault (167-187) *)
  Definition default_claims (w : world) (e : nat) (p : attr -> bool) : list claim :=
    if e_ro (w_elem w e) then []
    else
      match find_attr w p (e_attrs (w_elem w e)), find (default_match p) (e_defaults (w_elem w e)) with
      | Some _, Some t => [(e_doc (w_elem w e), t_name t, Entry (w_next w))]
      | _, _ => []
      end.
  (** getDefaults (189-201) *)
  Fixpoint defaults_claims (w : world) (e : nat) (ts : list default_attr) : list claim :=
    match ts with
    | [] => []
    | t :: r =>
        match find_attr w (ns_name_is [] (t_name t)) (e_attrs (w_elem w e)) with
        | Some _ => defaults_claims w e r
        | None =>
            let '(w1, a) := new_attr w (level1 (e_doc (w_elem w e)) (t_name t) [t_value t] true) in
            node_claims w1 e a ++ defaults_claims (fst (set_attribute_node_ns w1 e a)) e r
        end
    end.
  Definition claims (w : world) (c : acall) : list claim :=
    match c with
    | ASet e n v => if check_name n then new_claims w e n v else []
    | ASetNS e u q v =>
        if check_name q then match ns_attr (e_doc (w_elem w e)) u q false with inl x => new_claims w e (a_name x) v | inr _ => [] end
        else []
    | ASetNode e a | ASetNodeNS e a => node_claims w e a
    | ARemove e n => default_claims w e (name_is n)
    | ARemoveNS e u l => default_claims w e (ns_name_is u l)
    | ARemoveNode e a =>
        match a_owner (w_attr w a) with
        | Some o => if Nat.eqb o e then default_claims w e (name_is (a_name (w_attr w a))) else []
        | None => []
        end
    | ADefaults e => defaults_claims w e (e_defaults (w_elem w e))
    | _ => []
    end.
  Definition id_call (s : dstate) (c : acall) : dstate * reply :=
    let '(w, r) := attr_call (d_w s) c in
    (DState w (fold_left claim_id (claims (d_w s) c) (d_ids s)) (d_dead s), r).
  (** std::find_if with valueIs, DocumentImpl.hpp:28-40, and getOwnerElement.  The value is
      computed as getNodeValue does; what was deleted is read, or returned, with undefined
      effects. *)
  Fixpoint seek (dead : (nat -> bool) * (nat -> bool)) (id : str) (l : list entry) (w : world) : outcome (world * option nat) :=
    match l with
    | [] => Val (w, None)
    | Entry a :: l =>
        if fst dead a then UB
        else
          let '(w1, v) := read_value w a in
          if str_eqb v id then
            match a_owner (w_attr w1 a) with
            | Some e => if snd dead e then UB else Val (w1, Some e)
            | None => Val (w1, None)
            end
          else seek dead id l w1
    | Lost v e :: l => if str_eqb v id then if snd dead e then UB else Val (w, Some e) else seek dead id l w
    end.
  Definition get_by_id (s : dstate) (d : nat) (id : str) : outcome (dstate * option nat) :=
    obind (seek (d_dead s) id (order (d_ids s d)) (d_w s)) (fun '(w, o) => Val (DState w (d_ids s) (d_dead s), o)).
  (** purgeChild of an element without children, NodeImpl.hpp:494-498 and DocumentImpl.hpp:482-486:
      the destructor of its map (NamedNodeMapImpl.hpp:77-81) deletes its attributes. *)
  Definition purge (s : dstate) (e : nat) : dstate :=
    DState (d_w s) (d_ids s)
      (fun a => fst (d_dead s) a || existsb (Nat.eqb a) (e_attrs (w_elem (d_w s) e)), fun x => snd (d_dead s) x || Nat.eqb x e).
  Definition first_dstate (docs : nat -> nat) (dflt : nat -> list default_attr) : dstate :=
    DState (first_world docs dflt) (fun _ => []) (fun _ => false, fun _ => false).
End Ids.
