(** Building a DOM from SAX events: include/DOM/SAX2DOM/SAX2DOM.hpp.

    The node structure and appendChild are those of Model/Dom.v; a created node is the next
    number.  An element's attributes are a list of attribute values as in Model/AttrMap.v.
    Not modelled: notations, element declarations, default attributes and ID attributes of
    the document type (SAX2DOM/DocumentTypeImpl.hpp:37-59), error handlers, and the value of
    an internal entity with markup in it, which is parsed on its own. *)
From Verif.Model Require Import Base Chars Dom Attrs Sax.
From Verif.Model Require AttrMap.

(** The members of Parser, SAX2DOM.hpp:152-173.  [b_ents] has the entities of the type of
    document_ (DocumentTypeImpl.hpp: entities_), the latest of each name first. *)
Record builder := Builder {
  b_heap : heap; b_atts : nat -> list AttrMap.attr; b_next : nat;
  b_doc : option nat; b_type : option nat; b_cur : option nat; b_cached : option nat;
  b_cdata : bool; b_dtd : bool; b_depth : Z; b_known : list (str * option nat); b_ents : list (str * nat) }.
Definition put_heap h b := Builder h (b_atts b) (b_next b) (b_doc b) (b_type b) (b_cur b) (b_cached b) (b_cdata b) (b_dtd b) (b_depth b) (b_known b) (b_ents b).
Definition put_atts a b := Builder (b_heap b) a (b_next b) (b_doc b) (b_type b) (b_cur b) (b_cached b) (b_cdata b) (b_dtd b) (b_depth b) (b_known b) (b_ents b).
Definition put_next n b := Builder (b_heap b) (b_atts b) n (b_doc b) (b_type b) (b_cur b) (b_cached b) (b_cdata b) (b_dtd b) (b_depth b) (b_known b) (b_ents b).
Definition put_doc v b := Builder (b_heap b) (b_atts b) (b_next b) v (b_type b) (b_cur b) (b_cached b) (b_cdata b) (b_dtd b) (b_depth b) (b_known b) (b_ents b).
Definition put_type v b := Builder (b_heap b) (b_atts b) (b_next b) (b_doc b) v (b_cur b) (b_cached b) (b_cdata b) (b_dtd b) (b_depth b) (b_known b) (b_ents b).
Definition put_cur v b := Builder (b_heap b) (b_atts b) (b_next b) (b_doc b) (b_type b) v (b_cached b) (b_cdata b) (b_dtd b) (b_depth b) (b_known b) (b_ents b).
Definition put_cached v b := Builder (b_heap b) (b_atts b) (b_next b) (b_doc b) (b_type b) (b_cur b) v (b_cdata b) (b_dtd b) (b_depth b) (b_known b) (b_ents b).
Definition put_cdata v b := Builder (b_heap b) (b_atts b) (b_next b) (b_doc b) (b_type b) (b_cur b) (b_cached b) v (b_dtd b) (b_depth b) (b_known b) (b_ents b).
Definition put_dtd v b := Builder (b_heap b) (b_atts b) (b_next b) (b_doc b) (b_type b) (b_cur b) (b_cached b) (b_cdata b) v (b_depth b) (b_known b) (b_ents b).
Definition put_depth v b := Builder (b_heap b) (b_atts b) (b_next b) (b_doc b) (b_type b) (b_cur b) (b_cached b) (b_cdata b) (b_dtd b) v (b_known b) (b_ents b).
Definition put_known v b := Builder (b_heap b) (b_atts b) (b_next b) (b_doc b) (b_type b) (b_cur b) (b_cached b) (b_cdata b) (b_dtd b) (b_depth b) v (b_ents b).
Definition put_ents v b := Builder (b_heap b) (b_atts b) (b_next b) (b_doc b) (b_type b) (b_cur b) (b_cached b) (b_cdata b) (b_dtd b) (b_depth b) (b_known b) v.

(** The outcome of a handler: normal, a DOMException that leaves it, a call through a null
    pointer (undefined), no return within the fuel, or something not modelled. *)
Inductive bres (A : Type) := BOk (b : builder) (a : A) | BThrow (b : builder) | BNull | BFuel | BOther.
Arguments BOk {A} b a. Arguments BThrow {A} b. Arguments BNull {A}. Arguments BFuel {A}. Arguments BOther {A}.
Definition bbind {A B} (r : bres A) (f : builder -> A -> bres B) : bres B :=
  match r with BOk b a => f b a | BThrow b => BThrow b | BNull => BNull | BFuel => BFuel | BOther => BOther end.

(** The create functions, DocumentImpl.hpp:143-226, 337-348. *)
Definition alloc (b : builder) (k : nkind) (doc : nat) (nm : naming) : builder * nat :=
  let i := b_next b in
  (put_next (S i) (put_atts (fun j => if Nat.eqb j i then [] else b_atts b j)
     (put_heap (upd (b_heap b) i (fun _ => new_node i k doc nm)) b)), i).
Definition append (fuel : nat) (b : builder) (this new : nat) : bres unit :=
  match vappend fuel (b_heap b) this new with
  | Ok h _ => BOk (put_heap h b) tt
  | Ex _ h => BThrow (put_heap h b)
  | Div => BFuel
  end.

(** createElementNS, DocumentImpl.hpp:337-348, with the constructor of ElementNSImpl,
    ElementNSImpl.hpp:20-48, and checkPrefixAndNamespace for an element, Helpers.hpp:12-50.
    None: it throws. *)
Definition element_naming (uri qname : str) : option naming :=
  if AttrMap.check_name qname then
    let given := match uri with [] => None | _ => Some uri end in
    match AttrMap.at_colon qname with
    | None => Some (Naming qname [] given qname)
    | Some (p, l) =>
        if AttrMap.has_colon p then None
        else if str_eqb p AttrMap.xml_prefix then
          if str_eqb uri AttrMap.xml_ns then Some (Naming qname [] given l) else None
        else match uri with [] => None | _ => Some (Naming qname [] given l) end
    end
  else None.
(** setAttributeNS on a new element, ElementImpl.hpp:92-96, AttrMap.hpp:107-116, and setNode,
    NamedNodeMapImpl.hpp:190-204: the attribute found is replaced.  None: it throws. *)
Fixpoint put_attr (p : AttrMap.attr -> bool) (x : AttrMap.attr) (l : list AttrMap.attr) : list AttrMap.attr :=
  match l with [] => [x] | y :: r => if p y then x :: r else y :: put_attr p x r end.
Definition set_attr (doc e : nat) (l : list AttrMap.attr) (uri qname value : str) : option (list AttrMap.attr) :=
  if AttrMap.check_name qname then
    match AttrMap.ns_attr doc uri qname false with
    | inl x => Some (put_attr (AttrMap.ns_name_is (AttrMap.uri_of x) (AttrMap.a_local x))
                       (AttrMap.set_owner_el (Some e) (AttrMap.set_texts [value] x)) l)
    | inr _ => None
    end
  else None.
(** The loop over the attributes, SAX2DOM.hpp:206-212; a name without a qualified name is the
    local name. *)
Fixpoint set_attrs (doc e : nat) (l : list AttrMap.attr) (atts : list attr) : option (list AttrMap.attr) :=
  match atts with
  | [] => Some l
  | a :: r =>
      match set_attr doc e l (a_uri a) (match a_qname a with [] => a_local a | q => q end) (a_value a) with
      | Some l' => set_attrs doc e l' r
      | None => None
      end
  end.
(** reset, SAX2DOM.hpp:138-142. *)
Definition reset (b : builder) : builder := put_doc None (put_cur None b).

(** createEntityReference, DocumentImpl.hpp:212-230, with importNode, 233-334, and cloneNode,
    ElementNSImpl.hpp:54-59, ElementImpl.hpp:173-191, EntityReferenceImpl.hpp:46-49: both copy
    what is below; a reference is made anew from the entity. *)
Definition lookup {A} (name : str) (l : list (str * A)) : option A :=
  match find (fun x => str_eqb (fst x) name) l with Some x => Some (snd x) | None => None end.
Definition naming_of (n : node) : naming := Naming (n_name n) (n_data n) (n_uri n) (n_local n).
Fixpoint copies (copy : builder -> nat -> bres nat) (fuel : nat) (b : builder) (to : nat) (l : list nat) : bres unit :=
  match l with
  | [] => BOk b tt
  | c :: r => bbind (copy b c) (fun b n => bbind (append fuel b to n) (fun b _ => copies copy fuel b to r))
  end.
Fixpoint copy_node (fuel : nat) (doc : nat) (b : builder) (n : nat) : bres nat :=
  match fuel with
  | O => BFuel
  | S f =>
      let x := b_heap b n in
      if nkind_eqb (n_kind x) KEntityRef then new_reference f doc b (n_name x)
      else
        let (b1, i) := alloc b (n_kind x) doc (naming_of x) in
        let b2 := put_atts (fun j => if Nat.eqb j i then map (AttrMap.set_owner_el (Some i)) (b_atts b1 n) else b_atts b1 j) b1 in
        bbind (copies (copy_node f doc) fuel b2 i (n_kids x)) (fun b _ => BOk b i)
  end
with new_reference (fuel : nat) (doc : nat) (b : builder) (name : str) : bres nat :=
  match fuel with
  | O => BFuel
  | S f =>
      let (b1, i) := alloc b KEntityRef doc (plain name) in
      bbind (match lookup name (b_ents b) with
             | None => BOk b1 tt
             | Some e => copies (copy_node f doc) fuel b1 i (n_kids (b_heap b1 e))
             end) (fun b2 _ =>
      match freeze fuel (b_heap b2) i with
      | Some h => BOk (put_heap h b2) i
      | None => BFuel
      end)
  end.
Definition create_reference (fuel : nat) (doc : nat) (b : builder) (name : str) : bres nat :=
  if AttrMap.check_name name then new_reference fuel doc b name else BThrow b.

(** A handler that makes one node and appends it. *)
Definition with_doc {A} (b : builder) (f : nat -> bres A) : bres A := match b_doc b with Some d => f d | None => BNull end.
Definition add (fuel : nat) (b : builder) (c : nat) (k : nkind) (nm : naming) : bres unit :=
  with_doc b (fun d => let (b1, i) := alloc b k d nm in append fuel b1 c i).
(** startElement, SAX2DOM.hpp:192-226: it catches the exceptions. *)
Definition start_element (fuel : nat) (b : builder) (uri qname : str) (atts : list attr) : bres unit :=
  match b_cur b with
  | None => BOk b tt
  | Some c =>
      with_doc b (fun d =>
      match element_naming uri qname with
      | None => BOk (reset b) tt
      | Some nm =>
          let (b1, i) := alloc b KElement d nm in
          match append fuel b1 c i with
          | BOk b2 _ =>
              match set_attrs d i [] atts with
              | Some l => BOk (put_cur (Some i) (put_atts (fun j => if Nat.eqb j i then l else b_atts b2 j) b2)) tt
              | None => BOk (reset b2) tt
              end
          | BThrow b2 => BOk (reset b2) tt
          | r => r
          end
      end)
  end.
Definition when_cur (b : builder) (f : nat -> bres unit) : bres unit := match b_cur b with Some c => f c | None => BOk b tt end.
Definition pseudo_dtd : str := [91; 100; 116; 100; 93].
(** The other handlers: 187-190, 228-263, 287-355, 384-393, 427-434. *)
Definition handle (fuel : nat) (b : builder) (e : sax) : bres unit :=
  match e with
  | EndDocument => BOk (put_cur None b) tt
  | StartElement uri _ qname atts => start_element fuel b uri qname atts
  | EndElement _ _ _ => when_cur b (fun c => BOk (put_cur (get_parent (b_heap b) c) b) tt)
  | Characters s => when_cur b (fun c => add fuel b c (if b_cdata b then KCData else KText) (Naming [] s None []))
  | PI t d => when_cur b (fun c =>
      if AttrMap.check_name t && forallb is_char d then add fuel b c KPI (Naming t d None []) else BThrow b)
  | SkippedEntity n => when_cur b (fun c =>
      if b_dtd b then BOk b tt
      else with_doc b (fun d => bbind (create_reference fuel d b n) (fun b i => append fuel b c i)))
  | StartDTD n _ _ => with_doc b (fun d =>
      let (b1, i) := alloc b KDocType d (plain n) in
      bbind (append fuel (put_type (Some i) b1) d i) (fun b _ => BOk (put_dtd true (put_ents [] b)) tt))
  | EndDTD => match b_type b with
              | Some t => BOk (put_dtd false (put_heap (set_read_only (b_heap b) t) b)) tt
              | None => BNull
              end
  | StartEntity n => when_cur b (fun c =>
      let b1 := put_depth (b_depth b + 1) b in
      if b_depth b1 =? 1 then
        let e := match lookup n (b_known b) with Some x => x | None => None end in
        let b2 := put_known (match lookup n (b_known b) with Some _ => b_known b | None => (n, None) :: b_known b end) (put_cached (Some c) b1) in
        BOk (put_cur (match e with
                      | Some i => match n_kids (b_heap b i) with [] => Some i | _ => None end
                      | None => None
                      end) b2) tt
      else BOk b1 tt)
  | EndEntity n =>
      let b1 := put_depth (b_depth b - 1) b in
      let b2 := if b_depth b1 =? 0 then put_cur (b_cached b) b1 else b1 in
      if str_eqb pseudo_dtd n then BOk b2 tt
      else
        match lookup n (b_known b2) with
        | Some (Some i) =>
            match n_kids (b_heap b2 i) with
            | _ :: _ =>
                match b_cur b2, n_owner (b_heap b2 i) with
                | Some c, Some d => copies (copy_node fuel d) fuel b2 c (n_kids (b_heap b2 i))
                | _, _ => BNull
                end
            | [] => match b_cur b2 with
                    | Some c => with_doc b2 (fun d => bbind (create_reference fuel d b2 n) (fun b i => append fuel b c i))
                    | None => BNull
                    end
            end
        | _ => match b_cur b2 with
               | Some c => with_doc b2 (fun d => bbind (create_reference fuel d b2 n) (fun b i => append fuel b c i))
               | None => BNull
               end
        end
  | StartCDATA => BOk (put_cdata true b) tt
  | EndCDATA => BOk (put_cdata false b) tt
  | Comment s => when_cur b (fun c => add fuel b c KComment (Naming [] s None []))
  | InternalEntityDecl n v =>
      match b_type b with
      | None => BOk b tt
      | Some _ =>
          if existsb (Z.eqb 60) v then BOther
          else with_doc b (fun d =>
            let (b1, i) := alloc b KEntity d (plain n) in
            let b2 := put_ents ((n, i) :: b_ents b1) (put_known (match lookup n (b_known b1) with Some _ => b_known b1 | None => (n, Some i) :: b_known b1 end) b1) in
            let (b3, t) := alloc b2 KText d (Naming [] v None []) in
            append fuel b3 i t)
      end
  | ExternalEntityDecl n _ _ =>
      match b_type b with
      | None => BOk b tt
      | Some _ =>
          with_doc b (fun d =>
            let (b1, i) := alloc b KEntity d (plain n) in
            BOk (put_ents ((n, i) :: b_ents b1) (put_known (match lookup n (b_known b1) with Some _ => b_known b1 | None => (n, Some i) :: b_known b1 end) b1)) tt)
      end
  | _ => BOk b tt
  end.
Fixpoint handle_all (fuel : nat) (b : builder) (evs : list sax) : bres unit :=
  match evs with [] => BOk b tt | e :: r => bbind (handle fuel b e) (fun b _ => handle_all fuel b r) end.
(** parse, SAX2DOM.hpp:97-131: a new empty document, the text coalescer, the handlers; an
    exception drops the document.  What earlier parses have left in the other members stays. *)
Definition begin_parse (b : builder) : builder :=
  let (b1, d) := alloc b KDocument 0 (plain []) in
  put_ents [] (put_depth 0 (put_dtd false (put_cdata false (put_cur (Some d) (put_doc (Some d) b1))))).
Definition parse (fuel : nat) (b : builder) (evs : list sax) : bres unit :=
  match handle_all fuel (begin_parse b) (fst (coalescer evs [])) with
  | BThrow b' => BOk (put_doc None b') tt
  | r => r
  end.
(** A new parser. *)
Definition new_parser : builder :=
  Builder (fun i => new_node i KText 0 (plain [])) (fun _ => []) 0 None None None None false false 0 [] [].
