(** The HTML parser behind its scanner: include/Taggle/impl/Parser.hpp, with Element.hpp,
    ElementType.hpp and SchemaImpl.hpp.  Strings are sequences of bytes; a char is signed, as on
    x86.  The handlers do not throw.  Not modelled: resolveEntity for the doctype, cdsect, which
    the scanner does not call, and the place in the input (the Locator). *)
From Coq Require Import String.
From Verif.Model Require Import Base Chars Text Attrs XSort HtmlSchema.
From Coq Require Import List.
Import ListNotations.
Open Scope Z_scope.

(** * Element types *)
(** ElementType.hpp:25-33; the parent by its name, None for the null pointer. *)
Record etype := EType { et_name : str; et_model : Z; et_member : Z; et_flags : Z; et_atts : list attr; et_parent : option str }.
(** std::tolower in the C locale; lower_case, Parser.hpp:1192-1197. *)
Definition lower (c : Z) : Z := if (65 <=? c) && (c <=? 90) then c + 32 else c.
Definition lower_case (s : str) : str := map lower s.
(** SchemaImpl::getElementType, SchemaImpl.hpp:117-123. *)
Definition get_type (schema : list etype) (name : str) : option etype :=
  find (fun t => str_eqb (lower_case (et_name t)) (lower_case name)) schema.
(** The types of the schema after its constructor, HTMLSchema.hpp:28-48, with
    SchemaImpl::elementType, parent and attribute, 46-104: none is declared twice, no attribute
    twice for a type; their names have no colon and their values no white space. *)
Definition html_schema : list etype :=
  map (fun t => match t with (name, model, member, flags) =>
         EType (ascii_str name) model member flags
           (flat_map (fun a => match a with (e, n, ty, v) =>
              if String.eqb e name then [Attr [] (ascii_str n) (ascii_str n) (ascii_str ty) (ascii_str v)] else [] end) html_attributes)
           (option_map (fun p => ascii_str (snd p)) (find (fun p => String.eqb (fst p) name) html_parents))
       end) html_types.
(** ElementType::canContain, ElementType.hpp:204-207. *)
Definition type_contains (t u : etype) : bool := negb (Z.land (et_model t) (et_member u) =? 0).
(** ElementType::namespaceName, 104-115, and localName, 122-129. *)
Definition schema_uri : str := ascii_str "http://www.w3.org/1999/xhtml".
Definition xml_namespace : str := ascii_str "http://www.w3.org/XML/1998/namespace".
Definition namespace_name (name : str) (attribute : bool) : str :=
  match find_char 58 name with
  | None => if attribute then [] else schema_uri
  | Some i => if str_eqb (firstn i name) (ascii_str "xml") then xml_namespace else ascii_str "urn:x-prefix:" ++ firstn i name
  end.
Definition local_name (name : str) : str :=
  match find_char 58 name with None => name | Some i => skipn (S i) name end.
(** setAttribute, 218-250; at a known attribute the type is kept. *)
Definition starts_with (p s : str) : bool := str_eqb (firstn (length p) s) p.
Definition set_attribute (atts : list attr) (name type value : str) : outcome (list attr) :=
  if str_eqb name (ascii_str "xmlns") || starts_with (ascii_str "xmlns:") name then Val atts
  else
    let ty := match type with
              | [] => match index_of_q atts name with Some i => at_field a_type atts i | None => ascii_str "CDATA" end
              | _ => type
              end in
    obind (if str_eqb ty (ascii_str "CDATA") then Val value else normalize_whitespace value) (fun v =>
    let a := Attr (namespace_name name true) (local_name name) name ty v in
    Val match index_of_q atts name with Some i => Attrs.update atts i (fun _ => a) | None => atts ++ [a] end).

(** * Elements *)
(** Element_impl, Element.hpp:166-191.  Elements are shared by handles, but one is never in two
    of newElement_, the stack and the saved ones, so that next_ is the place in a list. *)
Record elem := Elem { el_type : etype; el_atts : list attr; el_preclosed : bool }.
Definition new_elem (default_atts : bool) (t : etype) : elem := Elem t (if default_atts then et_atts t else []) false.
Definition el_name (e : elem) : str := et_name (el_type e).
Definition can_contain (e x : elem) : bool := type_contains (el_type e) (el_type x).
Definition has_flag (e : elem) (f : Z) : bool := negb (Z.land (et_flags (el_type e)) f =? 0).
(** anonymize, 217-224; clean, 226-237: from the last to the first. *)
Definition anonymize (e : elem) : elem :=
  Elem (el_type e) (filter (fun a => negb (str_eqb (a_type a) (ascii_str "ID") || str_eqb (a_qname a) (ascii_str "name"))) (el_atts e)) (el_preclosed e).
Definition nothing (s : str) : bool := match s with [] => true | _ => false end.
Definition clean (e : elem) : elem :=
  Elem (el_type e) (filter (fun a => negb (nothing (a_value a) || nothing (a_local a))) (el_atts e)) (el_preclosed e).

(** * The parser *)
Record features := Features { fe_namespaces : bool; fe_ignore_bogons : bool; fe_bogons_empty : bool; fe_root_bogons : bool;
  fe_default_attributes : bool; fe_translate_colons : bool; fe_restart : bool; fe_ignorable : bool; fe_cdata : bool }.
(** What the handlers are told. *)
Inductive hevent :=
  | HStartDocument | HLocator | HEndDocument
  | HStartMapping (prefix uri : str) | HEndMapping (prefix : str)
  | HStart (uri local qname : str) (atts : list attr) | HEnd (uri local qname : str)
  | HText (s : str) | HIgnorable (s : str) | HInstruction (target data : str) | HComment (s : str)
  | HStartDTD (name public system : str) | HEndDTD.
(** The members, 250-276; [tg_cdata] is set when startCDATA of the scanner was called. *)
Record taggle := Taggle { tg_schema : list etype; tg_new : option elem; tg_attname : str; tg_doctype : bool; tg_pi : str;
  tg_stack : list elem; tg_saved : list elem; tg_entity : Z; tg_virgin : bool; tg_cdata : bool; tg_out : list hevent }.
Definition tell (l : list hevent) (g : taggle) : taggle :=
  Taggle (tg_schema g) (tg_new g) (tg_attname g) (tg_doctype g) (tg_pi g) (tg_stack g) (tg_saved g) (tg_entity g) (tg_virgin g) (tg_cdata g) (tg_out g ++ l).
Definition set_new (e : option elem) (g : taggle) : taggle :=
  Taggle (tg_schema g) e (tg_attname g) (tg_doctype g) (tg_pi g) (tg_stack g) (tg_saved g) (tg_entity g) (tg_virgin g) (tg_cdata g) (tg_out g).
Definition set_attname (n : str) (g : taggle) : taggle :=
  Taggle (tg_schema g) (tg_new g) n (tg_doctype g) (tg_pi g) (tg_stack g) (tg_saved g) (tg_entity g) (tg_virgin g) (tg_cdata g) (tg_out g).
Definition set_doctype (b : bool) (g : taggle) : taggle :=
  Taggle (tg_schema g) (tg_new g) (tg_attname g) b (tg_pi g) (tg_stack g) (tg_saved g) (tg_entity g) (tg_virgin g) (tg_cdata g) (tg_out g).
Definition set_pi (s : str) (g : taggle) : taggle :=
  Taggle (tg_schema g) (tg_new g) (tg_attname g) (tg_doctype g) s (tg_stack g) (tg_saved g) (tg_entity g) (tg_virgin g) (tg_cdata g) (tg_out g).
Definition set_stack (l : list elem) (g : taggle) : taggle :=
  Taggle (tg_schema g) (tg_new g) (tg_attname g) (tg_doctype g) (tg_pi g) l (tg_saved g) (tg_entity g) (tg_virgin g) (tg_cdata g) (tg_out g).
Definition set_saved (l : list elem) (g : taggle) : taggle :=
  Taggle (tg_schema g) (tg_new g) (tg_attname g) (tg_doctype g) (tg_pi g) (tg_stack g) l (tg_entity g) (tg_virgin g) (tg_cdata g) (tg_out g).
Definition set_entity (n : Z) (g : taggle) : taggle :=
  Taggle (tg_schema g) (tg_new g) (tg_attname g) (tg_doctype g) (tg_pi g) (tg_stack g) (tg_saved g) n (tg_virgin g) (tg_cdata g) (tg_out g).
Definition set_virgin (b : bool) (g : taggle) : taggle :=
  Taggle (tg_schema g) (tg_new g) (tg_attname g) (tg_doctype g) (tg_pi g) (tg_stack g) (tg_saved g) (tg_entity g) b (tg_cdata g) (tg_out g).
Definition set_cdata (b : bool) (g : taggle) : taggle :=
  Taggle (tg_schema g) (tg_new g) (tg_attname g) (tg_doctype g) (tg_pi g) (tg_stack g) (tg_saved g) (tg_entity g) (tg_virgin g) b (tg_out g).
Definition set_schema (s : list etype) (g : taggle) : taggle :=
  Taggle s (tg_new g) (tg_attname g) (tg_doctype g) (tg_pi g) (tg_stack g) (tg_saved g) (tg_entity g) (tg_virgin g) (tg_cdata g) (tg_out g).

(** S, 1213-1221: up to the first null. *)
Fixpoint c_string (s : str) : str := match s with [] => [] | c :: r => if c =? 0 then [] else c :: c_string r end.
(** prefixOf, 824-831; foreign, 834-838. *)
Definition prefix_of (name : str) : str := match find_char 58 name with Some i => firstn i name | None => [] end.
Definition foreign (prefix uri : str) : bool := negb (nothing prefix || nothing uri || str_eqb uri schema_uri).
(** The names for an element, 751-752 and 792-793. *)
Definition shown_uri (F : features) (e : elem) : str := if fe_namespaces F then namespace_name (el_name e) false else [].
Definition shown_local (F : features) (e : elem) : str := if fe_namespaces F then local_name (el_name e) else [].
Definition shown_att (a : attr) : attr := Attr (c_string (a_uri a)) (c_string (a_local a)) (c_string (a_qname a)) (c_string (a_type a)) (c_string (a_value a)).
(** pop, 742-768: the loop over the attributes goes backwards. *)
Definition pop (F : features) (g : taggle) : taggle :=
  match tg_stack g with
  | [] => g
  | e :: r =>
      let p := prefix_of (el_name e) in
      set_stack r (tell ([HEnd (c_string (shown_uri F e)) (c_string (shown_local F e)) (c_string (el_name e))] ++
        (if foreign p (shown_uri F e) then [HEndMapping (c_string p)] else []) ++
        rev (flat_map (fun a => if foreign (prefix_of (a_qname a)) (a_uri a) then [HEndMapping (c_string (prefix_of (a_qname a)))] else []) (el_atts e))) g)
  end.
(** restartablyPop, 771-781. *)
Definition restartably_pop (F : features) (g : taggle) : taggle :=
  match tg_stack g with
  | [] => g
  | e :: _ =>
      let g' := pop F g in
      if fe_restart F && has_flag e F_RESTART then set_saved (anonymize e :: tg_saved g') g' else g'
  end.
(** push, 784-821. *)
Definition push (F : features) (e0 : elem) (g : taggle) : taggle :=
  let e := clean e0 in
  let p := prefix_of (el_name e) in
  let g1 := tell ((if foreign p (shown_uri F e) then [HStartMapping (c_string p) (c_string (shown_uri F e))] else []) ++
    flat_map (fun a => if foreign (prefix_of (a_qname a)) (a_uri a) then [HStartMapping (c_string (prefix_of (a_qname a))) (c_string (a_uri a))] else []) (el_atts e) ++
    [HStart (c_string (shown_uri F e)) (c_string (shown_local F e)) (c_string (el_name e)) (map shown_att (el_atts e))]) g in
  let g2 := set_virgin false (set_stack (e :: tg_stack g1) g1) in
  if fe_cdata F && has_flag e F_CDATA then set_cdata true g2 else g2.
(** restart, 730-739; [l] is saved_. *)
Definition top_contains (g : taggle) (e : elem) : bool := match tg_stack g with t :: _ => can_contain t e | [] => false end.
Fixpoint restart_with (F : features) (e : option elem) (l : list elem) (g : taggle) : taggle :=
  match l with
  | [] => set_saved [] g
  | s :: r =>
      if top_contains g s && match e with None => true | Some x => can_contain s x end
      then restart_with F e r (push F s g) else set_saved l g
  end.
Definition restart (F : features) (e : option elem) (g : taggle) : taggle := restart_with F e (tg_saved g) g.

(** rectify, 1111-1147.  The first loop: the elements to push, the outermost first, and the
    place on the stack of the one that can contain it.  A type without parent is a null
    reference; a parent that is no type is taken for one.  The parent is never the null type,
    so that the loop does not end otherwise, and sp is not null after it. *)
Fixpoint find_place (e : elem) (stack : list elem) : option nat :=
  match stack with
  | [] => None
  | s :: r => if can_contain s e then Some O else option_map S (find_place e r)
  end.
Fixpoint raise (fuel : nat) (F : features) (schema : list etype) (stack : list elem) (chain : list elem) (e : elem) : outcome (list elem * nat) :=
  match find_place e stack with
  | Some n => Val (e :: chain, n)
  | None =>
      match et_parent (el_type e) with
      | None => UB
      | Some p =>
          match get_type schema p with
          | None => UB
          | Some t => match fuel with O => NoFuel | S f => raise f F schema stack (e :: chain) (new_elem (fe_default_attributes F) t) end
          end
      end
  end.
(** The second loop. *)
Fixpoint pop_until (F : features) (n : nat) (g : taggle) : taggle :=
  match n with
  | O => g
  | S m => match tg_stack g with
           | _ :: _ :: _ :: _ => pop_until F m (restartably_pop F g)
           | _ => g
           end
  end.
(** The third loop. *)
Definition pcdata_name : str := ascii_str "<pcdata>".
Fixpoint push_chain (F : features) (chain : list elem) (g : taggle) : taggle :=
  match chain with
  | [] => g
  | e :: r =>
      let g' := if str_eqb (el_name e) pcdata_name then g else push F e g in
      push_chain F r (restart F (hd_error r) g')
  end.
Definition rectify (F : features) (e : elem) (g : taggle) : outcome taggle :=
  obind (raise (length (tg_schema g)) F (tg_schema g) (tg_stack g) [] e) (fun '(chain, n) =>
  Val (set_new None (push_chain F chain (pop_until F n g)))).
(** pcdata_, 508; <pcdata> is in the schema. *)
Definition root_name : str := ascii_str "<root>".
Definition the_elem (F : features) (schema : list etype) (name : str) : option elem := option_map (new_elem (fe_default_attributes F)) (get_type schema name).
Definition rectify_pcdata (F : features) (g : taggle) : outcome taggle :=
  match the_elem F (tg_schema g) pcdata_name with Some e => rectify F e g | None => UB end.

(** makeName, 1157-1190.  A char is taken as a wchar_t. *)
Definition wide (c : Z) : Z := if c <? 128 then c else c - 256.
Fixpoint name_chars (F : features) (s : str) (start seen_colon : bool) : str :=
  match s with
  | [] => []
  | b :: r =>
      let c := wide b in
      if is_letter c || (c =? 95) then b :: name_chars F r false seen_colon
      else if is_digit c || (c =? 45) || (c =? 46) then (if start then [95] else []) ++ b :: name_chars F r false seen_colon
      else if (c =? 58) && negb seen_colon then (if start then [95] else []) ++ (if fe_translate_colons F then 95 else b) :: name_chars F r true true
      else name_chars F r start seen_colon
  end.
Definition make_name (F : features) (s : str) : str :=
  let d := name_chars F s true false in
  match rev d with [] => [95] | c :: _ => if c =? 58 then d ++ [95] else d end.

(** lookupEntity, 608-623, with SchemaImpl::getEntity, SchemaImpl.hpp:130-136: the values are
    chars.  strtol: an optional sign, 0x in base 16, digits; at most LONG_MAX, and the result is
    cut to an int. *)
Definition as_char (z : Z) : Z := let u := z mod 256 in if u <? 128 then u else u - 256.
Definition digit_value (base c : Z) : option Z :=
  let d := if (48 <=? c) && (c <=? 57) then c - 48 else if (97 <=? c) && (c <=? 122) then c - 87 else if (65 <=? c) && (c <=? 90) then c - 55 else 99 in
  if d <? base then Some d else None.
Fixpoint digits_of (base acc : Z) (s : str) : Z :=
  match s with
  | [] => acc
  | c :: r => match digit_value base c with Some d => digits_of base (acc * base + d) r | None => acc end
  end.
Definition long_max : Z := 9223372036854775807.
Definition clamp_long (z : Z) : Z := if long_max <? z then long_max else if z <? - long_max - 1 then - long_max - 1 else z.
Definition as_int32 (z : Z) : Z := let u := z mod 4294967296 in if u <? 2147483648 then u else u - 4294967296.
Definition strtol_digits (base : Z) (s : str) : Z :=
  match s with
  | 48 :: x :: c :: r => if (base =? 16) && ((x =? 120) || (x =? 88)) && match digit_value 16 c with Some _ => true | None => false end
                         then digits_of base 0 (c :: r) else digits_of base 0 s
  | _ => digits_of base 0 s
  end.
Definition strtol (base : Z) (s : str) : Z :=
  clamp_long match s with
             | c :: r => if c =? 45 then - strtol_digits base r else if c =? 43 then strtol_digits base r else strtol_digits base s
             | [] => 0
             end.
Definition get_entity (name : str) : Z :=
  match find (fun e => str_eqb (ascii_str (fst e)) name) html_entities with Some (_, v) => as_char v | None => 0 end.
Definition lookup_entity (s : str) : Z :=
  match s with
  | [] => 0
  | c :: r =>
      if c =? 35 then
        match r with
        | x :: t => if (x =? 120) || (x =? 88) then as_int32 (strtol 16 t) else as_int32 (strtol 10 r)
        | [] => as_int32 (strtol 10 r)
        end
      else get_entity s
  end.
(** expandEntities, 553-599; [ref] is the text after the ampersand when in a reference. *)
Fixpoint expand (dst : str) (ref : option str) (src : str) : str :=
  match src with
  | [] => dst ++ match ref with Some t => 38 :: t | None => [] end
  | c :: r =>
      match ref with
      | None => if c =? 38 then expand dst (Some []) r else expand (dst ++ [c]) None r
      | Some t =>
          if is_letter_or_digit (wide c) || (c =? 35) then expand dst (Some (t ++ [c])) r
          else if c =? 59 then
            let ent := lookup_entity t in
            let new := if 65535 <? ent then [(Z.shiftr (ent - 65536) 10 + 55296) mod 256; (Z.land (ent - 65536) 1023 + 56320) mod 256]
                       else if negb (ent =? 0) then [ent mod 256] else 38 :: t ++ [59] in
            expand (dst ++ new) None r
          else expand (dst ++ 38 :: t ++ [c]) None r
      end
  end.

(** * The callbacks of the scanner *)
(** adup, 521-528; aname, 530-538; aval, 540-548. *)
Definition put_attribute (value : str) (g : taggle) : outcome taggle :=
  match tg_new g, tg_attname g with
  | None, _ | _, [] => Val g
  | Some e, n => obind (set_attribute (el_atts e) n [] value) (fun l => Val (set_attname [] (set_new (Some (Elem (el_type e) l (el_preclosed e))) g)))
  end.
Definition adup (g : taggle) : outcome taggle := put_attribute (tg_attname g) g.
Definition aname (F : features) (s : str) (g : taggle) : outcome taggle :=
  match tg_new g with None => Val g | Some _ => Val (set_attname (lower_case (make_name F s)) g) end.
Definition aval (s : str) (g : taggle) : outcome taggle := put_attribute (expand [] None s) g.
(** entity, 601-604. *)
Definition entity (s : str) (g : taggle) : taggle := set_entity (lookup_entity s) g.
(** etag_basic, 680-726.  The loop gives the place of the element with the name, and whether an
    F_NOFORCE element is above it. *)
Fixpoint find_open (name : str) (stack : list elem) : option (nat * bool) :=
  match stack with
  | [] => None
  | s :: r => if str_eqb (el_name s) name then Some (O, false)
              else option_map (fun x => (S (fst x), has_flag s F_NOFORCE || snd x)) (find_open name r)
  end.
Fixpoint pop_n (F : features) (n : nat) (g : taggle) : taggle :=
  match n with O => g | S m => pop_n F m (restartably_pop F g) end.
Definition preclose (e : elem) : elem := Elem (el_type e) (el_atts e) true.
Fixpoint preclose_at (n : nat) (stack : list elem) : list elem :=
  match n, stack with
  | _, [] => []
  | O, e :: r => preclose e :: r
  | S m, e :: r => e :: preclose_at m r
  end.
Fixpoint pop_preclosed (F : features) (l : list elem) (g : taggle) : taggle :=
  match l with
  | [] => g
  | e :: r => if el_preclosed e then pop_preclosed F r (pop F g) else g
  end.
Definition close_tag (F : features) (name : str) (g : taggle) : taggle :=
  match find_open name (tg_stack g) with
  | None => g
  | Some (n, noforce) =>
      if Nat.leb (length (tg_stack g)) (n + 2) then g
      else
        let g' := if noforce then set_stack (preclose_at n (tg_stack g)) g else pop F (pop_n F n g) in
        restart F None (pop_preclosed F (tg_stack g') g')
  end.
Definition etag_basic (F : features) (s : str) (g0 : taggle) : taggle :=
  let g := set_new None g0 in
  match s with
  | [] => match tg_stack g with e :: _ => close_tag F (el_name e) g | [] => g end
  | _ => match get_type (tg_schema g) (make_name F s) with None => g | Some t => close_tag F (et_name t) g end
  end.
(** etag, 638-644, and etag_cdata, 646-678. *)
Definition etag (F : features) (s : str) (g : taggle) : taggle :=
  match tg_stack g with
  | e :: _ => if fe_cdata F && has_flag e F_CDATA && negb (str_eqb (lower_case s) (lower_case (el_name e)))
              then set_cdata true (tell [HText (ascii_str "</"); HText (c_string s); HText (ascii_str ">")] g)
              else etag_basic F s g
  | [] => etag_basic F s g
  end.
(** gi, 993-1016.  rootElementType is html. *)
Definition gi (F : features) (s : str) (g : taggle) : outcome taggle :=
  match tg_new g with
  | Some _ => Val g
  | None =>
      let name := make_name F s in
      match get_type (tg_schema g) name with
      | Some t => Val (set_new (Some (new_elem (fe_default_attributes F) t)) g)
      | None =>
          if fe_ignore_bogons F then Val g
          else
            let t := EType name (if fe_bogons_empty F then M_EMPTY else M_ANY) (if fe_root_bogons F then M_ANY else M_ANY - M_ROOT) 0 []
                       (if fe_root_bogons F then None else Some (ascii_str "html")) in
            Val (set_new (Some (new_elem (fe_default_attributes F) t)) (set_schema (tg_schema g ++ [t]) g))
      end
  end.
(** pcdata, 1026-1047. *)
Definition pcdata (F : features) (s : str) (g : taggle) : outcome taggle :=
  match s with
  | [] => Val g
  | _ =>
      let holds := match the_elem F (tg_schema g) pcdata_name with Some e => top_contains g e | None => false end in
      if forallb (fun c => is_space (wide c)) s && negb holds then
        Val (if fe_ignorable F then tell [HIgnorable (c_string s)] g else g)
      else obind (rectify_pcdata F g) (fun g' => Val (tell [HText (c_string s)] g'))
  end.
(** pitarget, 1049-1062; pi, 1064-1077. *)
Definition pitarget (F : features) (s : str) (g : taggle) : taggle :=
  match tg_new g with Some _ => g | None => set_pi (map (fun c => if c =? 58 then 95 else c) (make_name F s)) g end.
Definition drop_mark (s : str) : str := match rev s with 63 :: r => rev r | _ => s end.
Definition pi (s : str) (g : taggle) : taggle :=
  match tg_new g, tg_pi g with
  | Some _, _ | _, [] => g
  | None, t => if str_eqb (lower_case t) (ascii_str "xml") then g else set_pi [] (tell [HInstruction (c_string t) (c_string (drop_mark s))] g)
  end.
(** stagc, 1079-1090; stage, 1092-1100. *)
Definition stagc (F : features) (s : str) (g : taggle) : outcome taggle :=
  match tg_new g with
  | None => Val g
  | Some e => obind (rectify F e g) (fun g' => Val match tg_stack g' with t :: _ => if et_model (el_type t) =? M_EMPTY then etag_basic F s g' else g' | [] => g' end)
  end.
Definition stage (F : features) (s : str) (g : taggle) : outcome taggle :=
  match tg_new g with
  | None => Val g
  | Some e => obind (rectify F e g) (fun g' => Val (etag_basic F s g'))
  end.
(** cmnt, 1103-1107. *)
Definition cmnt (s : str) (g : taggle) : taggle := tell [HComment (c_string s)] g.
(** split, 916-965: the second argument of substr is a length.  [i] is e; a substr from npos
    throws out_of_range, which is UB here. *)
Definition substr (v : str) (s : option nat) (n : nat) : outcome str := match s with Some i => Val (firstn n (skipn i v)) | None => UB end.
Fixpoint split_from (v : str) (rest : str) (i : nat) (s : option nat) (sq dq : bool) (last : Z) (splits : list str) : outcome (list str) :=
  match rest with
  | [] => obind (substr v s i) (fun w => Val (splits ++ [w]))
  | c :: r =>
      let from := match s with None => Some i | x => x end in
      if negb dq && (c =? 39) && negb (last =? 92) then split_from v r (S i) from (negb sq) dq c splits
      else if negb sq && (c =? 34) && negb (last =? 92) then split_from v r (S i) from sq (negb dq) c splits
      else if negb sq && negb dq then
        if is_space (wide c) then obind (substr v s i) (fun w => split_from v r (S i) None sq dq c (splits ++ [w]))
        else split_from v r (S i) (if c =? 32 then s else from) sq dq c splits
      else split_from v r (S i) s sq dq c splits
  end.
Definition split_words (val : str) : outcome (list str) :=
  obind (normalize_whitespace val) (fun v => match v with [] => Val [[]] | _ => split_from v v 0 (Some 0%nat) false false 0 [] end).
(** trimquotes, 902-912; cleanPublicid, 968-991, with legal, 1299-1300. *)
Definition trimquotes (s : str) : str :=
  match s with
  | [] => []
  | c :: r => if (c =? last s 0) && ((c =? 39) || (c =? 34)) then firstn (length s - 1) (skipn 1 s) else s
  end.
Definition legal : str := ascii_str "abcdefghijklmnopqrstuvwxyzABCDEFGHIJKLMNOPQRSTUVWXYZ0123456789-'()+,./:=?;!*#@$_%".
Fixpoint clean_publicid (s : str) (suppress : bool) : str :=
  match s with
  | [] => []
  | c :: r => if existsb (Z.eqb c) legal then c :: clean_publicid r false else if suppress then clean_publicid r true else 32 :: clean_publicid r true
  end.
(** decl, 851-899. *)
Definition decl (s : str) (g : taggle) : outcome taggle :=
  obind (split_words s) (fun v =>
  let word i := nth i v [] in
  if str_eqb (word O) (ascii_str "DOCTYPE") then
    if tg_doctype g then Val g
    else
      let g' := set_doctype true g in
      let name := word 1%nat in
      let more := Nat.ltb 3 (length v) in
      let ids := if more && str_eqb (word 2%nat) (ascii_str "SYSTEM") then ([], word 3%nat)
                 else if more && str_eqb (word 2%nat) (ascii_str "PUBLIC") then (word 3%nat, word 4%nat) else ([], []) in
      let public := clean_publicid (trimquotes (fst ids)) true in
      match name with
      | [] => Val g'
      | _ => Val (tell [HStartDTD (c_string name) (c_string public) (c_string (trimquotes (snd ids))); HEndDTD] g')
      end
  else Val g).
(** eof, 625-636. *)
Fixpoint pop_rest (F : features) (l : list elem) (g : taggle) : taggle :=
  match l with
  | _ :: ((_ :: _) as r) => pop_rest F r (pop F g)
  | _ => g
  end.
Definition schema_prefix : str := ascii_str "html".
Definition eof (F : features) (g : taggle) : outcome taggle :=
  obind (if tg_virgin g then rectify_pcdata F g else Val g) (fun g1 =>
  Val (tell [HEndMapping schema_prefix; HEndDocument] (pop_rest F (tg_stack g1) g1))).
(** setup, 483-517, and the beginning of parse, 458-479.  doctypeIsPresent_ is as it was: false
    in a new parser.  The locator is the scanner. *)
Definition setup (F : features) (doctype_present : bool) : taggle :=
  Taggle html_schema None [] doctype_present [] match the_elem F html_schema root_name with Some e => [e] | None => [] end [] 0 true false
    [HStartDocument; HLocator; HStartMapping schema_prefix schema_uri].
