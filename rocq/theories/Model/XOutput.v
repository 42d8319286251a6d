(** What XSLT instructions put into the result: include/XSLT/impl/xslt_output.hpp and
    xslt_namespace_stack.hpp. *)
From Coq Require Import String.
From Verif.Model Require Import Base Containers Attrs Uri Stream XSort.
From Coq Require Import List.
Import ListNotations.
Open Scope Z_scope.

(** * NamespaceStack, xslt_namespace_stack.hpp *)
(** prefixStack_ and uriStack_, the innermost scope first, and autoNs_, which is unsigned int
    in the code. *)
Record namespaces := Namespaces { n_prefixes : list (list (str * str)); n_uris : list (list (str * str)); n_auto : nat }.
(** 21-26. *)
Definition new_namespaces : namespaces := Namespaces [[]] [[]] 1.
(** pushScope and popScope, 28-38. *)
Definition push_scope (n : namespaces) : namespaces := Namespaces ([] :: n_prefixes n) ([] :: n_uris n) (n_auto n).
Definition pop_scope (n : namespaces) : namespaces := Namespaces (tl (n_prefixes n)) (tl (n_uris n)) (n_auto n).
(** searchStack, 69-78, and findPrefix, 58-61. *)
Fixpoint search_stack (st : list (list (str * str))) (k : str) : str :=
  match st with
  | [] => []
  | s :: st => match mm_find k s with Some v => v | None => search_stack st k end
  end.
Definition find_prefix (n : namespaces) (uri : str) : str := search_stack (n_uris n) uri.
Definition set_in_top (k v : str) (st : list (list (str * str))) : list (list (str * str)) :=
  match st with [] => [] | s :: st => map_set k v s :: st end.
(** autoNamespacePrefix, 80-85. *)
Definition auto_ns (k : nat) : str := ascii_str "auto-ns" ++ uint_digits (Nat.to_uint k).
(** declareNamespace, 40-51. *)
Definition declare_namespace (given uri : str) (attr : bool) (n : namespaces) : namespaces :=
  if negb (str_eqb (find_prefix n uri) []) then n
  else if (attr && str_eqb given []) || str_eqb given (ascii_str "xmlns")
       then let prefix := auto_ns (n_auto n) in
            Namespaces (set_in_top prefix uri (n_prefixes n)) (set_in_top uri prefix (n_uris n)) (S (n_auto n))
       else Namespaces (set_in_top given uri (n_prefixes n)) (set_in_top uri given (n_uris n)) (n_auto n).

(** * Output *)
(** escape, xslt_output.hpp:269-281. *)
Fixpoint escape_loop (fuel : nat) (t r s : str) (from : nat) : option str :=
  match find_sub t s from with
  | None => Some s
  | Some naughty => match fuel with
                    | O => None
                    | S fuel => escape_loop fuel t r (firstn naughty s ++ r ++ skipn (naughty + length t) s) naughty
                    end
  end.
Definition escape (t r s : str) : option str := escape_loop (length s) t r s O.
Definition ends_in (c : Z) (s : str) : bool := match rev s with x :: _ => x =? c | [] => false end.
(** 215-217. *)
Definition comment_text (s : str) : option str :=
  match escape (ascii_str "--") (ascii_str "- -") s with
  | Some c => Some (if ends_in 45 c then c ++ [32] else c)
  | None => None
  end.
(** 239. *)
Definition pi_text (s : str) : option str := escape (ascii_str "?>") (ascii_str "? >") s.

(** The do_ functions called, 256-266. *)
Inductive event := Start (qname uri : str) (atts : list attr) | End_ (qname uri : str) | Chars (s : str) | StartCdata | EndCdata | Comment (s : str) | Pi (target data : str) | Escaping (disable : bool).
(** QName, xslt_qname.hpp:18-36. *)
Record qualified := Qualified { q_prefix : str; q_local : str; q_uri : str }.
Definition make_name (prefix local : str) : str := match prefix with [] => local | _ => prefix ++ [58] ++ local end.
Definition q_name (q : qualified) : str := make_name (q_prefix q) (q_local q).
(** cdataElements_: QName::operator< looks at the namespace and the local name. *)
Definition same_qualified (a b : qualified) : bool := str_eqb (q_uri a) (q_uri b) && str_eqb (q_local a) (q_local b).

(** 378-390; warnings are left out.  [o_declares] is want_namespace_declarations, true of a
    StreamSink and false of a DOMSink.  [o_undefined] is set where the code would have undefined
    behaviour (the top of an empty stack) or would not end. *)
Record output := Output { o_buffering : Z; o_pending_element : bool; o_pending_text : bool; o_pending_attribute : option nat; o_text_mode : bool; o_declares : bool;
  o_cdata : list qualified; o_elements : list qualified; o_target : str; o_atts : list attr; o_buffer : str; o_names : namespaces; o_events : list event; o_undefined : bool }.
Definition with_buffering b o := Output b (o_pending_element o) (o_pending_text o) (o_pending_attribute o) (o_text_mode o) (o_declares o) (o_cdata o) (o_elements o) (o_target o) (o_atts o) (o_buffer o) (o_names o) (o_events o) (o_undefined o).
Definition with_pending_element b o := Output (o_buffering o) b (o_pending_text o) (o_pending_attribute o) (o_text_mode o) (o_declares o) (o_cdata o) (o_elements o) (o_target o) (o_atts o) (o_buffer o) (o_names o) (o_events o) (o_undefined o).
Definition with_pending_text b o := Output (o_buffering o) (o_pending_element o) b (o_pending_attribute o) (o_text_mode o) (o_declares o) (o_cdata o) (o_elements o) (o_target o) (o_atts o) (o_buffer o) (o_names o) (o_events o) (o_undefined o).
Definition with_pending_attribute b o := Output (o_buffering o) (o_pending_element o) (o_pending_text o) b (o_text_mode o) (o_declares o) (o_cdata o) (o_elements o) (o_target o) (o_atts o) (o_buffer o) (o_names o) (o_events o) (o_undefined o).
Definition with_elements b o := Output (o_buffering o) (o_pending_element o) (o_pending_text o) (o_pending_attribute o) (o_text_mode o) (o_declares o) (o_cdata o) b (o_target o) (o_atts o) (o_buffer o) (o_names o) (o_events o) (o_undefined o).
Definition with_target b o := Output (o_buffering o) (o_pending_element o) (o_pending_text o) (o_pending_attribute o) (o_text_mode o) (o_declares o) (o_cdata o) (o_elements o) b (o_atts o) (o_buffer o) (o_names o) (o_events o) (o_undefined o).
Definition with_atts b o := Output (o_buffering o) (o_pending_element o) (o_pending_text o) (o_pending_attribute o) (o_text_mode o) (o_declares o) (o_cdata o) (o_elements o) (o_target o) b (o_buffer o) (o_names o) (o_events o) (o_undefined o).
Definition with_buffer b o := Output (o_buffering o) (o_pending_element o) (o_pending_text o) (o_pending_attribute o) (o_text_mode o) (o_declares o) (o_cdata o) (o_elements o) (o_target o) (o_atts o) b (o_names o) (o_events o) (o_undefined o).
Definition with_names b o := Output (o_buffering o) (o_pending_element o) (o_pending_text o) (o_pending_attribute o) (o_text_mode o) (o_declares o) (o_cdata o) (o_elements o) (o_target o) (o_atts o) (o_buffer o) b (o_events o) (o_undefined o).
Definition emit e o := Output (o_buffering o) (o_pending_element o) (o_pending_text o) (o_pending_attribute o) (o_text_mode o) (o_declares o) (o_cdata o) (o_elements o) (o_target o) (o_atts o) (o_buffer o) (o_names o) (o_events o ++ [e]) (o_undefined o).
Definition undefined o := Output (o_buffering o) (o_pending_element o) (o_pending_text o) (o_pending_attribute o) (o_text_mode o) (o_declares o) (o_cdata o) (o_elements o) (o_target o) (o_atts o) (o_buffer o) (o_names o) (o_events o) true.
(** The constructor, 24-32, and start_document, 38-47; what the settings and the elements say
    is given. *)
Definition new_output (text_mode declares : bool) (cdata : list qualified) : output :=
  Output 0 false false None text_mode declares cdata [] [] [] [] new_namespaces (if text_mode then [Escaping true] else []) false.

(** isCDATA, 348-354. *)
Definition is_cdata (o : output) : bool :=
  match o_elements o with [] => false | e :: _ => existsb (same_qualified e) (o_cdata o) end.
(** addNamespaceDeclarations, 356-370. *)
Definition xmlns_uri : str := ascii_str "http://www.w3.org/2000/xmlns".
Definition declaration (pu : str * str) : attr :=
  Attr xmlns_uri (fst pu) (match fst pu with [] => ascii_str "xmlns" | p => ascii_str "xmlns:" ++ p end) [] (snd pu).
Definition add_declarations (o : output) : output :=
  match n_prefixes (o_names o) with
  | [] => undefined o
  | s :: _ => with_atts (o_atts o ++ map declaration (filter (fun pu => negb (str_eqb (fst pu) (ascii_str "xml"))) s)) o
  end.
(** flush_element, 329-346. *)
Definition flush_element (o : output) : output :=
  if negb (o_pending_element o) || match o_pending_attribute o with Some _ => true | None => false end then o
  else if o_text_mode o then o
  else let o := if o_declares o then add_declarations o else o in
       let o := with_names (pop_scope (o_names o)) o in
       let o := if o_declares o then add_declarations o else o in
       match o_elements o with
       | [] => undefined o
       | e :: _ => with_pending_element false (emit (Start (q_name e) (q_uri e) (o_atts o)) o)
       end.
(** flush_current, 317-327. *)
Definition flush_current (o : output) : output :=
  flush_element (if o_pending_text o then with_pending_text false (if is_cdata o then emit EndCdata o else o) else o).
(** start_element, 60-80; whether the element was started. *)
Definition start_element (prefix local uri : str) (o : output) : output * bool :=
  if negb (o_buffering o =? 0) then (o, false)
  else let o := flush_current o in
       let n := push_scope (o_names o) in
       let n := match uri with [] => n | _ => declare_namespace prefix uri false n end in
       let o := with_elements (Qualified (find_prefix n uri) local uri :: o_elements o) o in
       (with_names (push_scope n) (with_pending_element true (with_atts [] o)), true).
(** end_element, 88-103, with pop_if_buffering, 303-309. *)
Definition end_element (local uri : str) (o : output) : output :=
  if negb (o_buffering o =? 0) then with_buffering (o_buffering o - 1) o
  else let o := flush_current o in
       let o := if o_text_mode o then o
                else match o_elements o with
                     | [] => undefined o
                     | _ :: es => with_elements es (emit (End_ (make_name (find_prefix (o_names o) uri) local) uri) o)
                     end in
       with_names (pop_scope (o_names o)) o.
(** push_buffering, 283-293; [true] if it was buffering.  pop_buffering, 311-315. *)
Definition push_buffering (o : output) : output * bool :=
  if negb (o_buffering o =? 0) then (with_buffering (o_buffering o + 1) o, true)
  else (with_buffer [] (with_buffering (o_buffering o + 1) o), false).
Definition pop_buffering (o : output) : output * bool :=
  (with_buffering (o_buffering o - 1) o, negb (o_buffering o - 1 =? 0)).
(** start_attribute, 119-142, and end_attribute, 144-155. *)
Definition start_attribute (prefix local uri : str) (o : output) : output :=
  let (o, was) := push_buffering o in
  if was then o
  else if negb (o_pending_element o) then o
  else let n := match uri with [] => o_names o | _ => declare_namespace prefix uri true (o_names o) end in
       let qname := make_name (find_prefix n uri) local in
       let atts := match at_apply (AAddOrReplace (Attr uri local qname [] [])) (o_atts o) with Some l => l | None => o_atts o end in
       with_pending_attribute (index_of_q atts qname) (with_atts atts (with_names n o)).
Definition end_attribute (o : output) : output :=
  let (o, still) := pop_buffering o in
  if still then o
  else match o_pending_attribute o with
       | None => o
       | Some i => match at_apply (ASetValue i (o_buffer o)) (o_atts o) with
                   | Some l => with_pending_attribute None (with_atts l o)
                   | None => undefined o
                   end
       end.
(** add_attribute, 157-169. *)
Definition add_attribute (uri local qname value : str) (o : output) : output :=
  if negb (o_pending_element o) then o else with_atts (o_atts o ++ [Attr uri local qname [] value]) o.
(** characters, 171-198. *)
Definition characters (ch : str) (o : output) : output :=
  if negb (o_buffering o =? 0) then if o_buffering o =? 1 then with_buffer (o_buffer o ++ ch) o else o
  else let o := flush_element o in
       match o_pending_attribute o with
       | Some i => match at_apply (ASetValue i (at_field a_value (o_atts o) i ++ ch)) (o_atts o) with Some l => with_atts l o | None => undefined o end
       | None => let o := if o_pending_text o then o else (fun o => if is_cdata o then emit StartCdata o else o) (with_pending_text true o) in
                 emit (Chars ch) o
       end.
(** start_comment and end_comment, 200-220; start_processing_instruction and
    end_processing_instruction, 222-242. *)
Definition start_comment (o : output) : output :=
  let (o, was) := push_buffering o in if was then o else flush_current o.
Definition end_comment (o : output) : output :=
  let (o, still) := pop_buffering o in
  if still then o
  else if o_text_mode o then o
  else match comment_text (o_buffer o) with Some c => emit (Comment c) o | None => undefined o end.
Definition start_pi (target : str) (o : output) : output :=
  let (o, was) := push_buffering o in if was then o else with_target target (flush_current o).
Definition end_pi (o : output) : output :=
  let (o, still) := pop_buffering o in
  if still then o
  else if o_text_mode o then o
  else match pi_text (o_buffer o) with Some d => emit (Pi (o_target o) d) o | None => undefined o end.
(** disableOutputEscaping, 244-248. *)
Definition disable_output_escaping (b : bool) (o : output) : output := if o_text_mode o then o else emit (Escaping b) o.

(** * The calls that instructions make *)
(** What has been executed of a stylesheet, with names and texts evaluated: literal elements and
    xsl:element, xsl:attribute, copied attributes, texts, xsl:comment and
    xsl:processing-instruction.  Exceptions are left out. *)
Inductive instruction :=
| IElement (prefix local uri : str) (body : list instruction)
| IAttribute (prefix local uri : str) (body : list instruction)
| ICopyAttribute (uri local qname value : str)
| IText (disable : bool) (ch : str)
| IComment (body : list instruction)
| IPi (target : str) (body : list instruction).
(** xslt_element.hpp:38-63 and xslt_inline_element.hpp:71-82; xslt_attribute.hpp:34-61;
    xslt_copy.hpp:29-34; xslt_text.hpp:28-38; xslt_comment.hpp:21-28;
    xslt_processing_instruction.hpp:27-35. *)
Fixpoint execute (i : instruction) (o : output) : output :=
  match i with
  | IElement prefix local uri body =>
      let (o, started) := start_element prefix local uri o in
      if started then end_element local uri (fold_left (fun o i => execute i o) body o) else o
  | IAttribute prefix local uri body => end_attribute (fold_left (fun o i => execute i o) body (start_attribute prefix local uri o))
  | ICopyAttribute uri local qname value => add_attribute uri local qname value o
  | IText disable ch =>
      let o := if disable then disable_output_escaping true o else o in
      let o := characters ch o in
      if disable then disable_output_escaping false o else o
  | IComment body => end_comment (fold_left (fun o i => execute i o) body (start_comment o))
  | IPi target body => end_pi (fold_left (fun o i => execute i o) body (start_pi target o))
  end.
Definition executes (l : list instruction) (o : output) : output := fold_left (fun o i => execute i o) l o.
