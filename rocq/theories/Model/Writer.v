(** The SAX writer, include/SAX/filter/Writer.hpp.  [indent] is the constructor's
    argument, [encoding] the label set by the constructor or setEncoding. *)
From Verif.Model Require Import Base Attrs Text Sax NsSupport.

(** lastTag_, Writer.hpp:166. *)
Inductive last_tag := LStart | LEnd | LDoc.
(** The members, Writer.hpp:155-166; depth_ is unbounded here. *)
Record wstate := WS {
  w_mappings : list attr; w_in_start : bool; w_in_cdata : bool; w_in_dtd : bool;
  w_internal : bool; w_depth : Z; w_last : last_tag }.
(** The constructors, Writer.hpp:60-98. *)
Definition w_init : wstate := WS [] false false false true 0 LStart.

Definition w_close (st : wstate) : wstate :=
  WS (w_mappings st) false (w_in_cdata st) (w_in_dtd st) (w_internal st) (w_depth st) (w_last st).
(** startElementClose, Writer.hpp:293-300. *)
Definition close_text (st : wstate) : str := if w_in_start st then [62] else [].

(** Keywords. *)
Definition k_xmldecl : str := (* <?xml version="1.0" *)
  [60;63;120;109;108;32;118;101;114;115;105;111;110;61;34;49;46;48;34].
Definition k_encoding : str := (* encoding= *) [101;110;99;111;100;105;110;103;61].
Definition k_doctype : str := (* <!DOCTYPE *) [60;33;68;79;67;84;89;80;69].
Definition k_public : str := [80;85;66;76;73;67].
Definition k_system : str := [83;89;83;84;69;77].
Definition k_cdata : str := (* <![CDATA[ *) [60;33;91;67;68;65;84;65;91].
Definition k_notation : str := (* <!NOTATION *) [60;33;78;79;84;65;84;73;79;78].
Definition k_entity : str := (* <!ENTITY *) [60;33;69;78;84;73;84;89].
Definition k_element : str := (* <!ELEMENT *) [60;33;69;76;69;77;69;78;84].
Definition k_attlist : str := (* <!ATTLIST *) [60;33;65;84;84;76;73;83;84].
Definition k_ndata : str := (* " NDATA " *) [32;78;68;65;84;65;32].
Definition k_dtd : str := (* [dtd] *) [91;100;116;100;93].

(** doIndent, Writer.hpp:393-397. *)
Definition do_indent (st : wstate) : str := repeat 32 (Z.to_nat (w_depth st)).
(** isDtd, Writer.hpp:400-408. *)
Definition is_dtd (name : str) : bool := str_eqb name k_dtd.
(** (!qName.empty() ? qName : localName), Writer.hpp:264, 283, 331. *)
Definition shown (local qname : str) : str := match qname with [] => local | _ => qname end.
(** writeAttributes, Writer.hpp:278-290. *)
Definition write_attr (a : attr) : str :=
  [32] ++ shown (a_local a) (a_qname a) ++ [61; 34] ++ attribute_escape (a_value a) ++ [34].
Definition write_attrs (l : list attr) : str := flat_map write_attr l.
(** publicAndSystem, Writer.hpp:700-731 (after its startElementClose, which every
    caller has already done). *)
Definition public_and_system (pub sys : str) : str :=
  [32] ++ (match pub with [] => [] | _ => k_public ++ [32; 34] ++ pub ++ [34] end)
  ++ (match sys with
      | [] => []
      | _ => (match pub with [] => k_system | _ => [] end) ++ [32; 34] ++ sys ++ [34]
      end).
(** startEntityDecl, Writer.hpp:684-697. *)
Definition start_entity_decl (name : str) : str := k_entity ++ [32] ++ name.

Definition xmlns_mapping (p u : str) : attr :=
  match p with
  | [] => Attr [] s_xmlns s_xmlns [] u
  | _ => Attr xml_uri p (s_xmlns ++ [58] ++ p) [] u
  end.

(** One event: the text written and the next state.  Each case cites its handler.
    The attribute type and the namespace of the recorded prefix mappings are never
    written, so they are left arbitrary. *)
Definition w_event (indent : nat) (encoding : str) (e : sax) (st : wstate) : str * wstate :=
  let st' := w_close st in
  let c := close_text st in
  let subset_decl (t : str) : str * wstate :=
    (if w_in_dtd st && w_internal st then c ++ do_indent st ++ t ++ [62; 10] else c, st') in
  match e with
  | StartDocument => (* 170-219 *)
      (c ++ k_xmldecl
         ++ (match encoding with [] => [] | _ => [32] ++ k_encoding ++ [34] ++ encoding ++ [34] end)
         ++ [63; 62; 10],
       WS (w_mappings st) false false (w_in_dtd st) (w_internal st) 0 LDoc)
  | EndDocument => (* 222-227 *)
      (c, WS (w_mappings st) false (w_in_cdata st) (w_in_dtd st) (w_internal st) (w_depth st) LEnd)
  | StartPrefix p u => (* 230-248 *)
      ([], WS (w_mappings st ++ [xmlns_mapping p u]) (w_in_start st) (w_in_cdata st) (w_in_dtd st)
              (w_internal st) (w_depth st) (w_last st))
  | EndPrefix _ => ([], st) (* 251-255 *)
  | StartElement _ local qname atts => (* 303-309, 257-275 *)
      (c ++ (match w_last st with LStart => if (0 <? indent)%nat then [10] else [] | _ => [] end)
         ++ do_indent st ++ [60] ++ shown local qname
         ++ write_attrs (w_mappings st) ++ write_attrs atts,
       WS [] true (w_in_cdata st) (w_in_dtd st) (w_internal st)
          (w_depth st + Z.of_nat indent) LStart)
  | EndElement _ local qname => (* 312-339 *)
      let d := w_depth st - Z.of_nat indent in
      let st2 := WS (w_mappings st) false (w_in_cdata st) (w_in_dtd st) (w_internal st) d LEnd in
      let nl := match indent with O => [] | _ => [10] end in
      ((if w_in_start st then [47; 62] ++ nl
        else (match w_last st with LEnd => do_indent st2 | _ => [] end)
             ++ [60; 47] ++ shown local qname ++ [62] ++ nl), st2)
  | Characters s => (* 342-351 *)
      (c ++ (if w_in_cdata st then s else text_escape s), st')
  | IgnorableWhitespace s => (c ++ s, st') (* 354-360 *)
  | PI t d => (* 363-380 *)
      (c ++ (if negb (w_in_dtd st) || w_internal st then
               [60; 63] ++ t ++ (match d with [] => [] | _ => [32] ++ d end) ++ [63; 62]
             else []), st')
  | SkippedEntity n => (c ++ (if is_dtd n then [] else [38] ++ n ++ [59]), st') (* 383-390 *)
  | StartDTD n pub sys => (* 411-436 *)
      (c ++ k_doctype ++ [32] ++ n ++ public_and_system pub sys ++ [32; 91; 10],
       WS (w_mappings st) false (w_in_cdata st) true (w_internal st)
          (w_depth st + Z.of_nat indent) (w_last st))
  | EndDTD => (* 439-450 *)
      (c ++ [93; 62; 10],
       WS (w_mappings st) false (w_in_cdata st) false (w_internal st)
          (w_depth st - Z.of_nat indent) (w_last st))
  | StartEntity n => (* 453-460 *)
      (c, WS (w_mappings st) false (w_in_cdata st) (w_in_dtd st)
             (if is_dtd n then false else w_internal st) (w_depth st) (w_last st))
  | EndEntity n => (* 463-470 *)
      (c, WS (w_mappings st) false (w_in_cdata st) (w_in_dtd st)
             (if is_dtd n then true else w_internal st) (w_depth st) (w_last st))
  | StartCDATA => (* 473-489 *)
      (c ++ k_cdata, WS (w_mappings st) false true (w_in_dtd st) (w_internal st) (w_depth st) (w_last st))
  | EndCDATA => (* 492-502 *)
      (c ++ [93; 93; 62],
       WS (w_mappings st) false false (w_in_dtd st) (w_internal st) (w_depth st) (w_last st))
  | Comment s => (* 505-519 *)
      (c ++ (if negb (w_in_dtd st) || w_internal st then [60; 33; 45; 45] ++ s ++ [45; 45; 62] else []),
       st')
  | NotationDecl n pub sys => (* 522-548 *)
      subset_decl (k_notation ++ [32] ++ n ++ public_and_system pub sys)
  | UnparsedEntityDecl n pub sys notation => (* 551-575 *)
      subset_decl (start_entity_decl n ++ public_and_system pub sys ++ k_ndata ++ notation)
  | ElementDecl n model => (* 578-604 *)
      subset_decl (k_element ++ [32] ++ n ++ [32] ++ model)
  | AttributeDecl elem n type default value => (* 607-645 *)
      subset_decl (k_attlist ++ [32] ++ elem ++ [32] ++ n ++ [32] ++ type
                   ++ (match default with [] => [] | _ => [32] ++ default end)
                   ++ (match value with [] => [] | _ => [32; 34] ++ value ++ [34] end))
  | InternalEntityDecl n value => (* 648-664 *)
      subset_decl (start_entity_decl n ++ [32; 34] ++ value ++ [34])
  | ExternalEntityDecl n pub sys => (* 667-681 *)
      subset_decl (start_entity_decl n ++ public_and_system pub sys)
  end.

Fixpoint w_run (indent : nat) (encoding : str) (evs : list sax) (st : wstate) : str :=
  match evs with
  | [] => []
  | e :: r => let (t, st') := w_event indent encoding e st in t ++ w_run indent encoding r st'
  end.
(** Everything a fresh writer prints for a sequence of events. *)
Definition writer (indent : nat) (encoding : str) (evs : list sax) : str :=
  w_run indent encoding evs w_init.
