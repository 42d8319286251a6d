(** StreamSink: the result of a transformation as text (include/XSLT/impl/xslt_sink.hpp:81-348).
    The settings are a map from names to values. *)
From Coq Require Import String.
From Verif.Model Require Import Base Containers Attrs Text Uri XSort XOutput.
From Coq Require Import List.
Import ListNotations.
Open Scope Z_scope.

Notation settings := (list (str * str)) (only parsing).

(** The members, 337-344.  [k_runaway] is set where the loop that writes the indentation, 268-269,
    would not end. *)
Record sink := Sink { k_disable : bool; k_cdata : bool; k_empty : bool; k_root : bool; k_indent : Z; k_again : bool; k_settings : settings; k_runaway : bool }.
Definition with_disable b k := Sink b (k_cdata k) (k_empty k) (k_root k) (k_indent k) (k_again k) (k_settings k) (k_runaway k).
Definition with_cdata b k := Sink (k_disable k) b (k_empty k) (k_root k) (k_indent k) (k_again k) (k_settings k) (k_runaway k).
Definition with_empty b k := Sink (k_disable k) (k_cdata k) b (k_root k) (k_indent k) (k_again k) (k_settings k) (k_runaway k).
Definition with_root b k := Sink (k_disable k) (k_cdata k) (k_empty k) b (k_indent k) (k_again k) (k_settings k) (k_runaway k).
Definition with_indent i b k := Sink (k_disable k) (k_cdata k) (k_empty k) (k_root k) i b (k_settings k) (k_runaway k).
Definition with_runaway b k := Sink (k_disable k) (k_cdata k) (k_empty k) (k_root k) (k_indent k) (k_again k) (k_settings k) b.

(** setting, 329-335. *)
Definition setting (name : str) (s : settings) : str := match mm_find name s with Some v => v | None => [] end.
Definition is_setting (name value : string) (s : settings) : bool := str_eqb (setting (ascii_str name) s) (ascii_str value).

(** The constructor, 87-97, and do_start_document, 125-131.  The text method sets
    [k_disable] through an event, see [new_output]. *)
Definition new_sink (s : settings) : sink := Sink false false false false (if is_setting "indent" "yes" s then 0 else -1) false s false.

Definition quoted (s : str) : str := [34] ++ s ++ [34].
(** do_decl, 294-327. *)
Definition decl (qname : str) (k : sink) : str * sink :=
  let s := k_settings k in
  if is_setting "method" "text" s || is_setting "omit-xml-declaration" "yes" s then ([], k)
  else let version := match setting (ascii_str "version") s with [] => ascii_str "1.0" | v => v end in
       let standalone := setting (ascii_str "standalone") s in
       let public := setting (ascii_str "doctype-public") s in
       let system := setting (ascii_str "doctype-system") s in
       (ascii_str "<?xml version=" ++ quoted version
        ++ (match standalone with [] => [] | _ => ascii_str " standalone=" ++ quoted standalone end)
        ++ ascii_str "?>" ++ [10]
        ++ (match qname, system with
            | [], _ | _, [] => []
            | _, _ => ascii_str "<!DOCTYPE " ++ qname ++ [10]
                      ++ (match public with
                          | [] => ascii_str "  SYSTEM " ++ quoted system
                          | _ => ascii_str "  PUBLIC " ++ quoted public ++ [32] ++ quoted system
                          end)
                      ++ ascii_str ">" ++ [10]
            end),
        with_root true k).
Definition decl_if_first (qname : str) (k : sink) : str * sink := if k_root k then ([], k) else decl qname k.
(** close_element_if_empty, 248-258. *)
Definition close_if_empty (k : sink) : str * sink :=
  let t := if k_empty k then ascii_str ">" else [] in
  let (d, k) := decl_if_first [] (if k_empty k then with_empty false k else k) in
  (t ++ d, k).
(** indent, 260-274. *)
Definition write_indent (k : sink) : str * sink :=
  if k_indent k =? -1 then ([], k)
  else ((if k_indent k =? 0 then [] else [10]) ++ repeat 32 (Z.to_nat (k_indent k)),
        with_indent (k_indent k + 2) false (if k_indent k <? 0 then with_runaway true k else k)).
(** preoutdent and outdent, 276-292. *)
Definition preoutdent (empty : bool) (k : sink) : str := if k_again k && negb empty then [10] else [].
Definition outdent (empty : bool) (k : sink) : str * sink :=
  if k_indent k =? -1 then ([], k)
  else (if k_again k && empty then [10] else [], with_indent (k_indent k - 2) true k).

Definition attribute_text (a : attr) : str := [32] ++ a_qname a ++ [61; 34] ++ attribute_escape (a_value a) ++ [34].
(** The loop of do_characters, 191-202; the third argument of [substr] is a count, and a count
    that is too large is cut.  do_start_CDATA and do_end_CDATA write only their delimiters here,
    as the start tag and the declaration have been written. *)
Definition cdata_end : str := ascii_str "]]>".
Definition cdata_start : str := ascii_str "<![CDATA[".
Fixpoint cdata_loop (fuel : nat) (ch : str) (start found : nat) : option str :=
  match fuel with
  | O => None
  | S fuel =>
      let brk := (found + 2)%nat in
      let t := firstn brk (skipn start ch) ++ cdata_end ++ cdata_start in
      match find_sub cdata_end ch brk with
      | None => Some (t ++ skipn brk ch)
      | Some found => match cdata_loop fuel ch brk found with Some r => Some (t ++ r) | None => None end
      end
  end.
(** do_characters, 177-206. *)
Definition characters_text (ch : str) (k : sink) : option str :=
  if negb (k_disable k) && negb (k_cdata k) then Some (text_escape ch)
  else if k_cdata k then match find_sub cdata_end ch O with None => Some ch | Some found => cdata_loop (S (length ch)) ch O found end
  else Some ch.

(** What each call writes: do_start_element, 137-157; do_end_element, 159-175; do_characters;
    do_start_CDATA and do_end_CDATA, 208-220; do_comment, 222-229;
    do_processing_instruction, 231-241; do_disableOutputEscaping, 243.  [None]: a loop has no
    end. *)
Definition sink_event (e : event) (k : sink) : option (str * sink) :=
  match e with
  | Start q _ atts =>
      let (d, k) := decl_if_first q k in
      let g := if k_empty k then ascii_str ">" else [] in
      let (i, k) := write_indent k in
      Some (d ++ g ++ i ++ [60] ++ q ++ flat_map attribute_text atts, with_empty true k)
  | End_ q _ =>
      let (d, k) := decl_if_first [] k in
      let p := preoutdent (k_empty k) k in
      let t := if k_empty k then ascii_str "/>" else ascii_str "</" ++ q ++ ascii_str ">" in
      let (i, k) := outdent (k_empty k) k in
      Some (d ++ p ++ t ++ i, with_empty false k)
  | Chars s =>
      let (c, k) := close_if_empty k in
      match characters_text s k with Some t => Some (c ++ t, k) | None => None end
  | StartCdata => let (c, k) := close_if_empty k in Some (c ++ cdata_start, with_cdata true k)
  | EndCdata => Some (cdata_end, with_cdata false k)
  | Comment s => let (c, k) := close_if_empty k in Some (c ++ ascii_str "<!--" ++ s ++ ascii_str "-->", k)
  | Pi t d => let (c, k) := close_if_empty k in Some (c ++ ascii_str "<?" ++ t ++ [32] ++ d ++ ascii_str "?>", k)
  | Escaping b => Some ([], with_disable b k)
  end.
Fixpoint sink_run (evs : list event) (k : sink) : option (str * sink) :=
  match evs with
  | [] => Some ([], k)
  | e :: evs => match sink_event e k with
                | None => None
                | Some (t, k) => match sink_run evs k with Some (t', k) => Some (t ++ t', k) | None => None end
                end
  end.
(** The text, unless a loop does not end. *)
Definition sink_text (s : settings) (evs : list event) : option str :=
  match sink_run evs (new_sink s) with Some (t, k) => if k_runaway k then None else Some t | None => None end.
