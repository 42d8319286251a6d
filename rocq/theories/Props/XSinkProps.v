From Coq Require Import String.
From Verif.Model Require Import Base Containers Attrs XSort XOutput XSink.
From Verif.Spec Require Import XmlRead XOutputSpec XSinkSpec XResultSpec.
From Verif.Spec Require NsTree.
From Verif.Proof Require Import XOutputPlain XSinkRead XSinkTree.
From Verif.Props Require Import FilterProps XOutputProps.
From Coq Require Import List.
Import ListNotations.
Open Scope Z_scope.

(** * C59 *)
(** Without indentation, the text written for a result reads back as exactly that result: the
    declaration and the document type of the settings, and the nodes.  [settings_ok] and
    [writable] leave out carriage returns, disabled escaping, names that are not names, quotes
    in a document type, and in CDATA sections two end marks in one text or one across two. *)
Theorem C59_exact_partial : forall s evs, is_setting "indent" "yes" s = false -> is_setting "method" "text" s = false -> settings_ok s -> writable [] None evs ->
  exists text, sink_text s evs = Some text /\ read_document text = Some (expected_decl s evs, expected_doctype s evs, join (expected_toks s evs)).
Proof. exact sink_exact. Qed.
Print Assumptions C59_exact_partial.
(** With or without indentation, it does so up to white space in text, and the writing ends. *)
Theorem C59_indented_partial : forall s evs, is_setting "method" "text" s = false -> settings_ok s -> writable [] None evs ->
  exists text l, sink_text s evs = Some text /\ read_document text = Some (expected_decl s evs, expected_doctype s evs, l) /\ without_white l = without_white (expected_toks s evs).
Proof. exact sink_indented. Qed.
Print Assumptions C59_indented_partial.
(** With the text method, what is written for instructions is their text and nothing else. *)
Theorem C59_text : forall s l declares, is_setting "method" "text" s = true ->
  sink_text s (o_events (executes l (new_output true declares []))) = Some (concat (map string_value l)).
Proof.
  intros s l d M. destruct (text_lemma l d) as (ts & E & C). destruct (sink_plain s ts M) as (text & T & X). rewrite E, T, X, C. reflexivity.
Qed.
Print Assumptions C59_text.

(** From the instructions of a transformation to the reader of the text: with names and prefixes
    resolved as the Namespaces recommendation says, the reader finds the elements, attributes,
    texts, comments and processing instructions that were made, each in its place, and spaces at
    most in comments and processing instructions.  [consistent] is as in C48; [printable] leaves
    out carriage returns, disabled escaping and copied attributes; there are no CDATA section
    elements, or no square brackets in texts. *)
Theorem C59_result_partial : forall r brackets l cdata s, Forall (consistent r) l -> Forall (printable brackets) l -> (brackets = true -> cdata = []) -> flat_map result_tokens l <> [] ->
  is_setting "indent" "yes" s = false -> is_setting "method" "text" s = false -> settings_ok s ->
  exists text d t toks n, sink_text s (o_events (executes l (new_output false true cdata))) = Some text /\ read_document text = Some (d, t, toks) /\
    NsTree.resolve [[]] toks = Some n /\ Forall2 found_as (NsTree.njoin ((if omits s then [] else [NsTree.NText [10]]) ++ flat_map result_tokens l)) n.
Proof. exact result_lemma. Qed.
Print Assumptions C59_result_partial.

Definition set_ (n v : string) : str * str := (lit n, lit v).
Definition s_ (q : string) (atts : list (string * string)) : event := Start (lit q) [] (map (fun a => Attr [] [] (lit (fst a)) [] (lit (snd a))) atts).
Definition e_ (q : string) : event := End_ (lit q) [].
Definition c_ (t : string) : event := Chars (lit t).
Definition page : list (str * str) := [set_ "version" "1.0"; set_ "standalone" "yes"; set_ "doctype-public" "-//X//Y"; set_ "doctype-system" "a.dtd"].
Definition page_events : list event :=
  [s_ "a" [("x", "<""&"); ("p:y", "")]; s_ "b" []; e_ "b"; c_ "t<>&"; StartCdata; c_ "x]]>y<"; EndCdata; Comment (lit " c "); Pi (lit "t") (lit "d"); e_ "a"]%string.
Ltac no_cut := let a := fresh in let b := fresh in let E := fresh in intros (a & b & E); repeat (destruct a as [|? a]; [discriminate E|injection E as _ E]); destruct a; discriminate E.
Ltac writes :=
  repeat match goal with
  | |- _ /\ _ => split
  | |- is_name _ => split; [discriminate|vm_compute; reflexivity]
  | |- NoDup _ => vm_compute; repeat (apply NoDup_cons; [cbn; intuition discriminate|]); apply NoDup_nil
  | |- Forall is_name [] => apply Forall_nil
  | |- Forall is_name (_ :: _) => apply Forall_cons
  | |- ~ In _ _ => vm_compute; intuition discriminate
  | |- ~ contains _ _ => no_cut
  | |- XmlRead.comment_ok _ => split
  | |- True => exact Logic.I
  | |- _ = _ => vm_compute; reflexivity
  end.
Lemma page_writable : writable [] None page_events.
Proof.
  unfold page_events, s_, e_, c_. cbn [map fst snd writable a_qname]. writes. right. exists (lit "x"), (lit "y<"). writes.
Qed.
Example C59_page : settings_ok page /\ writable [] None page_events /\ is_setting "indent" "yes" page = false /\ is_setting "method" "text" page = false /\
  sink_text page page_events = Some (lit "<?xml version=""1.0"" standalone=""yes""?>" ++ [10] ++ lit "<!DOCTYPE a" ++ [10] ++ lit "  PUBLIC ""-//X//Y"" ""a.dtd"">" ++ [10]
    ++ lit "<a x=""&lt;&quot;&amp;"" p:y=""""><b/>t&lt;&gt;&amp;<![CDATA[x]]]]><![CDATA[>y<]]><!-- c --><?t d?></a>") /\
  join (expected_toks page page_events) = [TText [10]; TStart (lit "a") [(lit "x", lit "<""&"); (lit "p:y", [])]; TStart (lit "b") []; TEnd (lit "b"); TText (lit "t<>&x]]>y<"); TComment (lit " c "); TPI (lit "t") (lit "d"); TEnd (lit "a")] /\
  expected_doctype page page_events = Some (lit "a", Some (lit "-//X//Y"), lit "a.dtd").
Proof.
  split; [|split; [exact page_writable|repeat split; vm_compute; reflexivity]]. unfold settings_ok.
  split; [right; split; [discriminate|vm_compute; reflexivity]|]. split; [right; split; [discriminate|vm_compute; reflexivity]|]. repeat split; vm_compute; intuition discriminate.
Qed.
Definition lines : list (str * str) := [set_ "indent" "yes"; set_ "omit-xml-declaration" "yes"].
Example C59_lines : settings_ok lines /\ sink_text lines [s_ "a" []; s_ "b" []; e_ "b"; s_ "c" []; c_ "t"; e_ "c"; e_ "a"]
  = Some (lit "<a>" ++ [10] ++ lit "  <b/>" ++ [10] ++ lit "  <c>t</c>" ++ [10] ++ lit "</a>").
Proof. split; [|vm_compute; reflexivity]. split; [left; reflexivity|]. split; [left; reflexivity|]. repeat split; vm_compute; intuition discriminate. Qed.
Example C59_text_example : is_setting "method" "text" [set_ "method" "text"] = true /\
  sink_text [set_ "method" "text"] (o_events (executes [el_ "" "a" "" [IText false (lit "x<")]; IComment [IText false (lit "c")]; IText false (lit "&")] (new_output true true []))) = Some (lit "x<&").
Proof. split; vm_compute; reflexivity. Qed.

Example C59_book : Forall (consistent meaning) book /\ Forall (printable true) book /\ flat_map result_tokens book =
  [NsTree.NStart (lit "urn:p") (lit "book") [([], lit "id", lit "2"); (lit "urn:q", lit "lang", lit "en"); (lit "urn:k", lit "kind", lit "x")]; NsTree.NStart [] (lit "title") []; NsTree.NText (lit "a"); NsTree.NEnd [] (lit "title");
   NsTree.NComment (lit "--"); NsTree.NStart (lit "urn:q") (lit "end") []; NsTree.NStart (lit "urn:p") (lit "in") []; NsTree.NEnd (lit "urn:p") (lit "in"); NsTree.NEnd (lit "urn:q") (lit "end"); NsTree.NEnd (lit "urn:p") (lit "book")] /\
  sink_text [] (o_events (executes book (new_output false true []))) = Some (lit "<?xml version=""1.0""?>" ++ [10] ++
    lit "<p:book id=""2"" q:lang=""en"" auto-ns1:kind=""x"" xmlns:auto-ns1=""urn:k"" xmlns:q=""urn:q"" xmlns:p=""urn:p""><title>a</title><!--- - --><q:end xmlns:q=""urn:q""><p:in/></q:end></p:book>").
Proof.
  split; [exact C48_book_consistent|]. split; [|split; vm_compute; reflexivity].
  apply Forall_cons; [|apply Forall_nil]. unfold el_, at_. cbn [printable fold_right].
  repeat match goal with
  | |- _ /\ _ => split
  | |- ncname _ => split
  | |- is_name _ => split; [discriminate|vm_compute; reflexivity]
  | |- ~ In _ _ => vm_compute; intuition discriminate
  | |- True => exact Logic.I
  | |- false = false => reflexivity
  | |- _ <> _ => vm_compute; discriminate
  | |- true = false -> _ => discriminate
  | |- lit "" = [] \/ _ => left; reflexivity
  | |- _ \/ ncname _ => right
  end.
Qed.

(** The document type is lost if something comes before the root element, and if the declaration
    is not wanted. *)
Definition typed : list (str * str) := [set_ "doctype-system" "a.dtd"].
Theorem C59_doctype_comment_refuted : sink_text typed [Comment (lit "c"); s_ "a" []; e_ "a"] = Some (lit "<?xml version=""1.0""?>" ++ [10] ++ lit "<!--c--><a/>").
Proof. vm_compute. reflexivity. Qed.
Print Assumptions C59_doctype_comment_refuted.
Theorem C59_doctype_omitted_refuted : sink_text (set_ "omit-xml-declaration" "yes" :: typed) [s_ "a" []; e_ "a"] = Some (lit "<a/>").
Proof. vm_compute. reflexivity. Qed.
Print Assumptions C59_doctype_omitted_refuted.
(** With two end marks in one text of a CDATA section, a part of it is written twice. *)
Definition bare : list (str * str) := [set_ "omit-xml-declaration" "yes"].
Definition marked (ts : list string) : list event := [s_ "a" []; StartCdata] ++ map c_ ts ++ [EndCdata; e_ "a"].
Theorem C59_cdata_twice_refuted :
  sink_text bare (marked ["a]]>b]]>c"]%string) = Some (lit "<a><![CDATA[a]]]]><![CDATA[>b]]>c]]><![CDATA[>c]]></a>") /\
  match sink_text bare (marked ["a]]>b]]>c"]%string) with Some t => read_document t | None => None end = None.
Proof. split; vm_compute; reflexivity. Qed.
Print Assumptions C59_cdata_twice_refuted.
(** An end mark across two texts ends the section. *)
Theorem C59_cdata_across_refuted : sink_text bare (marked ["a]]"; ">b"]%string) = Some (lit "<a><![CDATA[a]]>b]]></a>").
Proof. vm_compute. reflexivity. Qed.
Print Assumptions C59_cdata_across_refuted.
(** A carriage return comes back as a line feed. *)
Theorem C59_carriage_return_refuted :
  match sink_text bare [s_ "a" []; Chars [13]; e_ "a"] with Some t => read_document t | None => None end = Some ([], None, [TStart (lit "a") []; TText [10]; TEnd (lit "a")]).
Proof. vm_compute. reflexivity. Qed.
Print Assumptions C59_carriage_return_refuted.
(** A quote in a system identifier ends it. *)
Theorem C59_system_quote_refuted :
  match sink_text [set_ "doctype-system" "a""b"] [s_ "a" []; e_ "a"] with Some t => read_document t | None => None end = None.
Proof. vm_compute. reflexivity. Qed.
Print Assumptions C59_system_quote_refuted.
(** Indentation puts text into elements that have text. *)
Theorem C59_indent_mixed_refuted : sink_text lines [s_ "a" []; c_ "t"; s_ "b" []; e_ "b"; e_ "a"] = Some (lit "<a>t" ++ [10] ++ lit "  <b/>" ++ [10] ++ lit "</a>").
Proof. vm_compute. reflexivity. Qed.
Print Assumptions C59_indent_mixed_refuted.
