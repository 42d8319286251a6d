(** C20 text coalescing, C21 white space stripping, C22 the SAX writer, C23 PYX. *)
From Coq Require Import String.
From Verif.Model Require Import Base Attrs Text Sax Writer.
From Verif.Spec Require Import TextSpec XmlChars XmlRead SaxSpec WriterSpec.
From Verif.Proof Require Import SaxProof XmlReadProof WriterProof WriterSkip.
From Verif.Proof Require ContainersProof.
From Coq Require Import List.
Import ListNotations.
Open Scope Z_scope.

(** ASCII text, for the examples only. *)
Fixpoint lit (s : string) : list Z :=
  match s with
  | EmptyString => []
  | String a r => Z.of_N (Ascii.N_of_ascii a) :: lit r
  end.
Definition elem (n : string) : sax := StartElement [] (lit n) (lit n) [].
Definition ende (n : string) : sax := EndElement [] (lit n) (lit n).
Definition chars (n : string) : sax := Characters (lit n).

(** * C20 *)

(** No two adjacent text events come out. *)
Theorem C20_no_adjacent_text evs out buf :
  coalescer evs [] = (out, buf) -> no_adjacent_text out.
Proof. exact (coalesce_noadj evs [] out buf). Qed.
Print Assumptions C20_no_adjacent_text.
(** The text delivered is the text received, except what is still buffered. *)
Theorem C20_text_kept_partial evs out buf :
  coalescer evs [] = (out, buf) -> all_text evs = all_text out ++ buf.
Proof. exact (coalesce_text evs [] out buf). Qed.
Print Assumptions C20_text_kept_partial.
(** All other events come out, in order. *)
Theorem C20_other_events_kept evs out buf :
  coalescer evs [] = (out, buf) -> others out = others evs.
Proof. exact (coalesce_others evs [] out buf). Qed.
Print Assumptions C20_other_events_kept.
(** The output is the input with every run of text merged, if each run is followed by
    a tag, a comment, a processing instruction, or a CDATA or entity boundary. *)
Theorem C20_merged_partial evs : text_closed false evs -> coalescer evs [] = (merged [] evs, []).
Proof. exact (coalesce_merged evs []). Qed.
Print Assumptions C20_merged_partial.
(** Text does not keep its place relative to a skipped entity: it moves past it. *)
Theorem C20_place_refuted : exists evs out,
  coalescer evs [] = (out, []) /\ out <> merged [] evs.
Proof.
  exists [elem "a"; chars "x"; SkippedEntity (lit "e"); chars "y"; ende "a"].
  eexists. split; [vm_compute; reflexivity|vm_compute; discriminate].
Qed.
Print Assumptions C20_place_refuted.
(** Text still buffered when the document ends is lost. *)
Theorem C20_loss_refuted : exists evs out buf,
  coalescer evs [] = (out, buf) /\ all_text out <> all_text evs.
Proof.
  exists [elem "a"; ende "a"; chars "x"; EndDocument].
  eexists. eexists. split; [vm_compute; reflexivity|vm_compute; discriminate].
Qed.
Print Assumptions C20_loss_refuted.
Example C20_example :
  let evs := [StartDocument; elem "a"; chars "x"; IgnorableWhitespace (lit " "); chars "y";
              Comment (lit "c"); chars ""; chars "z"; ende "a"; EndDocument] in
  text_closed false evs
  /\ coalescer evs [] = ([StartDocument; elem "a"; chars "x y"; Comment (lit "c"); chars "z";
                          ende "a"; EndDocument], []).
Proof. vm_compute. repeat split; auto; discriminate. Qed.

(** * C21 *)

(** Every event is forwarded, character data with its white space normalised;
    ignorable white space is dropped. *)
Theorem C21_stripped evs : stripper evs = Val (flat_map stripped evs).
Proof. exact (stripper_spec evs). Qed.
Print Assumptions C21_stripped.
(** Non-white characters are never altered. *)
Theorem C21_visible_kept s : visible (spaced (words s)) = visible s.
Proof. exact (stripped_visible s). Qed.
Print Assumptions C21_visible_kept.
(** The result depends on how a parser divides the text. *)
Theorem C21_chunking_refuted : exists a b : list Z,
  all_text (flat_map stripped [Characters a; Characters b])
  <> all_text (flat_map stripped [Characters (a ++ b)]).
Proof. exists (lit "a "), (lit "b"). vm_compute. discriminate. Qed.
Print Assumptions C21_chunking_refuted.
Example C21_example :
  stripper [elem "p"; IgnorableWhitespace (lit "  "); chars "  one   two "; ende "p"]
  = Val [elem "p"; chars "one two"; ende "p"].
Proof. vm_compute. reflexivity. Qed.

(** * C22 *)

(** Without indentation, the writer's output reads back as exactly the markup the
    events stand for. *)
Theorem C22_exact_partial enc evs : enc = [] \/ is_name enc -> writable_document evs ->
  read_xml (writer 0 enc evs) = Some (declaration enc evs, join (document_tokens evs)).
Proof. exact (writer_exact enc evs). Qed.
Print Assumptions C22_exact_partial.
(** With any indentation, it reads back as the same markup up to white space in text. *)
Theorem C22_indented_partial indent enc evs : enc = [] \/ is_name enc -> writable_document evs ->
  exists l, read_xml (writer indent enc evs) = Some (declaration enc evs, l)
            /\ without_white l = without_white (document_tokens evs).
Proof. exact (writer_indented indent enc evs). Qed.
Print Assumptions C22_indented_partial.
(** The names [writable_document] asks for include all qualified names. *)
Theorem C22_names s : QName s -> is_name s.
Proof. exact (name_is_name s). Qed.
Print Assumptions C22_names.
(** Declarations, comments and instructions of the external subset are not written. *)
Theorem C22_external_subset indent enc evs st r : forallb subset_event evs = true ->
  w_in_dtd st = true -> w_internal st = false -> w_in_start st = false ->
  w_run indent enc (evs ++ r) st = w_run indent enc r st.
Proof. intros H. exact (external_subset_silent indent enc evs H st r). Qed.
Print Assumptions C22_external_subset.
(** A skipped entity is written as a reference, at the place where text would be written and
    between the same other texts. *)
Theorem C22_skipped : forall indent enc n a b, n <> lit "[dtd]" -> exists t u,
  writer indent enc (a ++ [Characters []]) = t /\ writer indent enc (a ++ Characters [] :: b) = t ++ u /\
  writer indent enc (a ++ SkippedEntity n :: b) = t ++ lit "&" ++ n ++ lit ";" ++ u.
Proof.
  intros indent enc n a b N. apply skipped_written. unfold is_dtd. apply Verif.Proof.ContainersProof.str_eqb_false. exact N.
Qed.
Print Assumptions C22_skipped.
Example C22_skipped_example : lit "copy" <> lit "[dtd]" /\
  writer 0 [] ([elem "a"] ++ SkippedEntity (lit "copy") :: [ende "a"]) = lit "<a>&copy;</a>".
Proof. split; [discriminate|vm_compute; reflexivity]. Qed.
(** The name of a parameter entity has a percent sign; the reference is not one in XML. *)
Theorem C22_skipped_parameter_refuted : exists name,
  writer 0 [] [elem "a"; SkippedEntity (lit "%" ++ name); ende "a"] = lit "<a>&%p;</a>".
Proof. exists (lit "p"). vm_compute. reflexivity. Qed.
Print Assumptions C22_skipped_parameter_refuted.

(** What the conditions leave out.  Each sequence is well nested, but its output does
    not read back, or reads back as something else. *)
Definition doc (evs : list sax) : list sax := [elem "a"] ++ evs ++ [ende "a"].
Definition reads_back (evs : list sax) : Prop :=
  read_xml (writer 0 [] evs) = Some ([], join (document_tokens evs)).
Theorem C22_cdata_refuted : exists s, ~ reads_back (doc [StartCDATA; Characters s; EndCDATA]).
Proof. exists (lit "x]]>y"). vm_compute. discriminate. Qed.
Print Assumptions C22_cdata_refuted.
Theorem C22_comment_refuted : exists s, ~ reads_back (doc [Comment s]).
Proof. exists (lit "a--b"). vm_compute. discriminate. Qed.
Print Assumptions C22_comment_refuted.
Theorem C22_carriage_return_refuted : exists s, ~ reads_back (doc [Characters s]).
Proof. exists [97; 13; 98]. vm_compute. discriminate. Qed.
Print Assumptions C22_carriage_return_refuted.
(** The end tag of an empty element is not checked: <a/> is written whatever it is. *)
Theorem C22_mismatch_unnoticed uri l q uri' l' q' :
  writer 0 [] [StartElement uri l q []; EndElement uri' l' q'] =
  [60] ++ event_name l q ++ [47; 62].
Proof.
  unfold writer. cbn. unfold event_name, shown. rewrite ?app_nil_r, <- ?app_assoc.
  destruct q; cbn; rewrite ?app_nil_r; reflexivity.
Qed.
Print Assumptions C22_mismatch_unnoticed.
(** Indentation adds text to mixed content. *)
Theorem C22_indent_adds_text_refuted : exists evs l, writable_document evs
  /\ read_xml (writer 2 [] evs) = Some ([], l) /\ l <> join (document_tokens evs).
Proof.
  exists (doc [chars "x"; elem "b"; ende "b"; chars "y"]). eexists.
  split; [vm_compute; intuition (discriminate || (try constructor))|].
  split; [vm_compute; reflexivity|vm_compute; discriminate].
Qed.
Print Assumptions C22_indent_adds_text_refuted.

Definition C22_sample : list sax :=
  [StartDocument; Comment (lit "top"); StartPrefix (lit "p") (lit "urn:x");
   StartElement (lit "urn:x") (lit "a") (lit "p:a")
     [Attr [] (lit "k") (lit "k") [] (lit "1<2 & ""q"""); Attr [] (lit "m") [] [] [10; 9]];
   chars "x<y"; StartCDATA; chars "<raw>"; chars "&"; EndCDATA; PI (lit "t") (lit "d");
   elem "b"; ende "b"; EndElement (lit "urn:x") (lit "a") (lit "p:a"); EndPrefix (lit "p"); EndDocument].
Ltac no_contains := let a := fresh in let b := fresh in let E := fresh in intros (a & b & E);
  cbn in E; repeat (destruct a as [|? a]; cbn in E; [discriminate E|injection E as _ E]);
  destruct a; discriminate E.
Example C22_example : writable_document C22_sample.
Proof.
  unfold C22_sample, writable_document, writable, elem, ende, chars.
  repeat split; try (vm_compute; first [discriminate|reflexivity|intuition discriminate]);
    try (cbn; repeat constructor; vm_compute; intuition discriminate).
  all: no_contains.
Qed.
Example C22_example_text : writer 0 (lit "UTF-8") C22_sample = lit
"<?xml version=""1.0"" encoding=""UTF-8""?>
<!--top--><p:a xmlns:p=""urn:x"" k=""1&lt;2 &amp; &quot;q&quot;"" m=""&#xA;&#x9;"">x&lt;y<![CDATA[<raw>&]]><?t d?><b/></p:a>".
Proof. vm_compute. reflexivity. Qed.

(** * C23 *)

(** Names without spaces or line feeds, text without backslashes, instructions on one
    line: the output determines what PYX records of the events. *)
Theorem C23_reads_back_partial evs : Forall pyx_safe evs ->
  pyx_read (pyx evs) = Some (flat_map pyx_items evs).
Proof. exact (pyx_roundtrip evs). Qed.
Print Assumptions C23_reads_back_partial.
Theorem C23_injective_partial a b : Forall pyx_safe a -> Forall pyx_safe b ->
  pyx a = pyx b -> flat_map pyx_items a = flat_map pyx_items b.
Proof. exact (pyx_injective a b). Qed.
Print Assumptions C23_injective_partial.
(** A line feed and a backslash followed by n look the same. *)
Theorem C23_text_refuted : exists s t, s <> t /\ pyx [Characters s] = pyx [Characters t].
Proof. exists [10], [92; 110]. split; [discriminate|reflexivity]. Qed.
Print Assumptions C23_text_refuted.
(** An instruction can forge other events. *)
Theorem C23_instruction_refuted : exists (a : sax) (b : list sax),
  pyx [a] = pyx b /\ List.length b = 2%nat.
Proof.
  exists (PI (lit "t") (lit "d" ++ [10] ++ lit "-forged")), [PI (lit "t") (lit "d"); chars "forged"].
  split; vm_compute; reflexivity.
Qed.
Print Assumptions C23_instruction_refuted.
(** Namespaces are not recorded at all. *)
Theorem C23_namespaces_refuted uri1 uri2 local q1 q2 atts :
  pyx [StartElement uri1 local q1 atts] = pyx [StartElement uri2 local q2 atts].
Proof. exact eq_refl. Qed.
Print Assumptions C23_namespaces_refuted.
Example C23_example :
  let evs := [StartElement [] (lit "a") (lit "a") [Attr [] (lit "k") (lit "k") [] [120; 10; 121]];
              chars "text"; PI (lit "t") (lit "d e"); ende "a"] in
  Forall pyx_safe evs /\ pyx evs = lit "(a
Ak x\ny
-text
?t d e
)a
".
Proof. split; [repeat constructor; vm_compute; intuition discriminate|vm_compute; reflexivity]. Qed.
