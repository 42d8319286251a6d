(** C68: the Garden parser tells the events of a document. *)
From Coq Require Import String List ZArith Bool Lia.
From Coq Require Import List.
Import ListNotations.
Open Scope Z_scope.
From Verif.Model Require Import Base Attrs Sax XSort.
From Verif.Spec Require Import XmlChars GardenSpec.
From Verif.Model Require Garden.
From Verif.Proof Require Import GardenProof GardenEnds.
Import Garden (parse, Said, Erred).

(** Characters of XML.  Where char is signed the parser takes only white space without blanks for
    characters in comments, CDATA sections, instructions and document types. *)
Definition xml_char (c : Z) : Prop := byte c /\ among c XmlChars.Char.
Definition readable (signed : bool) (c : Z) : Prop :=
  xml_char c /\ (signed = true -> c = 9 \/ c = 10 \/ c = 13).
Lemma readable_char signed c : readable signed c -> Garden.is_char signed c = true.
Proof.
  intros [[B A] S]. unfold Garden.is_char, Garden.between. destruct signed.
  - destruct (S eq_refl) as [->|[->| ->]]; reflexivity.
  - destruct A as (lo & hi & I & L). unfold XmlChars.Char in I. cbn in I. unfold byte in B.
    repeat (destruct I as [[= <- <-]|I]; [zdec|]). destruct I.
Qed.

(** The events of every document without references in attribute values and without character
    references, whatever handler for errors there is. *)
Theorem C68_reads_partial (signed errors : bool) (d : doc) :
  good_doc (readable signed) d ->
  parse signed true errors (write_doc d) = Val (true, map Said (doc_told d)).
Proof. exact (parse_reads signed errors (readable signed) d (readable_char signed)). Qed.
Print Assumptions C68_reads_partial.

(** The parser comes to an end with every text. *)
Theorem C68_ends (signed content errors : bool) (s : str) : parse signed content errors s <> NoFuel.
Proof. exact (parse_ends signed content errors s). Qed.
Print Assumptions C68_ends.

(** A text of less than fifty characters that the parser does not read to its end makes it read
    beyond the end. *)
Theorem C68_short (signed content errors : bool) (s : str) :
  (length s < 50)%nat ->
  parse signed content errors s = UB \/ exists l, parse signed content errors s = Val (true, l).
Proof. exact (parse_short' signed content errors s). Qed.
Print Assumptions C68_short.
Example C68_short_case : parse false true true (ascii_str "<a>") = UB.
Proof. vm_compute. reflexivity. Qed.

(** * A document *)
Ltac is_name := split; [cbn; split; [left; exists 97, 122; split; [unfold Letter, BaseChar; cbn; tauto|lia]
                                    |repeat constructor; exists 97, 122; (split; [unfold NameChar, Letter, BaseChar; cbn; tauto|lia])]
                       |repeat constructor; unfold byte; lia].
Ltac is_space_ := repeat constructor; match goal with |- among ?c _ => exists c, c end;
                  (split; [unfold White; cbn; tauto|lia]).
Ltac is_chars := repeat (apply Forall_cons; [split; [split; [unfold byte; lia|]|discriminate]; exists 32, 55295; (split; [unfold XmlChars.Char; cbn; tauto|lia])|]); apply Forall_nil.
Ltac nowhere_ := apply nowhere_never; reflexivity.
Ltac not_in := cbn; intros N; repeat (destruct N as [N|N]; [discriminate N|]); exact N.

Definition sp : str := [32].
Definition sample : doc :=
  Doc (Some (Declaration (Pseudo sp [] [] 39 [49; 46; 48]) None None []))
      (Misc_ [10] [(Remark_ [104; 105], [10])])
      (Some (Doctype [32; 97] (Some [60; 62]) (Misc_ [10] [])))
      (Full_ [97] [Att_ sp [98] [] sp 34 [120; 39; 62]; Att_ [10] [99] [] [] 39 []] sp
         [116; 93; 93]
         [(Stands Amp_, [117]);
          (Empty_ [98; 99] [] sp, []);
          (Section_ [60; 93; 93], []);
          (Instruction_ [112] sp [63; 113], [118])] [10])
      (Misc_ [10] []).
Example C68_case_good : good_doc (readable false) sample.
Proof.
  unfold good_doc, sample. cbn [x_declaration x_before x_doctype x_root x_after if_given].
  split; [|split; [|split; [|split; [|split]]]].
  - split; [|split; [exact I|split; [exact I|constructor]]].
    cbn. repeat split; [is_space_|discriminate|constructor|constructor|right; reflexivity|discriminate|].
    repeat constructor; match goal with |- version_char ?c => unfold version_char, among end.
    + exists 48, 57. split; [cbn; tauto|lia].
    + exists 46, 46. split; [cbn; tauto|lia].
    + exists 48, 57. split; [cbn; tauto|lia].
  - split; [is_space_|]. constructor; [|constructor]. split; [exact I|]. split; [|is_space_].
    constructor. split; [is_chars|]. split; [nowhere_|].
    intros [|a [|b [|c q]]] E; try discriminate E.
  - split; [is_chars|]. split; [not_in|]. split; [not_in|]. split; [|split; [is_space_|constructor]].
    cbn. split; [is_chars|not_in].
  - exact I.
  - constructor.
    + is_name.
    + constructor; [|constructor; [|constructor]]; unfold good_att; cbn [at_gap at_name at_eq1 at_eq2 at_quote at_value].
      * split; [is_space_|]. split; [discriminate|]. split; [is_name|]. split; [constructor|]. split; [is_space_|].
        split; [left; reflexivity|]. split; [not_in|]. split; not_in.
      * split; [is_space_|]. split; [discriminate|]. split; [is_name|]. split; [constructor|]. split; [constructor|].
        split; [right; reflexivity|]. split; [not_in|]. split; not_in.
    + is_space_.
    + split; [not_in|]. split; [not_in|nowhere_].
    + repeat apply Forall_cons; [| | | |apply Forall_nil]; (split; [|split; [not_in|split; [not_in|nowhere_]]]).
      * constructor.
      * constructor; [is_name|constructor|is_space_].
      * constructor. split; [is_chars|nowhere_].
      * constructor. split; [is_name|]. split; [intros (x & m & l & E & _); discriminate E|].
        split; [is_space_|]. split; [is_chars|]. split; [nowhere_|]. split; [discriminate|].
        intros (lo & hi & H & K). unfold White in H. cbn in H.
        repeat (destruct H as [[= <- <-]|H]; [lia|]). destruct H.
    + is_space_.
  - split; [is_space_|constructor].
Qed.
Example C68_case :
  write_doc sample = ascii_str
    "<?xml version='1.0'?>
<!--hi-->
<!DOCTYPE a[<>]>
<a b= ""x'>""
c='' >t]]&amp;u<bc /><![CDATA[<]]]]><?p ?q?>v</a
>
"
  /\ parse false true true (write_doc sample)
     = Val (true, map Said
         [StartDocument;
          StartElement [] (ascii_str "a") []
            [Attr [] (ascii_str "b") [] (ascii_str "CDATA") (ascii_str "x'>");
             Attr [] (ascii_str "c") [] (ascii_str "CDATA") []];
          Characters (ascii_str "t]]"); Characters (ascii_str "&"); Characters (ascii_str "u");
          StartElement [] (ascii_str "bc") [] []; EndElement [] (ascii_str "bc") [];
          Characters (ascii_str "<]]"); PI (ascii_str "p") (ascii_str "?q"); Characters (ascii_str "v");
          EndElement [] (ascii_str "a") []; EndDocument]).
Proof.
  split; [vm_compute; reflexivity|].
  rewrite (C68_reads_partial false true sample C68_case_good). vm_compute. reflexivity.
Qed.

(** * What fails *)
Definition hears (s : string) : outcome (bool * list Garden.greport) := parse false true true (ascii_str s).

(** Where char is signed, the words in a comment are not characters. *)
Theorem C68_comment_refuted :
  let s := ascii_str "<a><!--hi--></a>" in
  parse false true true s
    = Val (true, map Said [StartDocument; StartElement [] (ascii_str "a") [] []; EndElement [] (ascii_str "a") []; EndDocument])
  /\ parse true true true s = UB.
Proof. vm_compute. split; reflexivity. Qed.
Print Assumptions C68_comment_refuted.

(** The same for every comment: no visible character is read. *)
Theorem C68_signed_refuted (c : Z) : 32 <= c -> Garden.is_char true c = false.
Proof. intro L. unfold Garden.is_char. cbn [negb andb]. zdec. Qed.
Print Assumptions C68_signed_refuted.

(** A reference in an attribute value is told as text before the element, and stays in the value. *)
Theorem C68_attribute_reference_refuted :
  hears "<a b='x&lt;y'/>"
  = Val (true, map Said
      [StartDocument; Characters (ascii_str "<");
       StartElement [] (ascii_str "a") [] [Attr [] (ascii_str "b") [] (ascii_str "CDATA") (ascii_str "x&lt;y")];
       EndElement [] (ascii_str "a") []; EndDocument]).
Proof. vm_compute. reflexivity. Qed.
Print Assumptions C68_attribute_reference_refuted.

(** Every character reference is a question mark. *)
Theorem C68_character_reference_refuted :
  hears "<a>&#65;&#x42;</a>"
  = Val (true, map Said
      [StartDocument; StartElement [] (ascii_str "a") [] []; Characters (ascii_str "?"); Characters (ascii_str "?");
       EndElement [] (ascii_str "a") []; EndDocument]).
Proof. vm_compute. reflexivity. Qed.
Print Assumptions C68_character_reference_refuted.

(** An element may be ended under another name: it is read as if the name were right, and without
    a handler for errors nobody hears of it. *)
Theorem C68_mismatch_refuted :
  parse false true false (ascii_str "<a></b>") = parse false true false (ascii_str "<a></a>")
  /\ hears "<a></b>"
     = Val (true, [Said StartDocument; Said (StartElement [] (ascii_str "a") [] []); Erred true;
                   Said (EndElement [] (ascii_str "a") []); Said EndDocument]).
Proof. vm_compute. split; reflexivity. Qed.
Print Assumptions C68_mismatch_refuted.

(** A document that does not match is not told to the handler for errors. *)
Theorem C68_silent_refuted :
  hears "<a>                                                            "
  = UB /\
  hears "<a>< 0123456789 0123456789 0123456789 0123456789 0123456789 "
  = Val (false, map Said [StartDocument; StartElement [] (ascii_str "a") [] []; EndDocument]).
Proof. vm_compute. split; reflexivity. Qed.
Print Assumptions C68_silent_refuted.

(** Without a content handler empty elements are never left. *)
Theorem C68_no_content_refuted :
  parse false false true (ascii_str "<a><b/></a>") = Val (true, [Erred true]).
Proof. vm_compute. reflexivity. Qed.
Print Assumptions C68_no_content_refuted.

(** One name can be given to two attributes of an element. *)
Theorem C68_twice_refuted :
  hears "<a b='1' b='2'/>"
  = Val (true, map Said
      [StartDocument;
       StartElement [] (ascii_str "a") [] [Attr [] (ascii_str "b") [] (ascii_str "CDATA") (ascii_str "1");
                                           Attr [] (ascii_str "b") [] (ascii_str "CDATA") (ascii_str "2")];
       EndElement [] (ascii_str "a") []; EndDocument]).
Proof. vm_compute. reflexivity. Qed.
Print Assumptions C68_twice_refuted.

(** Declared entities are unknown, and a bracket in the internal subset ends it. *)
Theorem C68_subset_refuted :
  hears "<!DOCTYPE a [<!ENTITY e 'v'>]><a>&e;</a>"
  = Val (true, [Said StartDocument; Said (StartElement [] (ascii_str "a") [] []); Erred false;
                Said (EndElement [] (ascii_str "a") []); Said EndDocument])
  /\ hears "<!DOCTYPE a [<!ENTITY e ']'>]><a/>" = UB.
Proof. vm_compute. split; reflexivity. Qed.
Print Assumptions C68_subset_refuted.
