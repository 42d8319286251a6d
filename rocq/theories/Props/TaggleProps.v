(** C50 the events of the HTML parser are those of a document; C55 and their names are names. *)
From Coq Require Import String.
From Verif.Model Require Import Base Attrs XSort Taggle HtmlScanner.
From Verif.Spec Require Import TaggleSpec.
From Verif.Proof Require Import TaggleProof TaggleProof2 TaggleProof3 HtmlScannerProof.
From Verif.Props Require Import FilterProps.
From Coq Require Import List Permutation.
Import ListNotations.
Open Scope Z_scope.

(** The buffer never reaches its capacity: true of short inputs. *)
Definition never (_ : nat) : bool := false.

(** * C50 *)

(** Whatever the input, the features, the capacity of the scanner's buffer and the earlier
    parses: the parse ends, nothing is undefined, and the events are those of one document. *)
Theorem C50_document : forall again F full s, exists g l,
  parse_again again F full s = Val g /\ tg_out g = HStartDocument :: HLocator :: l /\
  document true (fe_ignorable F) (HStartDocument :: l).
Proof.
  intros again F full s. destruct (parse_again_ok again F full s) as (g & l & E & O & D & _).
  exists g, l. repeat split; assumption.
Qed.
Print Assumptions C50_document.
Example C50_document_example : exists m atts,
  parse default_features never (lit "<p>one<p>two <b>bold<i>both</b>it</i>") = Val
    ([HStartDocument; HLocator; HStartMapping (lit "html") m] ++
     [HStart m (lit "html") (lit "html") atts; HStart m (lit "body") (lit "body") []] ++
     [HStart m (lit "p") (lit "p") []; HText (lit "one"); HEnd m (lit "p") (lit "p")] ++
     [HStart m (lit "p") (lit "p") []; HText (lit "two ")] ++
     [HStart m (lit "b") (lit "b") []; HText (lit "bold")] ++
     [HStart m (lit "i") (lit "i") []; HText (lit "both"); HEnd m (lit "i") (lit "i"); HEnd m (lit "b") (lit "b")] ++
     [HStart m (lit "i") (lit "i") []; HText (lit "it"); HEnd m (lit "i") (lit "i"); HEnd m (lit "p") (lit "p")] ++
     [HEnd m (lit "body") (lit "body"); HEnd m (lit "html") (lit "html"); HEndMapping (lit "html"); HEndDocument]).
Proof. exists (ascii_str "http://www.w3.org/1999/xhtml"), []. vm_compute. reflexivity. Qed.

(** The number of start events is that of the end events, and no end comes before its start. *)
Theorem C50_balanced : forall F full s, exists l,
  parse F full s = Val l /\ nested [] l = Some [].
Proof. exact parse_nested. Qed.
Print Assumptions C50_balanced.

(** A document type is reported even when it is met inside an element. *)
Theorem C50_doctype_refuted : exists s before u local q atts n p d after,
  parse default_features never s = Val (before ++ HStart u local q atts :: HStartDTD n p d :: after).
Proof.
  exists (lit "<p><!DOCTYPE html>"). set (m := ascii_str "http://www.w3.org/1999/xhtml").
  exists [HStartDocument; HLocator; HStartMapping (lit "html") m; HStart m (lit "html") (lit "html") []; HStart m (lit "body") (lit "body") []].
  exists m, (lit "p"), (lit "p"), [], (lit "html"), [], [],
    [HEndDTD; HEnd m (lit "p") (lit "p"); HEnd m (lit "body") (lit "body"); HEnd m (lit "html") (lit "html"); HEndMapping (lit "html"); HEndDocument].
  vm_compute. reflexivity.
Qed.
Print Assumptions C50_doctype_refuted.
(** The locator, which SAX sets before every other event, comes after the start of the document. *)
Theorem C50_locator_refuted : forall again F full s, exists g l,
  parse_again again F full s = Val g /\ tg_out g = HStartDocument :: HLocator :: l.
Proof.
  intros again F full s. destruct (parse_again_ok again F full s) as (g & l & E & O & _).
  exists g, l. split; assumption.
Qed.
Print Assumptions C50_locator_refuted.
(** With the feature that reports ignorable white space, it is reported before the document
    element, where SAX has none. *)
Theorem C50_ignorable_refuted : exists F s l,
  parse F never s = Val ([HStartDocument; HLocator; HStartMapping (lit "html") (ascii_str "http://www.w3.org/1999/xhtml"); HIgnorable (lit " ")] ++ l).
Proof.
  exists (Features true false false true true false true true true), (lit " <p>").
  eexists. vm_compute. reflexivity.
Qed.
Print Assumptions C50_ignorable_refuted.
(** After an empty tag for a script the markup that follows is text. *)
Theorem C50_empty_script_refuted : exists l,
  parse default_features never (lit "<script/><p>x</p>") = Val l /\ In (HText (lit "<p>x")) l.
Proof. eexists. split; [vm_compute; reflexivity|]. cbn [In]. do 7 right. left. reflexivity. Qed.
Print Assumptions C50_empty_script_refuted.
(** A CDATA section that ends with a bracket does not end. *)
Theorem C50_cdata_refuted :
  parse default_features never (lit "<![CDATA[x]]]><p>y") = parse default_features never [].
Proof. vm_compute. reflexivity. Qed.
Print Assumptions C50_cdata_refuted.

(** * C55 *)

(** Each reported element and attribute has a name of XML, of which the local name and the
    namespace are the parts; the attributes of an element are distinct and none is a namespace
    declaration. *)
Theorem C55_names : forall F full s, exists l,
  parse F full s = Val l /\ Forall (start_names (fe_namespaces F)) l.
Proof.
  intros F full s. destruct (parse_again_ok false F full s) as (g & l & E & O & _ & N).
  exists (tg_out g). unfold parse. rewrite E. split; [reflexivity|exact N].
Qed.
Print Assumptions C55_names.
Example C55_names_example : exists l u a b,
  parse default_features never (lit "<1:x y:z=1 y:z=2 1=3 xmlns:q=r>") = Val l /\
  In (HStart u (lit "x") (lit "_1:x") [a; b]) l /\ a_qname a = lit "y:z" /\ a_qname b = lit "_1".
Proof.
  eexists. eexists. eexists. eexists. split; [vm_compute; reflexivity|]. split; [|split].
  - cbn [In]. do 5 right. left. reflexivity.
  - vm_compute. reflexivity.
  - vm_compute. reflexivity.
Qed.
(** An element without a prefix is in the namespace of XHTML, but the mapping reported is of the
    prefix "html", which no name has: no default namespace is reported. *)
Theorem C55_default_namespace_refuted : exists l m,
  parse default_features never (lit "<p>") = Val l /\ In (HStart m (lit "p") (lit "p") []) l /\ m <> [] /\
  forall u, ~ In (HStartMapping [] u) l.
Proof.
  eexists. exists (ascii_str "http://www.w3.org/1999/xhtml"). split; [vm_compute; reflexivity|]. split; [|split].
  - cbn [In]. do 5 right. left. reflexivity.
  - discriminate.
  - intros u I. cbn [In] in I. repeat (destruct I as [I|I]; [discriminate I|]). exact I.
Qed.
Print Assumptions C55_default_namespace_refuted.
(** The prefix "xmlns", which cannot be declared, is. *)
Theorem C55_xmlns_refuted : exists l u,
  parse default_features never (lit "<xmlns:a>") = Val l /\ In (HStartMapping (lit "xmlns") u) l.
Proof. eexists. eexists. split; [vm_compute; reflexivity|]. cbn [In]. do 3 right. left. reflexivity. Qed.
Print Assumptions C55_xmlns_refuted.
