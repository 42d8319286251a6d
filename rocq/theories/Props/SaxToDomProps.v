From Coq Require Import String.
From Verif.Model Require Import Base Chars Dom Attrs Sax SaxToDom.
From Verif.Spec Require Import SaxTree.
From Verif.Proof Require Import SaxToDomProof.
From Verif.Props Require Import FilterProps.
From Coq Require Import List.
Import ListNotations.
Open Scope Z_scope.

(** Parsing the events that report a document, in whatever pieces its text arrives and
    whatever the parser was used for before, builds a tree that is walked as the same events.
    Partial: no entities but skipped ones, nothing inside the document type that makes a node,
    no empty CDATA section, and the attributes are told apart by namespace and local name; see
    the refutations. *)
Theorem C35_mirror_partial : forall x b raw, doc_fits x -> flat_map see (fst (coalescer raw [])) = doc_events x ->
  exists enough, forall fuel, (enough <= fuel)%nat ->
  exists b' d, parse fuel b raw = BOk b' tt /\ b_doc b' = Some d /\ walk fuel (b_heap b') (b_atts b') d = Some (doc_events x).
Proof. exact parse_lemma. Qed.
Print Assumptions C35_mirror_partial.

(** A document with a type, a prolog, namespaces, CDATA, and text that comes in pieces. *)
Definition sample : xdoc :=
  XDoc [XComment (lit "top")] (Some (lit "doc")) [XPI (lit "go") (lit "now")]
    (XElem (lit "urn:x") (lit "p:doc") [(AttrMap.xmlns_ns, lit "xmlns:p", lit "urn:x"); ([], lit "id", lit "7")]
       [XText (lit "hello"); XElem [] (lit "b") [] [XCData (lit "<&>"); XComment (lit "c")]; XSkip (lit "e"); XText (lit "bye")])
    [XComment (lit "end")].
Definition raw_attr (u l q v : string) : attr := Attr (lit u) (lit l) (lit q) (lit "CDATA") (lit v).
Definition sample_raw : list sax :=
  [StartDocument; Comment (lit "top"); StartDTD (lit "doc") [] (lit "doc.dtd"); ElementDecl (lit "b") (lit "ANY"); EndDTD; PI (lit "go") (lit "now");
   StartPrefix (lit "p") (lit "urn:x");
   StartElement (lit "urn:x") (lit "doc") (lit "p:doc") [raw_attr "" "" "xmlns:p" "urn:x"; raw_attr "" "id" "id" "7"];
   Characters (lit "he"); Characters (lit "ll"); IgnorableWhitespace (lit "o");
   StartElement [] (lit "b") (lit "b") []; StartCDATA; Characters (lit "<"); Characters (lit "&>"); EndCDATA; Comment (lit "c"); EndElement [] (lit "b") (lit "b");
   SkippedEntity (lit "e"); Characters (lit "by"); Characters (lit "e");
   EndElement (lit "urn:x") (lit "doc") (lit "p:doc"); EndPrefix (lit "p"); Comment (lit "end"); EndDocument].
Ltac not_there := let H := fresh in intros H; cbn in H; repeat (destruct H as [H|H]; [discriminate|]); exact H.
Example C35_sample : doc_fits sample /\ flat_map see (fst (coalescer sample_raw [])) = doc_events sample.
Proof.
  split; [|vm_compute; reflexivity].
  unfold doc_fits, sample. cbn [x_before x_between x_after x_root]. split; [|split; [|split; [|split]]].
  - repeat constructor.
  - repeat constructor.
  - repeat constructor.
  - cbn [fits]. split; [|split; [|split; [|split; [exact I|split; [|repeat split]]]]].
    + split; [vm_compute; reflexivity|]. right. exists (lit "p"), (lit "doc"). split; [split; [reflexivity|not_there]|]. split; discriminate.
    + constructor; [|constructor; [|constructor]].
      * split; [vm_compute; reflexivity|]. right. exists (lit "xmlns"), (lit "p"). split; [split; [reflexivity|not_there]|]. split; [discriminate|]. split; [discriminate|reflexivity].
      * split; [vm_compute; reflexivity|]. left. split; [not_there|discriminate].
    + constructor; [not_there|]. constructor; [intros []|constructor].
    + split; [split; [vm_compute; reflexivity|left; not_there]|]. repeat split; constructor.
  - do 4 eexists. reflexivity.
Qed.

(** What is seen of the result of a parse. *)
Definition seen (b : builder) : option (list dev) :=
  match b_doc b with Some d => walk 50 (b_heap b) (b_atts b) d | None => None end.
Definition built (raw : list sax) : option (option (list dev)) :=
  match parse 50 new_parser raw with BOk b _ => Some (seen b) | _ => None end.
Example C35_sample_built : built sample_raw = Some (Some (doc_events sample)).
Proof. vm_compute. reflexivity. Qed.

Definition el (n : string) (inside : list sax) : list sax := [StartElement [] (lit n) (lit n) []] ++ inside ++ [EndElement [] (lit n) (lit n)].
Definition doc_of (l : list sax) : list sax := [StartDocument] ++ l ++ [EndDocument].
Definition dtd (l : list sax) : list sax := [StartDTD (lit "r") [] []] ++ l ++ [EndDTD].
Definition text_in (o : option (option (list dev))) : list str :=
  match o with Some (Some l) => flat_map (fun e => match e with VChars s => [s] | _ => [] end) l | _ => [] end.

(** An entity inside an entity: of the document with the text before, p y q and after, where
    p y q is the text of an entity with another entity in its middle, the tree has text that
    the document has not, and the rest in another order. *)
Definition nested : list sax :=
  doc_of (dtd [InternalEntityDecl (lit "a") (lit "p&b;q"); InternalEntityDecl (lit "b") (lit "y")] ++
    el "r" [Characters (lit "before"); StartEntity (lit "a"); Characters (lit "p"); StartEntity (lit "b"); Characters (lit "y"); EndEntity (lit "b"); Characters (lit "q"); EndEntity (lit "a"); Characters (lit "after")]).
Theorem C35_nested_entity_refuted : text_in (built nested) = [lit "before"; lit "y"; lit "q"; lit "p&b;q"; lit "after"].
Proof. vm_compute. reflexivity. Qed.
Print Assumptions C35_nested_entity_refuted.
(** And from then on in that document an entity is there twice. *)
Definition doubled : list sax :=
  doc_of (dtd [InternalEntityDecl (lit "a") (lit "p&b;q"); InternalEntityDecl (lit "b") (lit "y")] ++
    el "r" (el "i" [StartEntity (lit "a"); Characters (lit "p"); StartEntity (lit "b"); Characters (lit "y"); EndEntity (lit "b"); Characters (lit "q"); EndEntity (lit "a")] ++
            el "j" [StartEntity (lit "b"); Characters (lit "y"); EndEntity (lit "b")])).
Theorem C35_doubled_entity_refuted : text_in (built doubled) = [lit "y"; lit "q"; lit "p&b;q"; lit "y"; lit "y"].
Proof. vm_compute. reflexivity. Qed.
Print Assumptions C35_doubled_entity_refuted.
(** Comments and processing instructions in the document type become children of the document. *)
Theorem C35_comment_in_type_refuted : built (doc_of (dtd [Comment (lit "inside")] ++ el "r" [])) =
  Some (Some [VDoctype (lit "r"); VEndDoctype; VComment (lit "inside"); VStart [] (lit "r") []; VEnd [] (lit "r"); VEndDocument]).
Proof. vm_compute. reflexivity. Qed.
Print Assumptions C35_comment_in_type_refuted.
(** An empty CDATA section is lost. *)
Theorem C35_empty_cdata_refuted : built (doc_of (el "r" [StartCDATA; EndCDATA])) =
  Some (Some [VStart [] (lit "r") []; VEnd [] (lit "r"); VEndDocument]).
Proof. vm_compute. reflexivity. Qed.
Print Assumptions C35_empty_cdata_refuted.
(** A parser that has seen an entity declared in one document puts that entity, which belongs
    to another document (still held by the caller; otherwise it has been freed), into the next
    document that declares the name; appending it throws and
    there is no document. *)
Definition with_entity (v : string) : list sax :=
  doc_of (dtd [InternalEntityDecl (lit "a") (lit v)] ++ el "r" [StartEntity (lit "a"); Characters (lit v); EndEntity (lit "a")]).
Definition built_after (first raw : list sax) : option (option (list dev)) :=
  match parse 50 new_parser first with BOk b _ => match parse 50 b raw with BOk b' _ => Some (seen b') | _ => None end | _ => None end.
Theorem C35_second_parse_refuted :
  text_in (built (with_entity "one")) = [lit "one"] /\ text_in (built (with_entity "two")) = [lit "two"] /\
  built_after (with_entity "one") (with_entity "two") = Some None.
Proof. vm_compute. repeat split. Qed.
Print Assumptions C35_second_parse_refuted.
(** After an error in a document (here an element with an undeclared prefix) the end of an
    entity is handled through a null pointer. *)
Theorem C35_null_refuted :
  parse 50 new_parser (doc_of (dtd [InternalEntityDecl (lit "a") (lit "y")] ++
    el "r" (el "no:prefix" [] ++ [StartEntity (lit "a"); Characters (lit "y"); EndEntity (lit "a")]))) = BNull.
Proof. vm_compute. reflexivity. Qed.
Print Assumptions C35_null_refuted.
