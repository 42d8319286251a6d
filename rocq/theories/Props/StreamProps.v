From Coq Require Import String Permutation.
From Verif.Model Require Import Base Containers Text NsSupport Stream.
From Verif.Spec Require Import TextSpec XmlRead WriterSpec NsTree.
From Verif.Proof Require Import StreamProof.
From Verif.Props Require Import FilterProps.
From Coq Require Import List.
Import ListNotations.
Open Scope Z_scope.

(** A node written to a stream, whatever elements it is inside, is read back by an XML reader
    as the same markup, with the same expanded names: nothing is lost, tags match, values are
    escaped, and the declarations written bind every prefix as it should be.  Partial: each
    namespace has one prefix and each prefix one namespace, elements outside any namespace do
    not go with a default namespace, names are names, comments have no double hyphen, CDATA
    sections at most one end marker, and there are no entity references; see the refutations. *)
Theorem C34_node_partial : forall ord tbl dflt anc t, (forall l, Permutation (ord l) l) -> scheme_ok tbl dflt ->
  Forall (fun a => d_uri a = [] \/ In (d_uri a, d_prefix a) tbl) anc -> expressible tbl dflt t ->
  exists l n, read_content_text (stream_one ord anc t) = Some l /\ resolve [[]] l = Some n /\
    Forall2 same_token n (njoin (tree_tokens t)).
Proof. exact stream_node_lemma. Qed.
Print Assumptions C34_node_partial.
(** A document: the declaration, a line feed and the children. *)
Theorem C34_document_partial : forall ord tbl dflt kids, (forall l, Permutation (ord l) l) -> scheme_ok tbl dflt ->
  Forall (expressible tbl dflt) kids ->
  exists l n, read_xml (stream_document ord kids) = Some ([(k_version, [49; 46; 48])], l) /\ resolve [[]] l = Some n /\
    Forall2 same_token n (njoin (NText [10] :: flat_map tree_tokens kids)).
Proof. exact stream_document_lemma. Qed.
Print Assumptions C34_document_partial.
(** For every tree: the end tag has the name of the start tag, which is the node's name or its
    local name with the prefix in force for its namespace, or its own. *)
Theorem C34_tags : forall ord above st n atts kids, kids <> [] -> exists name middle,
  snd (stream_node ord above st (DElem n atts kids)) = [60] ++ name ++ middle ++ [60; 47] ++ name ++ [62] /\
  name = match d_uri n with
         | [] => d_name n
         | _ => match is_uri_declared (above :: p_maps st) (d_uri n) with
                | Some p => with_prefix p (d_local n)
                | None => with_prefix (d_prefix n) (d_local n)
                end
         end.
Proof. exact tags_lemma. Qed.
Print Assumptions C34_tags.

Definition same (l : list (dname * str)) : list (dname * str) := l.
Definition plain_name (n : String.string) : dname := DName [] [] [] (lit n).
Definition full_name (u p l : String.string) : dname := DName (lit u) (lit p) (lit l) (with_prefix (lit p) (lit l)).
Definition letter : dtree :=
  DElem (full_name "urn:l" "" "letter") [(full_name "urn:m" "m" "to", lit "A & <B>"); (plain_name "lang", lit "en"); (full_name "urn:n" "" "id", lit "7"); (full_name "http://www.w3.org/2000/xmlns/" "xmlns" "zz", lit "urn:zz")]
    [DText (lit "a<b"); DElem (full_name "urn:m" "m" "note") [] [DCData (lit "x]]>y"); DComment (lit "c"); DPI (lit "go") []]; DElem (full_name "urn:l" "" "end") [] []].
Definition letter_table : list (str * str) := [(lit "urn:l", []); (lit "urn:m", lit "m"); (lit "urn:n", lit "n")].
Example C34_letter_text : stream_one same [] letter =
  lit "<letter m:to=""A &amp; &lt;B&gt;"" lang=""en"" a0:id=""7"" xmlns=""urn:l"" xmlns:m=""urn:m"" xmlns:a0=""urn:n"">a&lt;b<m:note><![CDATA[x]]]]><![CDATA[>y]]><!--c--><?go ?></m:note><end/></letter>".
Proof. vm_compute. reflexivity. Qed.

(** [has p s] decides [contains]. *)
Fixpoint leads (p s : txt) : bool :=
  match p, s with [], _ => true | a :: p', b :: s' => (a =? b) && leads p' s' | _ :: _, [] => false end.
Fixpoint has (p s : txt) : bool := leads p s || match s with [] => false | _ :: r => has p r end.
Lemma leads_app : forall p s, leads p (p ++ s) = true.
Proof. induction p as [|a p IH]; intros s; [reflexivity|]. cbn [leads List.app]. rewrite Z.eqb_refl. apply IH. Qed.
Lemma has_not : forall p s, has p s = false -> ~ contains p s.
Proof.
  intros p s H (a & b & E). revert s H E. induction a as [|c a IH]; intros s H E; subst s.
  - cbn [List.app] in H. destruct (p ++ b) eqn:F; cbn [has] in H; rewrite <- F, leads_app in H; discriminate.
  - cbn [has List.app] in H. apply Bool.orb_false_iff in H. exact (IH _ (proj2 H) eq_refl).
Qed.
(** [once p s]: after any occurrence there is no other. *)
Fixpoint once (p s : txt) : bool :=
  (if leads p s then negb (has p (skipn (List.length p) s)) else true) && match s with [] => true | _ :: r => once p r end.
Lemma once_marker : forall s, once [93; 93; 62] s = true -> one_marker s.
Proof.
  intros s H a b E. revert s H E. induction a as [|c a IH]; intros s H E; subst s.
  - cbn [once List.app] in H. apply andb_prop in H. destruct H as [H _].
    change (leads _ _) with (leads [93; 93; 62] ([93; 93; 62] ++ b)) in H. rewrite leads_app in H. apply has_not. destruct (has _ b) eqn:F; [|reflexivity].
    change (negb (has [93; 93; 62] b) = true) in H. rewrite F in H. discriminate.
  - cbn [once List.app] in H. apply andb_prop in H. exact (IH _ (proj2 H) eq_refl).
Qed.
Ltac small := vm_compute; intuition congruence.
Example C34_letter_table : scheme_ok letter_table true.
Proof.
  split; [|split]; [repeat constructor; small|repeat constructor; small|].
  constructor; [|constructor; [|constructor; [|constructor]]].
  - repeat split; try discriminate; try (intros; discriminate). left. split; reflexivity.
  - repeat split; try discriminate; try (intros; discriminate). right. repeat split; try discriminate; try reflexivity; small.
  - repeat split; try discriminate; try (intros; discriminate). right. repeat split; try discriminate; try reflexivity; small.
Qed.
Example C34_letter_ok : expressible letter_table true letter.
Proof.
  cbn [expressible letter]. repeat match goal with |- _ /\ _ => split end; try exact I.
  - right. repeat split; try discriminate; try reflexivity; small.
  - constructor; [|constructor; [|constructor; [|constructor; [|constructor]]]].
    + right. split; [discriminate|]. right. repeat split; try discriminate; try reflexivity; try small. exists (lit "m"). repeat split; try discriminate; [small|left; reflexivity].
    + right. split; [discriminate|]. left. repeat split; try discriminate; try reflexivity; small.
    + right. split; [discriminate|]. right. repeat split; try discriminate; try reflexivity; try small. exists (lit "n"). repeat split; try discriminate; [small|right; split; [reflexivity|discriminate]].
    + left. reflexivity.
  - repeat constructor; small.
  - small.
  - right. repeat split; try discriminate; try reflexivity; small.
  - constructor.
  - constructor.
  - small.
  - apply once_marker. reflexivity.
  - split; [small|]. apply has_not. reflexivity.
  - repeat split; try discriminate; try reflexivity; [small|apply has_not; reflexivity].
  - right. repeat split; try discriminate; try reflexivity; small.
  - constructor.
  - constructor.
Qed.
(** and the text read back, computed *)
Example C34_letter_read : exists l, read_content_text (stream_one same [] letter) = Some l /\
  resolve [[]] l = Some (njoin (tree_tokens letter)).
Proof. eexists. split; vm_compute; reflexivity. Qed.

(** * Where the property fails *)
Definition reads_as (t : dtree) : option (list ntok) :=
  match read_content_text (stream_one same [] t) with Some l => resolve [[]] l | None => None end.
(** An attribute in a namespace already declared as the default one is written without a
    prefix, so it reads back outside any namespace. *)
Definition attr_default : dtree := DElem (full_name "urn:a" "" "e") [(full_name "urn:a" "p" "x", lit "1")] [].
Theorem C34_attribute_refuted : stream_one same [] attr_default = lit "<e x=""1"" xmlns=""urn:a""/>" /\
  reads_as attr_default = Some [NStart (lit "urn:a") (lit "e") [([], lit "x", lit "1")]; NEnd (lit "urn:a") (lit "e")] /\
  tree_tokens attr_default = [NStart (lit "urn:a") (lit "e") [(lit "urn:a", lit "x", lit "1")]; NEnd (lit "urn:a") (lit "e")].
Proof. vm_compute. repeat split. Qed.
Print Assumptions C34_attribute_refuted.
(** An element outside any namespace inside one with a default namespace moves into it. *)
Definition no_undeclare : dtree := DElem (full_name "urn:a" "" "e") [] [DElem (plain_name "f") [] []].
Theorem C34_undeclare_refuted : stream_one same [] no_undeclare = lit "<e xmlns=""urn:a""><f/></e>" /\
  reads_as no_undeclare = Some [NStart (lit "urn:a") (lit "e") []; NStart (lit "urn:a") (lit "f") []; NEnd (lit "urn:a") (lit "f"); NEnd (lit "urn:a") (lit "e")] /\
  tree_tokens no_undeclare = [NStart (lit "urn:a") (lit "e") []; NStart [] (lit "f") []; NEnd [] (lit "f"); NEnd (lit "urn:a") (lit "e")].
Proof. vm_compute. repeat split. Qed.
Print Assumptions C34_undeclare_refuted.
(** Two namespaces with one prefix on one element: the prefix is declared twice. *)
Definition twice : dtree := DElem (full_name "urn:a" "p" "e") [(full_name "urn:b" "p" "x", lit "1")] [].
Theorem C34_prefix_refuted : stream_one same [] twice = lit "<p:e p:x=""1"" xmlns:p=""urn:a"" xmlns:p=""urn:b""/>" /\ reads_as twice = None.
Proof. vm_compute. repeat split. Qed.
Print Assumptions C34_prefix_refuted.
(** A namespace is looked up without regard to its prefix having been taken by another one. *)
Definition shadow : dtree := DElem (full_name "urn:a" "p" "e") [] [DElem (full_name "urn:b" "p" "f") [] [DElem (full_name "urn:a" "p" "g") [] []]].
Theorem C34_shadow_refuted : stream_one same [] shadow = lit "<p:e xmlns:p=""urn:a""><p:f xmlns:p=""urn:b""><p:g/></p:f></p:e>" /\
  nth_error (tree_tokens shadow) 2 = Some (NStart (lit "urn:a") (lit "g") []) /\
  match reads_as shadow with Some l => nth_error l 2 | None => None end = Some (NStart (lit "urn:b") (lit "g") []).
Proof. vm_compute. repeat split. Qed.
Print Assumptions C34_shadow_refuted.
(** A CDATA section with two end markers: part of the text is written twice. *)
Theorem C34_cdata_refuted : stream_one same [] (DCData (lit "a]]>b]]>c")) = lit "<![CDATA[a]]]]><![CDATA[>b]]>c]]><![CDATA[>c]]>" /\
  read_content_text (stream_one same [] (DCData (lit "a]]>b]]>c"))) <> Some [TText (lit "a]]>b]]>c")].
Proof. vm_compute. split; [reflexivity|discriminate]. Qed.
Print Assumptions C34_cdata_refuted.
(** Comments, processing instructions and entity references are written as they are. *)
Theorem C34_comment_refuted : read_content_text (stream_one same [] (DComment (lit "a--b"))) = None /\
  read_content_text (stream_one same [] (DPI (lit "go") (lit "a?><e>"))) = None /\
  stream_one same [] (DEntRef (lit "x")) = lit "&x;".
Proof. vm_compute. repeat split. Qed.
Print Assumptions C34_comment_refuted.
(** An element made without a namespace but with a prefix in its name is written with that
    prefix and no declaration. *)
Theorem C34_level_one_refuted : stream_one same [] (DElem (plain_name "p:e") [] []) = lit "<p:e/>" /\ reads_as (DElem (plain_name "p:e") [] []) = None.
Proof. vm_compute. repeat split. Qed.
Print Assumptions C34_level_one_refuted.
