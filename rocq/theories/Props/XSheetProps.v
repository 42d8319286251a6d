(** C65: compiling a stylesheet gives what the stylesheet says. *)
From Coq Require Import String.
From Verif.Model Require Import Base Chars Containers Attrs XSort XOutput XSheet.
From Verif.Spec Require Import XSheetSpec.
From Verif.Proof Require Import ContainersProof XSheetProof XSheetGrammarProof.
From Verif.Spec Require Import XSheetGrammar.
From Coq Require Import List Lia.
Import ListNotations.
Open Scope Z_scope.

(** Whatever the expressions, patterns and names are, a document that is a stylesheet compiles to
    the stylesheet that it is, where the code agrees with XSLT. *)
Theorem C65_compiles_partial : forall {scope X M N P : Type} (V : services (scope := scope) (X := X) (M := M) (N := N) (P := P)) doc s,
  says V doc s -> agreed V doc -> exists s', compile V (events doc) = Ok s' /\ alike s s'.
Proof. exact @compile_says. Qed.
Print Assumptions C65_compiles_partial.

(** * Examples: expressions, patterns and names are their texts; [current()] is the only
    expression that is not always allowed *)
Definition may_current (current : bool) (s : str) : option str := if negb current && str_eqb s (ascii_str "current()") then None else Some s.
Definition texts : services (scope := unit) (X := str) (M := str) (N := str) (P := str) :=
  Services (fun _ current _ s => may_current current s) (fun _ current s => may_current current s) (fun _ _ s => Some [s]) (fun _ s => Some s)
    (fun _ s => Some [s]) Some (fun _ => [(ascii_str "a", ascii_str "urn:a"); (ascii_str "b", ascii_str "urn:b"); ([], ascii_str "urn:d")]).
Definition t_ (s : string) : str := ascii_str s.
Definition un (n v : string) : attr := Attr [] (t_ n) (t_ n) (t_ "CDATA") (t_ v).
Definition other (n v : string) : attr := Attr (t_ "urn:a") (t_ n) (t_ ("a:" ++ n)) (t_ "CDATA") (t_ v).
Definition xe (n : string) (atts : list attr) (kids : list (xml (scope := unit))) : xml := Elem (Tag tt xslt (t_ n) (t_ ("xsl:" ++ n)) atts) kids.
Definition le (n : string) (atts : list attr) (kids : list (xml (scope := unit))) : xml := Elem (Tag tt (t_ "urn:a") (t_ n) (t_ ("a:" ++ n)) atts) kids.
Definition root_ (kids : list (xml (scope := unit))) : xml := xe "stylesheet" [un "version" "1.0"] kids.
Definition only_template (kids : list (xml (scope := unit))) : xml := root_ [xe "template" [un "match" "/"] kids].
Definition its_sheet (l : list (item (X := str))) : sheet (X := str) (M := str) (N := str) (P := str) := Sheet [Template [t_ "/"] [] [] None l] [] [] None [].
Ltac fields_ := split; [reflexivity|split; [reflexivity|reflexivity]].
Ltac has_ := eexists; first [split; [left; reflexivity|fields_]|split; [right; left; reflexivity|fields_]|split; [right; right; left; reflexivity|fields_]].
Ltac lacks_ := let I := fresh in let L := fresh in intros ? I _ L; cbn [g_atts In] in I; repeat (destruct I as [I|I]; [subst; vm_compute in L; discriminate L|]); destruct I.
Ltac only_ := let I := fresh in intros ? I _; cbn [g_atts In] in I; repeat (destruct I as [I|I]; [subst; cbn [map In]; first [left; reflexivity|right; left; reflexivity|right; right; left; reflexivity|right; right; right; left; reflexivity]|]); destruct I.
Ltac plain_space := right; right; split; [intros ? (a & I & U & L & _); cbn [g_atts In] in I; repeat (destruct I as [I|I]; [subst; vm_compute in U; discriminate U|]); destruct I|reflexivity].
Ltac expression_ := eexists; split; [has_|split; [discriminate|reflexivity]].
Lemma one_template : forall kids l, body texts [] false kids l -> says texts (only_template kids) (its_sheet l).
Proof.
  intros kids l H. apply (Y_stylesheet texts _ _ false [DTemplate (Template [t_ "/"] [] [] None l)]).
  - left. split; reflexivity.
  - only_.
  - has_.
  - plain_space.
  - constructor; [|constructor]. apply (D_template texts _ false false _ [] kids [t_ "/"] [] [] None [] l).
    + split; reflexivity.
    + only_.
    + right. split; [lacks_|reflexivity].
    + right. split; [lacks_|reflexivity].
    + left. split; [expression_|lacks_].
    + plain_space.
    + constructor.
    + exact H.
  - constructor.
  - constructor.
  - cbn. lia.
Qed.
Ltac ordinary_ := apply ordinary_elem; split; [|repeat first [apply Forall_nil|apply Forall_cons]; try exact Logic.I].
Ltac nodup_ := cbn [g_atts map]; repeat (apply NoDup_cons; [let Q := fresh in intro Q; cbn [In] in Q; repeat (destruct Q as [Q|Q]; [vm_compute in Q; discriminate Q|]); destruct Q|]); apply NoDup_nil.
Ltac absurd_ := let Q := fresh in intro Q; vm_compute in Q; discriminate Q.
Ltac reported_ := cbn [g_atts]; repeat (apply Forall_cons; [split; [absurd_|split; [absurd_|split; [first [absurd_|reflexivity]|
  first [let Q := fresh in intro Q; exfalso; apply Q; reflexivity|intros _; right; left; reflexivity]]]]|]); apply Forall_nil.
Ltac tag_ := split; [nodup_|]; split; [reported_|]; split;
  [let I := fresh in let U := fresh in intros v (a & I & U & _); cbn [g_atts In] in I; repeat (destruct I as [I|I]; [subst; discriminate U|]); destruct I|
   let X := fresh in intro X; first [discriminate X|
   split; [let I := fresh in let U := fresh in intros a I U; cbn [g_atts In] in I; repeat (destruct I as [I|I]; [subst; exfalso; apply U; reflexivity|]); destruct I|
   split; [let Q := fresh in intros [Q|[Q|[Q|[Q|[]]]]]; vm_compute in Q; discriminate Q|
   let I := fresh in let L := fresh in intros (a & I & _ & L & _); cbn [g_atts In] in I; repeat (destruct I as [I|I]; [subst; vm_compute in L; discriminate L|]); destruct I]]]].
Lemma ordinary_template : forall kids, Forall ordinary kids -> agreed texts (only_template kids).
Proof.
  intros kids O. split.
  - apply ordinary_elem. split; [|apply Forall_cons; [apply ordinary_elem; split; [|exact O]|apply Forall_nil]].
    + tag_.
    + tag_.
  - intros _. split; [|split].
    + exists [], [xe "template" [un "match" "/"] kids]. split; [reflexivity|]. split; [constructor|]. repeat constructor.
      intros [_ [Q|[]]]. vm_compute in Q. discriminate Q.
    + intros g sub p u q w [E|[]] [_ L]. injection E as <- <-. vm_compute in L. discriminate L.
    + right. exists [], [xe "template" [un "match" "/"] kids]. split; [reflexivity|]. split; [constructor|]. split; [split; [reflexivity|left; reflexivity]|].
      intro Q. apply (Q (un "match" "/")); [left; reflexivity|reflexivity|reflexivity].
Qed.

(** A template with a sorted xsl:for-each, text and a literal element. *)
Definition loop : list xml :=
  [Txt [10; 32]; xe "for-each" [un "select" "item"] [Txt [32]; xe "sort" [un "select" "@n"; un "order" "descending"] []; le "row" [un "class" "{@c}"] [Txt (t_ "No. "); xe "value-of" [un "select" "."] []]]].
Definition looped : list item :=
  [CForEach (t_ "item") [Sorting (t_ "@n") (t_ "text") (t_ "descending") (t_ "upper-first")]
     [CInline (t_ "a:row") (t_ "urn:a") [(t_ "class", [], t_ "{@c}")] [CText false (t_ "No. "); CValueOf false (t_ ".")]]].
Lemma loop_body : body texts [] false loop looped.
Proof.
  unfold loop, looped. apply B_blank; [eexists; split; [reflexivity|split; [apply white_blank; reflexivity|reflexivity]]|].
  apply B_item; [|apply B_nil].
  apply (I_for_each texts _ false false _ [Txt [32]; xe "sort" [un "select" "@n"; un "order" "descending"] []]).
  - split; reflexivity.
  - only_.
  - expression_.
  - plain_space.
  - apply S_blank; [eexists; split; [reflexivity|split; [apply white_blank; reflexivity|reflexivity]]|]. apply S_sort; [|apply S_nil].
    eexists _, _, false. split; [reflexivity|]. split; [split; reflexivity|]. split; [only_|]. split; [left; expression_|].
    split; [right; split; [lacks_|reflexivity]|]. split; [left; eexists; split; [has_|reflexivity]|]. split; [right; split; [lacks_|reflexivity]|]. split; [plain_space|constructor].
  - apply B_item; [|apply B_nil]. apply (I_literal texts _ false false).
    + discriminate.
    + left. split; [intros []|split; reflexivity].
    + apply A_copied; [discriminate| |apply A_nil]. split; [reflexivity|]. left. split; [left; reflexivity|split; reflexivity].
    + plain_space.
    + apply B_text; [right; intro W; inversion W as [|? ? [Q|[Q|[Q|Q]]]]; discriminate Q|]. apply B_item; [|apply B_nil].
      apply (I_value_of texts _ false false); [split; reflexivity|only_|expression_|right; split; [right; lacks_|reflexivity]|plain_space|constructor].
Qed.
Example C65_example : says texts (only_template loop) (its_sheet looped) /\ agreed texts (only_template loop) /\
  compile texts (events (only_template loop)) = Ok (its_sheet looped).
Proof.
  split; [apply one_template, loop_body|]. split; [|vm_compute; reflexivity].
  apply ordinary_template. unfold loop. constructor; [exact Logic.I|]. constructor; [|constructor].
  ordinary_; [tag_|ordinary_; tag_|ordinary_; [tag_|ordinary_; tag_]].
Qed.

(** Whatever the document, no handler finds others than it can work with: compiling ends with a
    stylesheet or with an exception. *)
Theorem C65_sound : forall {scope X M N P : Type} (V : services (scope := scope) (X := X) (M := M) (N := N) (P := P)) l, compile V l <> Broken.
Proof. exact @never_broken. Qed.
Print Assumptions C65_sound.

(** * Where the code does not agree *)
(** An attribute of another namespace is taken for XSLT's: <xsl:value-of select="x" a:select="y"/>. *)
Definition two_selects : list (xml (scope := unit)) := [xe "value-of" [un "select" "x"; other "select" "y"] []].
Theorem C65_foreign_attribute_refuted :
  says texts (only_template two_selects) (its_sheet [CValueOf false (t_ "x")]) /\
  compile texts (events (only_template two_selects)) = Ok (its_sheet [CValueOf false (t_ "y")]).
Proof.
  split; [|vm_compute; reflexivity]. apply one_template. apply B_item; [|apply B_nil].
  apply (I_value_of texts _ false false); [split; reflexivity| |expression_|right; split; [right; intros a [<-|[<-|[]]] U L; vm_compute in L; discriminate L|reflexivity]|plain_space|constructor].
  intros a [<-|[<-|[]]] U; [left; reflexivity|vm_compute in U; discriminate U].
Qed.
Print Assumptions C65_foreign_attribute_refuted.

(** Some elements may not have attributes of other namespaces. *)
Definition noted_choose : list (xml (scope := unit)) := [xe "choose" [other "note" "1"] [xe "when" [un "test" "x"] [Txt (t_ "yes")]]].
Theorem C65_choose_attribute_refuted :
  says texts (only_template noted_choose) (its_sheet [CChoose [(t_ "x", [CText false (t_ "yes")])] None]) /\
  compile texts (events (only_template noted_choose)) = Throws.
Proof.
  split; [|vm_compute; reflexivity]. apply one_template. apply B_item; [|apply B_nil].
  apply (I_choose texts _ false false); [split; reflexivity| |plain_space| |discriminate].
  - intros a [<-|[]] U. vm_compute in U. discriminate U.
  - apply (C_when texts _ false false); [split; reflexivity|only_|expression_|plain_space| |apply C_nil].
    apply B_text; [right; intro W; inversion W as [|? ? [Q|[Q|[Q|Q]]]]; discriminate Q|apply B_nil].
Qed.
Print Assumptions C65_choose_attribute_refuted.

(** namespace="" is no namespace, and not the one of the prefix. *)
Definition no_namespace : list (xml (scope := unit)) := [xe "element" [un "name" "a:x"; un "namespace" ""] []].
Theorem C65_empty_namespace_refuted :
  says texts (only_template no_namespace) (its_sheet [CElement (t_ "a:x") (inr []) []]) /\
  compile texts (events (only_template no_namespace)) = Ok (its_sheet [CElement (t_ "a:x") (inl (x_namespaces texts tt)) []]).
Proof.
  split; [|vm_compute; reflexivity]. apply one_template. apply B_item; [|apply B_nil].
  apply (I_element texts _ false false); [split; reflexivity|only_|expression_|eexists; split; [has_|reflexivity]|plain_space|apply B_nil].
Qed.
Print Assumptions C65_empty_namespace_refuted.

(** xml:space="preserve" has no effect. *)
Definition preserve : attr := Attr xml_namespace (t_ "space") (t_ "xml:space") (t_ "CDATA") (t_ "preserve").
Definition spaced_if : list (xml (scope := unit)) := [xe "if" [un "test" "x"; preserve] [Txt [32]]].
Theorem C65_space_refuted :
  says texts (only_template spaced_if) (its_sheet [CIf (t_ "x") [CText false [32]]]) /\
  compile texts (events (only_template spaced_if)) = Ok (its_sheet [CIf (t_ "x") []]).
Proof.
  split; [|vm_compute; reflexivity]. apply one_template. apply B_item; [|apply B_nil].
  apply (I_if texts _ false true); [split; reflexivity| |expression_|left; split; [exists preserve; split; [right; left; reflexivity|fields_]|reflexivity]|
    apply B_text; [left; reflexivity|apply B_nil]].
  intros a [<-|[<-|[]]] U; [left; reflexivity|vm_compute in U; discriminate U].
Qed.
Print Assumptions C65_space_refuted.

(** current() is refused until a pattern has been compiled, here in a top-level variable. *)
Definition early_current : xml (scope := unit) := root_ [xe "variable" [un "name" "v"; un "select" "current()"] []; xe "template" [un "match" "/"] []].
Definition its_early : sheet (X := str) (M := str) (N := str) (P := str) :=
  Sheet [Template [t_ "/"] [] [] None []] [(false, (t_ "v", Some (t_ "current()"), []))] [] None [].
Lemma template_declared : forall A kids l, body texts A false kids l ->
  declares texts A false (xe "template" [un "match" "/"] kids) (DTemplate (Template [t_ "/"] [] [] None l)).
Proof.
  intros A kids l H. apply (D_template texts A false false _ [] kids [t_ "/"] [] [] None [] l).
  - split; reflexivity.
  - only_.
  - right. split; [lacks_|reflexivity].
  - right. split; [lacks_|reflexivity].
  - left. split; [expression_|lacks_].
  - plain_space.
  - constructor.
  - exact H.
Qed.
Theorem C65_current_refuted : says texts early_current its_early /\ compile texts (events early_current) = Throws.
Proof.
  split; [|vm_compute; reflexivity]. apply (Y_stylesheet texts _ _ false [DVariable false (t_ "v", Some (t_ "current()"), []); DTemplate (Template [t_ "/"] [] [] None [])]).
  - left. split; reflexivity.
  - only_.
  - has_.
  - plain_space.
  - constructor; [|constructor; [apply template_declared, B_nil|constructor]].
    apply D_variable; [split; reflexivity|only_|expression_|]. apply (V_select texts _ false false); [expression_|plain_space|constructor].
  - constructor.
  - constructor.
  - cbn. lia.
Qed.
Print Assumptions C65_current_refuted.

(** An alias concerns only what comes after it; one with result-prefix="#default" makes a name that
    begins with a colon. *)
Definition alias_to (p : string) : xml (scope := unit) := xe "namespace-alias" [un "stylesheet-prefix" "a"; un "result-prefix" p] [].
Definition aliased_row : xml (scope := unit) := xe "template" [un "match" "/"] [le "row" [] []].
Lemma alias_declared : forall p q u A, alias_prefix texts (Tag tt xslt (t_ "namespace-alias") (t_ "xsl:namespace-alias") [un "stylesheet-prefix" "a"; un "result-prefix" p]) "result-prefix" q u ->
  declares texts A false (alias_to p) (DAlias (t_ "urn:a") q u).
Proof.
  intros p q u A H. apply (D_alias texts A false false _ _ (t_ "a")); [split; reflexivity|only_| |exact H|plain_space|constructor].
  right. split; [has_|]. split; [discriminate|]. split; [discriminate|reflexivity].
Qed.
Lemma row_declared : forall q u, declares texts [(t_ "urn:a", (q, u))] false aliased_row
  (DTemplate (Template [t_ "/"] [] [] None [CInline match q with [] => t_ "row" | _ => q ++ [58] ++ t_ "row" end u [] []])).
Proof.
  intros q u. apply template_declared. apply B_item; [|apply B_nil]. apply (I_literal texts _ false false); [discriminate| |apply A_nil|plain_space|apply B_nil].
  right. exists q. split; [left; reflexivity|reflexivity].
Qed.
Theorem C65_late_alias_refuted :
  says texts (root_ [aliased_row; alias_to "b"]) (its_sheet [CInline (t_ "b:row") (t_ "urn:b") [] []]) /\
  compile texts (events (root_ [aliased_row; alias_to "b"])) = Ok (its_sheet [CInline (t_ "a:row") (t_ "urn:a") [] []]) /\
  compile texts (events (root_ [alias_to "b"; aliased_row])) = Ok (its_sheet [CInline (t_ "b:row") (t_ "urn:b") [] []]).
Proof.
  split; [|split; vm_compute; reflexivity].
  apply (Y_stylesheet texts _ _ false [DTemplate (Template [t_ "/"] [] [] None [CInline (t_ "b:row") (t_ "urn:b") [] []]); DAlias (t_ "urn:a") (t_ "b") (t_ "urn:b")]).
  - left. split; reflexivity.
  - only_.
  - has_.
  - plain_space.
  - constructor; [apply (row_declared (t_ "b") (t_ "urn:b"))|constructor; [|constructor]].
    apply alias_declared. right. split; [has_|]. split; [discriminate|]. split; [discriminate|reflexivity].
  - constructor.
  - repeat constructor. intros [].
  - cbn. lia.
Qed.
Print Assumptions C65_late_alias_refuted.
Theorem C65_default_alias_refuted :
  says texts (root_ [alias_to "#default"; aliased_row]) (its_sheet [CInline (t_ "row") (t_ "urn:d") [] []]) /\
  compile texts (events (root_ [alias_to "#default"; aliased_row])) = Ok (its_sheet [CInline (t_ ":row") (t_ "urn:d") [] []]).
Proof.
  split; [|vm_compute; reflexivity].
  apply (Y_stylesheet texts _ _ false [DAlias (t_ "urn:a") [] (t_ "urn:d"); DTemplate (Template [t_ "/"] [] [] None [CInline (t_ "row") (t_ "urn:d") [] []])]).
  - left. split; reflexivity.
  - only_.
  - has_.
  - plain_space.
  - constructor; [|constructor; [apply (row_declared [] (t_ "urn:d"))|constructor]].
    apply alias_declared. left. split; [has_|]. split; reflexivity.
  - constructor.
  - repeat constructor. intros [].
  - cbn. lia.
Qed.
Print Assumptions C65_default_alias_refuted.

(** Documents that XSLT does not allow compile: text in xsl:call-template, and also xsl:variable with
    both select and content, xsl:sort after text. *)
Definition call_with_text : list (xml (scope := unit)) := [xe "call-template" [un "name" "x"] [Txt (t_ "text")]].
Ltac not_this := match goal with
  | H : xsl _ _ |- _ => destruct H as [_ H]; vm_compute in H; discriminate H
  | H : g_uri _ <> xslt |- _ => exfalso; apply H; reflexivity
  | H : stripped _ (Elem _ _) |- _ => destruct H as (? & H & _); discriminate H
  | H : stripped _ (xe _ _ _) |- _ => destruct H as (? & H & _); discriminate H
  | H : sort_of _ _ (Txt _) _ |- _ => destruct H as (? & ? & ? & H & _); discriminate H
  end.
Lemma call_not_said : forall A keep i, ~ instruct texts A keep (xe "call-template" [un "name" "x"] [Txt (t_ "text")]) i.
Proof.
  intros A keep i H. inversion H; subst; try not_this.
  match goal with H : passed _ _ _ _ _ _ |- _ => inversion H; subst end; try not_this.
  match goal with H : stripped _ _ |- _ => destruct H as (s & E & W & _); injection E as <-; apply white_blank in W; vm_compute in W; discriminate W end.
Qed.
Theorem C65_lenient_refuted :
  (forall s, ~ says texts (only_template call_with_text) s) /\
  compile texts (events (only_template call_with_text)) = Ok (its_sheet [CCall (t_ "x") []]).
Proof.
  split; [|vm_compute; reflexivity]. intros s H. inversion H as [g kids keep ds Hg On Hv K Hd|]; subst; [|not_this].
  inversion Hd as [|? d ? ? Ht]; subst. inversion Ht as [| |? keep' ? first kids' ? ? ? ? l1 l2 Xg On' Hn Hm Hp K' Hf Hb| | | | |]; subst; try not_this.
  destruct first as [|t first].
  - cbn [app] in *. subst kids'. unfold call_with_text in Hb. inversion Hb; subst; try not_this. eapply call_not_said. eassumption.
  - match goal with E : (t :: first) ++ kids' = _ |- _ => cbn [app] in E; injection E as -> _ end. inversion Hf; subst; not_this.
Qed.
Print Assumptions C65_lenient_refuted.
Example lenient_too :
  compile texts (events (only_template [xe "variable" [un "name" "x"; un "select" "y"] [xe "comment" [] []]])) = Ok (its_sheet [CVariable (t_ "x") (Some (t_ "y")) [CComment []]]) /\
  compile texts (events (only_template [xe "for-each" [un "select" "x"] [Txt (t_ "text"); xe "sort" [] []]])) =
    Ok (its_sheet [CForEach (t_ "x") [Sorting (t_ ".") (t_ "text") (t_ "ascending") (t_ "upper-first")] [CText false (t_ "text")]]).
Proof. split; vm_compute; reflexivity. Qed.

(** * What is refused *)
(** Whatever compiles is made of elements that may stand where they do and have the attributes they
    need and no others, xsl:param and xsl:sort coming first, xsl:when before xsl:otherwise; the
    grammar says where it is more lenient than XSLT. *)
Theorem C65_refuses_partial : forall {scope X M N P : Type} (V : services (scope := scope) (X := X) (M := M) (N := N) (P := P)) g kids s,
  compile V (events (Elem g kids)) = Ok s -> stylesheet (Elem g kids).
Proof. exact @compile_fits. Qed.
Print Assumptions C65_refuses_partial.

(** xsl:sort after an instruction, xsl:when after xsl:otherwise, xsl:choose without xsl:when,
    xsl:param after text, an instruction at top level, an unknown attribute. *)
Example C65_refuses_case :
  stylesheet (only_template loop) /\
  map (fun kids => compile texts (events (only_template kids)))
    [[xe "for-each" [un "select" "x"] [xe "comment" [] []; xe "sort" [] []]];
     [xe "choose" [] [xe "when" [un "test" "x"] []; xe "otherwise" [] []; xe "when" [un "test" "y"] []]];
     [xe "choose" [] [xe "otherwise" [] []]];
     [Txt (t_ "text"); xe "param" [un "name" "x"] []];
     [xe "template" [un "match" "x"] []];
     [xe "if" [un "test" "x"; un "select" "y"] []]]
  = repeat Throws 6.
Proof.
  split; [|vm_compute; reflexivity]. apply (@compile_fits unit str str str str texts _ _ (its_sheet looped)).
  exact (proj2 (proj2 C65_example)).
Qed.

(** An element in xsl:namespace-alias is taken for another one, and what follows it for a child of
    the stylesheet. *)
Definition nested_alias : xml (scope := unit) :=
  root_ [xe "namespace-alias" [un "stylesheet-prefix" "a"; un "result-prefix" "b"]
           [le "x" [un "stylesheet-prefix" "b"; un "result-prefix" "a"] []; xe "template" [un "match" "/"] []]].
Theorem C65_nested_alias_refuted :
  (forall s, ~ says texts nested_alias s) /\ compile texts (events nested_alias) = Ok (its_sheet []).
Proof.
  split; [|vm_compute; reflexivity]. intros s H. inversion H as [g kids keep ds Hg On Hv K Hd|]; subst; [|not_this].
  inversion Hd as [|? d ? ? Ht]; subst. inversion Ht; subst; try not_this.
  match goal with Q : nothing _ _ |- _ => apply Forall_inv in Q as (? & Q & _); discriminate Q end.
Qed.
Print Assumptions C65_nested_alias_refuted.
