(** Which elements a stylesheet may have where, with which attributes: the element types of XSLT
    1.0's appendix B that this processor knows, where it is more lenient than that being said. *)
From Coq Require Import String.
From Verif.Model Require Import Base Attrs XSort XSheet.
From Verif.Spec Require Import XSheetSpec.
From Coq Require Import List.
Import ListNotations.
Open Scope Z_scope.

(** How far one is in the content of an element. *)
Inductive part :=
| Top                       (* of xsl:stylesheet *)
| Params                    (* of xsl:template, before everything but xsl:param *)
| Sorting_                  (* of xsl:for-each, before everything but xsl:sort and text *)
| Body                      (* of anything that holds instructions *)
| Selected                  (* of a variable that has a select attribute: instructions are taken, text is not *)
| Choosing (w o : bool)     (* of xsl:choose, after an xsl:when or not, after xsl:otherwise or not *)
| Passing                   (* of xsl:apply-templates *)
| Calling                   (* of xsl:call-template: text is taken *)
| Empty
| Words                     (* of xsl:text *)
| Aliasing                  (* of xsl:namespace-alias: elements are taken, see below *)
| Foreign.                  (* of a top-level element that is not XSLT's *)

Section Grammar.
  Context {scope : Type}.
  Notation tag := (tag (scope := scope)).
  Notation xml := (xml (scope := scope)).
  Definition needs (g : tag) (n : string) : Prop := exists a, In a (g_atts g) /\ a_qname a = ascii_str n /\ a_value a <> [].
  Definition allows (g : tag) (names : list string) : Prop :=
    forall a, In a (g_atts g) -> a_uri a = [] -> a_local a <> [] -> In (a_local a) (map ascii_str names).

  (** The instructions, and what part their content begins with. *)
  Inductive instr (g : tag) : part -> Prop :=
  | N_literal : g_uri g <> xslt -> instr g Body
  | N_imports : xsl g "apply-imports" -> g_atts g = [] -> instr g Empty
  | N_apply : xsl g "apply-templates" -> allows g ["select"; "mode"]%string -> instr g Passing
  | N_attribute : xsl g "attribute" -> allows g ["name"; "namespace"]%string -> needs g "name" -> instr g Body
  | N_call : xsl g "call-template" -> allows g ["name"]%string -> needs g "name" -> instr g Calling
  | N_choose : xsl g "choose" -> g_atts g = [] -> instr g (Choosing false false)
  | N_comment : xsl g "comment" -> g_atts g = [] -> instr g Body
  | N_copy : xsl g "copy" -> allows g ["use-attribute-sets"]%string -> instr g Body
  | N_copy_of : xsl g "copy-of" -> allows g ["select"]%string -> needs g "select" -> instr g Empty
  | N_element : xsl g "element" -> allows g ["name"; "namespace"; "use-attribute-sets"]%string -> needs g "name" -> instr g Body
  | N_for_each : xsl g "for-each" -> allows g ["select"]%string -> needs g "select" -> instr g Sorting_
  | N_if : xsl g "if" -> allows g ["test"]%string -> needs g "test" -> instr g Body
  | N_message : xsl g "message" -> allows g ["terminate"]%string -> instr g Body
  | N_pi : xsl g "processing-instruction" -> allows g ["name"]%string -> needs g "name" -> instr g Body
  | N_text : xsl g "text" -> allows g ["disable-output-escaping"]%string -> instr g Words
  | N_value_of : xsl g "value-of" -> allows g ["select"; "disable-output-escaping"]%string -> needs g "select" -> instr g Empty
  | N_variable : forall q, xsl g "variable" -> bound g q -> instr g q
  (** xsl:variable, xsl:param and xsl:with-param. *)
  with bound (g : tag) : part -> Prop :=
  | V_selected : allows g ["name"; "select"]%string -> needs g "name" -> needs g "select" -> bound g Selected
  | V_built : allows g ["name"; "select"]%string -> needs g "name" ->
      ~ needs g "select" \/ (exists a, In a (g_atts g) /\ a_qname a = ascii_str "select" /\ a_value a = []) -> bound g Body.
  Definition sort_tag (g : tag) : Prop := xsl g "sort" /\ allows g ["select"; "lang"; "data-type"; "order"; "case-order"]%string.

  (** [element p g q p']: at [p] there may be an element with the start tag [g], whose content begins
      with [q]; after it one is at [p']. *)
  Inductive element : part -> tag -> part -> part -> Prop :=
  | E_template : forall g, xsl g "template" -> allows g ["match"; "mode"; "name"; "priority"]%string ->
      (exists a, In a (g_atts g) /\ In (a_local a) (map ascii_str ["match"; "name"]%string) /\ a_value a <> []) -> element Top g Params Top
  | E_variable : forall g q, xsl g "variable" \/ xsl g "param" -> bound g q -> element Top g q Top
  | E_output : forall g, xsl g "output" -> allows g (map fst output_settings) -> element Top g Empty Top
  | E_key : forall g, xsl g "key" -> allows g ["name"; "match"; "use"]%string -> needs g "name" -> needs g "match" -> needs g "use" -> element Top g Empty Top
  | E_alias : forall g, xsl g "namespace-alias" -> allows g ["stylesheet-prefix"; "result-prefix"]%string ->
      needs g "stylesheet-prefix" -> needs g "result-prefix" -> element Top g Aliasing Top
  | E_foreign : forall g, g_uri g <> xslt -> g_uri g <> [] -> element Top g Foreign Top
  (** An element in xsl:namespace-alias is taken for another one, whatever its name, and what comes
      after it is taken for the stylesheet's. *)
  | E_aliases : forall g, allows g ["stylesheet-prefix"; "result-prefix"]%string ->
      needs g "stylesheet-prefix" -> needs g "result-prefix" -> element Aliasing g Aliasing Top
  | E_param : forall g q, xsl g "param" -> bound g q -> element Params g q Params
  | E_sort : forall g, sort_tag g -> element Sorting_ g Empty Sorting_
  | E_instr : forall p g q, In p [Params; Sorting_; Body] -> instr g q -> element p g q Body
  | E_in_variable : forall g q, instr g q -> element Selected g q Selected
  | E_when : forall g w, xsl g "when" -> allows g ["test"]%string -> needs g "test" -> element (Choosing w false) g Body (Choosing true false)
  | E_otherwise : forall g w, xsl g "otherwise" -> g_atts g = [] -> element (Choosing w false) g Body (Choosing w true)
  | E_sort_passing : forall g, sort_tag g -> element Passing g Empty Passing
  | E_with : forall p g q, In p [Passing; Calling] -> xsl g "with-param" -> bound g q -> element p g q p.
  Inductive text_ : part -> str -> part -> Prop :=
  | X_white : forall p s, white s -> text_ p s p
  | X_body : forall p s, In p [Params; Body] -> text_ p s Body
  | X_any : forall p s, In p [Sorting_; Calling; Words] -> text_ p s p.
  (** xsl:choose needs an xsl:when. *)
  Definition ends (p : part) : Prop := forall o, p <> Choosing false o.

  Inductive fits : part -> list xml -> part -> Prop :=
  | F_end : forall p, fits p [] p
  | F_foreign : forall kids, fits Foreign kids Foreign
  | F_text : forall p s p1 kids p2, text_ p s p1 -> fits p1 kids p2 -> fits p (Txt s :: kids) p2
  | F_element : forall p g q p1 sub q1 kids p2, element p g q p1 -> fits q sub q1 -> ends q1 -> fits p1 kids p2 -> fits p (Elem g sub :: kids) p2.

  Inductive stylesheet : xml -> Prop :=
  | Z_stylesheet : forall g kids, xsl g "stylesheet" \/ xsl g "transform" ->
      allows g ["version"; "extension-element-prefixes"; "exclude-result-prefixes"; "id"]%string ->
      (exists a, In a (g_atts g) /\ a_local a = ascii_str "version" /\ a_value a = ascii_str "1.0") ->
      fits Top kids Top -> stylesheet (Elem g kids)
  | Z_literal : forall g kids, g_uri g <> xslt ->
      (exists a, In a (g_atts g) /\ a_uri a = xslt /\ a_local a = ascii_str "version" /\ a_value a = ascii_str "1.0") ->
      fits Body kids Body -> stylesheet (Elem g kids).
End Grammar.
