(** What a stylesheet document says, by XSLT 1.0: sections 2 (structure, literal result elements as
    stylesheets, 2.3, embedding aside), 3.4 (white space), 5 to 13 (the elements), 16 (output). *)
From Coq Require Import String.
From Verif.Model Require Import Base Attrs XSort XSheet.
From Coq Require Import List.
Import ListNotations.
Open Scope Z_scope.

Definition xslt : str := ascii_str "http://www.w3.org/1999/XSL/Transform".
Definition xml_namespace : str := ascii_str "http://www.w3.org/XML/1998/namespace".
Definition white (s : str) : Prop := Forall (fun c => c = 32 \/ c = 9 \/ c = 10 \/ c = 13) s.

Section Stylesheets.
  Context {scope X M N P : Type} (V : services (scope := scope) (X := X) (M := M) (N := N) (P := P)).
  Notation tag := (tag (scope := scope)).
  Notation item := (item (X := X)).
  Notation sorting := (sorting (X := X)).
  (** A document as a tree, and the events that a parser reports for it. *)
  Inductive xml := Elem (g : tag) (kids : list xml) | Txt (s : str).
  Fixpoint events (t : xml) : list event :=
    match t with
    | Elem g kids => Start g :: flat_map events kids ++ [End]
    | Txt s => [Characters s]
    end.

  (** * Attributes: those in no namespace *)
  Definition has (g : tag) (n : string) (v : str) : Prop :=
    exists a, In a (g_atts g) /\ a_uri a = [] /\ a_local a = ascii_str n /\ a_value a = v.
  Definition lacks (g : tag) (n : string) : Prop := forall a, In a (g_atts g) -> a_uri a = [] -> a_local a <> ascii_str n.
  (** Others in no namespace are errors; those in other namespaces are ignored, 2.1. *)
  Definition only (g : tag) (names : list string) : Prop :=
    forall a, In a (g_atts g) -> a_uri a = [] -> In (a_local a) (map ascii_str names).
  Definition xsl (g : tag) (n : string) : Prop := g_uri g = xslt /\ g_local g = ascii_str n.
  Definition expression (g : tag) (n : string) (x : X) : Prop :=
    exists t, has g n t /\ t <> [] /\ x_expr V (g_scope g) true true t = Some x.
  Definition maybe_expression (g : tag) (n : string) (o : option X) : Prop :=
    match o with Some x => expression g n x | None => lacks g n end.
  Definition value_template (g : tag) (n : string) (x : X) : Prop :=
    exists t, has g n t /\ t <> [] /\ x_avt V (g_scope g) true t = Some x.
  Definition default_template (g : tag) (n d : string) (x : X) : Prop :=
    (exists t, has g n t /\ x_avt V (g_scope g) true t = Some x) \/
    (lacks g n /\ x_avt V (g_scope g) true (ascii_str d) = Some x).
  Definition name_ (g : tag) (n : string) (s : str) : Prop :=
    exists t, has g n t /\ t <> [] /\ x_name V (g_scope g) t = Some s.
  Definition maybe_name (g : tag) (n : string) (s : str) : Prop := name_ g n s \/ (lacks g n /\ s = []).
  Definition yes_no (g : tag) (n : string) (b : bool) : Prop :=
    (has g n (ascii_str "yes") /\ b = true) \/ ((has g n (ascii_str "no") \/ lacks g n) /\ b = false).
  (** The namespace of what xsl:element and xsl:attribute make: given, or by the prefix, 7.1.2, 7.1.3. *)
  Definition space_of (g : tag) (u : list (str * str) + X) : Prop :=
    match u with
    | inl l => lacks g "namespace" /\ l = x_namespaces V (g_scope g)
    | inr x => exists t, has g "namespace" t /\ x_avt V (g_scope g) true t = Some x
    end.

  (** * White space, 3.4: whether white space is kept in an element *)
  Definition spaced (g : tag) (v : str) : Prop :=
    exists a, In a (g_atts g) /\ a_uri a = xml_namespace /\ a_local a = ascii_str "space" /\ a_value a = v.
  Definition keeps (keep : bool) (g : tag) (keep' : bool) : Prop :=
    (spaced g (ascii_str "preserve") /\ keep' = true) \/
    (spaced g (ascii_str "default") /\ keep' = false) \/
    ((forall v, ~ spaced g v) /\ keep' = keep).
  Definition stripped (keep : bool) (t : xml) : Prop := exists s, t = Txt s /\ white s /\ keep = false.
  Definition nothing (keep : bool) (kids : list xml) : Prop := Forall (stripped keep) kids.

  (** * xsl:sort, 10 *)
  Definition sort_of (keep : bool) (t : xml) (s : sorting) : Prop :=
    exists g kids keep', t = Elem g kids /\ xsl g "sort" /\ only g ["select"; "lang"; "data-type"; "order"; "case-order"]%string /\
      (expression g "select" (so_select s) \/ (lacks g "select" /\ x_expr V (g_scope g) true true (ascii_str ".") = Some (so_select s))) /\
      default_template g "data-type" "text" (so_type s) /\ default_template g "order" "ascending" (so_order s) /\
      default_template g "case-order" "upper-first" (so_case s) /\ keeps keep g keep' /\ nothing keep' kids.
  Inductive sorts (keep : bool) : list xml -> list sorting -> Prop :=
  | S_nil : sorts keep [] []
  | S_blank : forall t kids ss, stripped keep t -> sorts keep kids ss -> sorts keep (t :: kids) ss
  | S_sort : forall t kids s ss, sort_of keep t s -> sorts keep kids ss -> sorts keep (t :: kids) (s :: ss).

  (** * Literal result elements, 7.1.1; [A] are the aliases: a namespace of the stylesheet, with the
      prefix and the namespace that it has in the result *)
  Context (A : list (str * (str * str))).
  Definition literal_name (g : tag) (name uri : str) : Prop :=
    (~ In (g_uri g) (map fst A) /\ name = g_qname g /\ uri = g_uri g) \/
    (exists p, In (g_uri g, (p, uri)) A /\ name = match p with [] => g_local g | _ => p ++ [58] ++ g_local g end).
  (** An attribute without a prefix is in no namespace. *)
  Definition literal_attribute (sc : scope) (a : attr) (r : str * str * X) : Prop :=
    let '(name, uri, x) := r in
    x_avt V sc true (a_value a) = Some x /\
    (((a_uri a = [] \/ ~ In (a_uri a) (map fst A)) /\ name = a_qname a /\ uri = a_uri a) \/
     (a_uri a <> [] /\ exists p q, In (a_uri a, (p, uri)) A /\ q <> [] /\ (p <> [] -> q = p) /\ name = q ++ [58] ++ a_local a)).
  (** Those in XSLT's namespace are not copied. *)
  Inductive literal_attributes (sc : scope) : list attr -> list (str * str * X) -> Prop :=
  | A_nil : literal_attributes sc [] []
  | A_xslt : forall a l r, a_uri a = xslt -> literal_attributes sc l r -> literal_attributes sc (a :: l) r
  | A_copied : forall a x l r, a_uri a <> xslt -> literal_attribute sc a x -> literal_attributes sc l r -> literal_attributes sc (a :: l) (x :: r).

  (** * Templates' content: what instructions it is *)
  Inductive body : bool -> list xml -> list item -> Prop :=
  | B_nil : forall keep, body keep [] []
  | B_blank : forall keep t kids l, stripped keep t -> body keep kids l -> body keep (t :: kids) l
  | B_text : forall keep s kids l, keep = true \/ ~ white s -> body keep kids l -> body keep (Txt s :: kids) (CText false s :: l)
  | B_item : forall keep e i kids l, instruct keep e i -> body keep kids l -> body keep (e :: kids) (i :: l)
  with instruct : bool -> xml -> item -> Prop :=
  | I_literal : forall keep keep' g kids name uri atts l, g_uri g <> xslt -> literal_name g name uri ->
      literal_attributes (g_scope g) (g_atts g) atts -> keeps keep g keep' -> body keep' kids l ->
      instruct keep (Elem g kids) (CInline name uri atts l)
  | I_value_of : forall keep keep' g kids d x, xsl g "value-of" -> only g ["select"; "disable-output-escaping"]%string ->
      expression g "select" x -> yes_no g "disable-output-escaping" d -> keeps keep g keep' -> nothing keep' kids ->
      instruct keep (Elem g kids) (CValueOf d x)
  | I_text : forall keep g texts d, xsl g "text" -> only g ["disable-output-escaping"]%string -> yes_no g "disable-output-escaping" d ->
      instruct keep (Elem g (map Txt texts)) (CText d (concat texts))
  | I_element : forall keep keep' g kids x u l, xsl g "element" -> only g ["name"; "namespace"]%string -> value_template g "name" x ->
      space_of g u -> keeps keep g keep' -> body keep' kids l -> instruct keep (Elem g kids) (CElement x u l)
  | I_attribute : forall keep keep' g kids x u l, xsl g "attribute" -> only g ["name"; "namespace"]%string -> value_template g "name" x ->
      space_of g u -> keeps keep g keep' -> body keep' kids l -> instruct keep (Elem g kids) (CAttribute x u l)
  | I_comment : forall keep keep' g kids l, xsl g "comment" -> only g [] -> keeps keep g keep' -> body keep' kids l ->
      instruct keep (Elem g kids) (CComment l)
  | I_pi : forall keep keep' g kids x l, xsl g "processing-instruction" -> only g ["name"]%string -> value_template g "name" x ->
      keeps keep g keep' -> body keep' kids l -> instruct keep (Elem g kids) (CPi x l)
  | I_if : forall keep keep' g kids x l, xsl g "if" -> only g ["test"]%string -> expression g "test" x ->
      keeps keep g keep' -> body keep' kids l -> instruct keep (Elem g kids) (CIf x l)
  | I_choose : forall keep keep' g kids ws o, xsl g "choose" -> only g [] -> keeps keep g keep' -> cases keep' kids ws o -> ws <> [] ->
      instruct keep (Elem g kids) (CChoose ws o)
  | I_for_each : forall keep keep' g first kids x ss l, xsl g "for-each" -> only g ["select"]%string -> expression g "select" x ->
      keeps keep g keep' -> sorts keep' first ss -> body keep' kids l -> instruct keep (Elem g (first ++ kids)) (CForEach x ss l)
  | I_apply : forall keep keep' g kids x m ss ps, xsl g "apply-templates" -> only g ["select"; "mode"]%string ->
      maybe_expression g "select" x -> maybe_name g "mode" m -> keeps keep g keep' -> passed keep' kids ss ps ->
      instruct keep (Elem g kids) (CApply x m ss ps)
  | I_imports : forall keep keep' g kids, xsl g "apply-imports" -> only g [] -> keeps keep g keep' -> nothing keep' kids ->
      instruct keep (Elem g kids) CImports
  | I_call : forall keep keep' g kids n ps, xsl g "call-template" -> only g ["name"]%string -> name_ g "name" n ->
      keeps keep g keep' -> passed keep' kids [] ps -> instruct keep (Elem g kids) (CCall n ps)
  | I_copy : forall keep keep' g kids l, xsl g "copy" -> only g [] -> keeps keep g keep' -> body keep' kids l ->
      instruct keep (Elem g kids) (CCopy [] l)
  | I_copy_of : forall keep keep' g kids x, xsl g "copy-of" -> only g ["select"]%string -> expression g "select" x ->
      keeps keep g keep' -> nothing keep' kids -> instruct keep (Elem g kids) (CCopyOf x)
  | I_message : forall keep keep' g kids b l, xsl g "message" -> only g ["terminate"]%string -> yes_no g "terminate" b ->
      keeps keep g keep' -> body keep' kids l -> instruct keep (Elem g kids) (CMessage b l)
  | I_variable : forall keep g kids n x l, xsl g "variable" -> only g ["name"; "select"]%string -> name_ g "name" n ->
      binding keep g kids x l -> instruct keep (Elem g kids) (CVariable n x l)
  (** xsl:with-param and xsl:sort in any order, 5.4, 11.6. *)
  with passed : bool -> list xml -> list sorting -> list (str * option X * list item) -> Prop :=
  | P_nil : forall keep, passed keep [] [] []
  | P_blank : forall keep t kids ss ps, stripped keep t -> passed keep kids ss ps -> passed keep (t :: kids) ss ps
  | P_sort : forall keep t kids s ss ps, sort_of keep t s -> passed keep kids ss ps -> passed keep (t :: kids) (s :: ss) ps
  | P_param : forall keep g sub kids n x l ss ps, xsl g "with-param" -> only g ["name"; "select"]%string -> name_ g "name" n ->
      binding keep g sub x l -> passed keep kids ss ps -> passed keep (Elem g sub :: kids) ss ((n, x, l) :: ps)
  (** xsl:when and xsl:otherwise, 9.2. *)
  with cases : bool -> list xml -> list (X * list item) -> option (list item) -> Prop :=
  | C_nil : forall keep, cases keep [] [] None
  | C_blank : forall keep t kids ws o, stripped keep t -> cases keep kids ws o -> cases keep (t :: kids) ws o
  | C_when : forall keep keep' g sub kids x l ws o, xsl g "when" -> only g ["test"]%string -> expression g "test" x ->
      keeps keep g keep' -> body keep' sub l -> cases keep kids ws o -> cases keep (Elem g sub :: kids) ((x, l) :: ws) o
  | C_otherwise : forall keep keep' g sub kids l, xsl g "otherwise" -> only g [] -> keeps keep g keep' -> body keep' sub l ->
      nothing keep kids -> cases keep (Elem g sub :: kids) [] (Some l)
  (** The value of a variable or parameter: an expression, or content, 11.2. *)
  with binding : bool -> tag -> list xml -> option X -> list item -> Prop :=
  | V_select : forall keep keep' g kids x, expression g "select" x -> keeps keep g keep' -> nothing keep' kids -> binding keep g kids (Some x) []
  | V_content : forall keep keep' g kids l, lacks g "select" -> keeps keep g keep' -> body keep' kids l -> binding keep g kids None l.
  (** xsl:param elements come first in a template, 11.6. *)
  Inductive params (keep : bool) : list xml -> list item -> Prop :=
  | M_nil : params keep [] []
  | M_blank : forall t kids l, stripped keep t -> params keep kids l -> params keep (t :: kids) l
  | M_param : forall g sub kids n x v l, xsl g "param" -> only g ["name"; "select"]%string -> name_ g "name" n ->
      binding keep g sub x v -> params keep kids l -> params keep (Elem g sub :: kids) (CParam n x v :: l).

  (** * Top-level elements *)
  Inductive declaration :=
  | DNone
  | DTemplate (t : rule_ (X := X) (M := M) (P := P))
  | DVariable (param : bool) (v : str * option X * list item)
  | DKey (k : key (X := X) (M := M))
  | DOutput (settings : list (str * str)) (cdata : list N)
  | DAlias (from : str) (prefix uri : str).
  (** The attributes of xsl:output with what they are if not given, 16. *)
  Definition setting (g : tag) (m : list (str * str)) (n d : string) : Prop :=
    has g n (lookup m (ascii_str n)) \/ (lacks g n /\ lookup m (ascii_str n) = ascii_str d).
  Definition one (g : tag) (n : string) (l : list string) : Prop := forall v, has g n v -> In v (map ascii_str l).
  Definition output_settings : list (string * string) :=
    [("method", "xml"); ("version", "1.0"); ("encoding", "UTF-8"); ("omit-xml-declaration", "no"); ("standalone", "");
     ("doctype-public", ""); ("doctype-system", ""); ("cdata-section-elements", ""); ("indent", "no"); ("media-type", "")]%string.
  (** The namespace a prefix stands for: #default for the default one, 7.1.1. *)
  Definition alias_prefix (g : tag) (n : string) (p u : str) : Prop :=
    (has g n (ascii_str "#default") /\ p = [] /\ u = match Containers.mm_find [] (x_namespaces V (g_scope g)) with Some u => u | None => [] end) \/
    (has g n p /\ p <> [] /\ p <> ascii_str "#default" /\ Containers.mm_find p (x_namespaces V (g_scope g)) = Some u).
  Definition matched (g : tag) (ms : list M) (p : option P) : Prop :=
    (exists t, has g "match" t /\ t <> [] /\ x_match V (g_scope g) true t = Some ms) /\
    match p with
    | Some r => exists t, has g "priority" t /\ t <> [] /\ x_number V t = Some r
    | None => lacks g "priority"
    end.
  Inductive declares : bool -> xml -> declaration -> Prop :=
  | D_blank : forall keep t, stripped keep t -> declares keep t DNone
  | D_foreign : forall keep g kids, g_uri g <> xslt -> g_uri g <> [] -> declares keep (Elem g kids) DNone
  | D_template : forall keep keep' g first kids ms n m p l l', xsl g "template" -> only g ["match"; "mode"; "name"; "priority"]%string ->
      maybe_name g "name" n -> maybe_name g "mode" m ->
      matched g ms p \/ (lacks g "match" /\ lacks g "mode" /\ lacks g "priority" /\ ms = [] /\ p = None /\ exists t, has g "name" t) ->
      keeps keep g keep' -> params keep' first l -> body keep' kids l' ->
      declares keep (Elem g (first ++ kids)) (DTemplate (Template ms n m p (l ++ l')))
  | D_variable : forall keep g kids n x l, xsl g "variable" -> only g ["name"; "select"]%string -> name_ g "name" n ->
      binding keep g kids x l -> declares keep (Elem g kids) (DVariable false (n, x, l))
  | D_param : forall keep g kids n x l, xsl g "param" -> only g ["name"; "select"]%string -> name_ g "name" n ->
      binding keep g kids x l -> declares keep (Elem g kids) (DVariable true (n, x, l))
  | D_key : forall keep keep' g kids n t ms u x, xsl g "key" -> only g ["name"; "match"; "use"]%string -> name_ g "name" n ->
      has g "match" t -> t <> [] -> x_match V (g_scope g) false t = Some ms ->
      has g "use" u -> u <> [] -> x_expr V (g_scope g) true false u = Some x ->
      keeps keep g keep' -> nothing keep' kids -> declares keep (Elem g kids) (DKey (Key n ms x))
  | D_output : forall keep keep' g kids m l, xsl g "output" -> only g (map fst output_settings) ->
      Forall (fun '(n, d) => setting g m n d) output_settings ->
      one g "method" ["xml"; "html"; "text"]%string -> one g "omit-xml-declaration" ["yes"; "no"]%string ->
      one g "standalone" ["yes"; "no"]%string -> one g "indent" ["yes"; "no"]%string ->
      (lookup m (ascii_str "cdata-section-elements") = [] /\ l = []) \/
      (lookup m (ascii_str "cdata-section-elements") <> [] /\ x_cdata V (g_scope g) (lookup m (ascii_str "cdata-section-elements")) = Some l) ->
      keeps keep g keep' -> nothing keep' kids -> declares keep (Elem g kids) (DOutput m l)
  | D_alias : forall keep keep' g kids p u q w, xsl g "namespace-alias" -> only g ["stylesheet-prefix"; "result-prefix"]%string ->
      alias_prefix g "stylesheet-prefix" p u -> alias_prefix g "result-prefix" q w ->
      keeps keep g keep' -> nothing keep' kids -> declares keep (Elem g kids) (DAlias u q w).
  Definition templates (ds : list declaration) : list rule_ := flat_map (fun d => match d with DTemplate t => [t] | _ => [] end) ds.
  Definition variables (ds : list declaration) : list (bool * (str * option X * list item)) := flat_map (fun d => match d with DVariable b v => [(b, v)] | _ => [] end) ds.
  Definition keys (ds : list declaration) : list key := flat_map (fun d => match d with DKey k => [k] | _ => [] end) ds.
  Definition outputs (ds : list declaration) : list (list (str * str) * list N) := flat_map (fun d => match d with DOutput m l => [(m, l)] | _ => [] end) ds.
  Definition aliases (ds : list declaration) : list (str * (str * str)) := flat_map (fun d => match d with DAlias u p w => [(u, (p, w))] | _ => [] end) ds.
  Definition named (l : list (rule_ (X := X) (M := M) (P := P))) : list str := filter (fun n => negb (empty n)) (map t_name l).
End Stylesheets.

Section Sheets.
  Context {scope X M N P : Type} (V : services (scope := scope) (X := X) (M := M) (N := N) (P := P)).
  (** The stylesheet that a document is.  No template has the name of another, 6; no namespace has
      two aliases, 7.1.1; several xsl:output elements are not covered. *)
  Inductive says : xml -> sheet (X := X) (M := M) (N := N) (P := P) -> Prop :=
  | Y_stylesheet : forall g kids keep ds, xsl g "stylesheet" \/ xsl g "transform" ->
      only g ["version"; "exclude-result-prefixes"; "id"]%string -> has g "version" (ascii_str "1.0") -> keeps false g keep ->
      Forall2 (declares V (aliases ds) keep) kids ds ->
      NoDup (named (templates ds)) -> NoDup (map fst (aliases ds)) -> (length (outputs ds) <= 1)%nat ->
      says (Elem g kids) (Sheet (templates ds) (variables ds) (keys ds) (option_map fst (hd_error (outputs ds))) (flat_map snd (outputs ds)))
  (** 2.3. *)
  | Y_literal : forall g kids keep ms name uri atts l, g_uri g <> xslt ->
      (exists a, In a (g_atts g) /\ a_uri a = xslt /\ a_local a = ascii_str "version" /\ a_value a = ascii_str "1.0") ->
      x_match V (g_scope g) true (ascii_str "/") = Some ms ->
      literal_name [] g name uri -> literal_attributes V [] (g_scope g) (g_atts g) atts -> keeps false g keep -> body V [] keep kids l ->
      says (Elem g kids) (Sheet [Template ms [] [] None [CInline name uri atts l]] [] [] None []).
  (** The same stylesheet: the settings are the same, whatever the order they are stored in. *)
  Definition alike (s t : sheet (X := X) (M := M) (N := N) (P := P)) : Prop :=
    s_templates s = s_templates t /\ s_variables s = s_variables t /\ s_keys s = s_keys t /\ s_cdata s = s_cdata t /\
    match s_output s, s_output t with
    | None, None => True
    | Some m, Some n => Forall (fun p : string * string => lookup m (ascii_str (fst p)) = lookup n (ascii_str (fst p))) output_settings
    | _, _ => False
    end.

  (** * Where the code agrees *)
  Definition vocabulary : list string :=
    ["select"; "disable-output-escaping"; "name"; "namespace"; "test"; "mode"; "terminate"; "data-type"; "order"; "case-order"; "match";
     "priority"; "use"; "version"; "extension-element-prefixes"; "use-attribute-sets"; "stylesheet-prefix"; "result-prefix"; "method";
     "encoding"; "omit-xml-declaration"; "standalone"; "doctype-public"; "doctype-system"; "cdata-section-elements"; "indent"; "media-type"]%string.
  (** Attributes as a parser that does not report namespace declarations gives them: each with a
      name of its own, and with a prefix just if it is in a namespace; xml:space is not preserve. *)
  Definition reported (a : attr) : Prop :=
    a_local a <> [] /\ firstn 6 (a_qname a) <> ascii_str "xmlns:" /\
    (a_uri a = [] -> a_qname a = a_local a) /\ (a_uri a <> [] -> In 58 (a_qname a)).
  Definition ordinary_tag (g : tag (scope := scope)) : Prop :=
    NoDup (map (fun a => (a_uri a, a_local a)) (g_atts g)) /\ Forall reported (g_atts g) /\
    (forall v, spaced g v -> v = ascii_str "default") /\
    (g_uri g = xslt ->
       (** no attribute in another namespace has a local name that XSLT uses; *)
       (forall a, In a (g_atts g) -> a_uri a <> [] -> ~ In (a_local a) (map ascii_str vocabulary)) /\
       (** some elements have none at all; *)
       (In (g_local g) (map ascii_str ["choose"; "otherwise"; "comment"; "apply-imports"]%string) -> g_atts g = []) /\
       (** namespaces that are given are not empty. *)
       ~ has g "namespace" []).
  Fixpoint ordinary (t : xml (scope := scope)) : Prop :=
    match t with
    | Txt _ => True
    | Elem g kids => ordinary_tag g /\ (fix all (l : list xml) : Prop := match l with [] => True | t :: l => ordinary t /\ all l end) kids
    end.
  (** Aliases come before everything that they may concern, they are for namespaces, and have a
      prefix in the result. *)
  Definition is_xsl (t : xml (scope := scope)) (l : list string) : Prop :=
    match t with Elem g _ => g_uri g = xslt /\ In (g_local g) (map ascii_str l) | Txt _ => False end.
  Definition aliases_first (kids : list (xml (scope := scope))) : Prop :=
    exists l r, kids = l ++ r /\ Forall (fun t => ~ is_xsl t ["template"; "variable"; "param"]%string) l /\ Forall (fun t => ~ is_xsl t ["namespace-alias"]%string) r.
  Definition proper_aliases (kids : list (xml (scope := scope))) : Prop :=
    forall g sub p u q w, In (Elem g sub) kids -> xsl g "namespace-alias" -> alias_prefix V g "stylesheet-prefix" p u -> alias_prefix V g "result-prefix" q w -> u <> [] /\ q <> [].
  (** Expressions that come before the first pattern of the stylesheet do not call current(). *)
  Definition no_current : Prop :=
    (forall sc b s, x_expr V sc false b s = x_expr V sc true b s) /\ (forall sc s, x_avt V sc false s = x_avt V sc true s).
  Definition patterns_first (kids : list (xml (scope := scope))) : Prop :=
    exists l r, kids = l ++ r /\ Forall (fun t => ~ is_xsl t ["template"; "variable"; "param"]%string) l /\
      match r with
      | [] => True
      | t :: _ => is_xsl t ["template"]%string /\ match t with Elem g _ => ~ lacks g "match" | Txt _ => False end
      end.
  Definition agreed (t : xml (scope := scope)) : Prop :=
    ordinary t /\
    match t with
    | Txt _ => False
    | Elem g kids => g_uri g = xslt -> aliases_first kids /\ proper_aliases kids /\ (no_current \/ patterns_first kids)
    end.
End Sheets.
