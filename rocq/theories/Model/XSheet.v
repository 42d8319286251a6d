(** Compiling a stylesheet: the handlers of include/XSLT/impl/handler/ that take the SAX events of
    a stylesheet to templates, variables, keys and settings; include/XSLT/impl/
    xslt_stylesheet_compiler.hpp and xslt_compilation_context.hpp.

    The events are those that reach the handlers: text is coalesced (C20), and every start tag
    comes with what the NamespaceTracker holds then (C16).  Compiling XPath expressions, attribute
    value templates and patterns (C62, C63, C64), resolving names, and reading numbers are
    functions that the model is given.  One stylesheet document is compiled: what xsl:include and
    xsl:import bring in is left out, and its order is in Precedence.v. *)
From Coq Require Import String.
From Verif.Model Require Import Base Chars Containers Attrs XSort XOutput.
From Coq Require Import List.
Import ListNotations.
Open Scope Z_scope.

(** xslt_constants.hpp:117, 226. *)
Definition xslt_uri : str := ascii_str "http://www.w3.org/1999/XSL/Transform".
Definition xml_ns : str := ascii_str "http://www.w3.org/XML/1998/namespace".
Definition empty {A} (s : list A) : bool := match s with [] => true | _ => false end.
(** The loops over characters, for instance xslt_value_validation.hpp:299-306. *)
Definition blank (s : str) : bool := forallb is_space s.

(** * Attributes of XSLT elements *)
(** AttributeValidator, 67-119, with the name it is stored under. *)
Record rule := Rule { r_name : str; r_mandatory : bool; r_default : option str; r_allowed : list str }.
Definition must (s : string) : rule := Rule (ascii_str s) true None [].
Definition may (s : string) : rule := Rule (ascii_str s) false None [].
Definition usually (s d : string) : rule := Rule (ascii_str s) false (Some (ascii_str d)) [].
Definition one_of (s d : string) (l : list string) : rule := Rule (ascii_str s) false (Some (ascii_str d)) (map ascii_str l).
(** std::map: operator[] for reading, and for writing. *)
Definition lookup (m : list (str * str)) (k : str) : str := match mm_find k m with Some v => v | None => [] end.
Definition find_rule (rules : list rule) (n : str) : option rule := find (fun r => str_eqb (r_name r) n) rules.
(** AllowedValues::is_allowed, 36-41. *)
Definition allowed (l : list str) (v : str) : bool := empty l || existsb (str_eqb v) l.
(** The first loop of gather, 143-152. *)
Definition defaults (rules : list rule) : list (str * str) :=
  flat_map (fun r => match r_default r with Some d => [(r_name r, d)] | None => [] end) rules.
(** The second loop, 154-168; validateAttribute, 184-194; validateXmlAttribute, 174-180. *)
Fixpoint gather_all (rules : list rule) (atts : list attr) (results : list (str * str)) : option (list (str * str)) :=
  match atts with
  | [] => Some results
  | a :: atts =>
      if empty (a_local a) then gather_all rules atts results
      else let next := gather_all rules atts ((a_local a, a_value a) :: results) in
           if empty (a_uri a) then
             match find_rule rules (a_local a) with
             | None => None
             | Some r => if allowed (r_allowed r) (a_value a) then next else None
             end
           else if str_eqb (a_uri a) xml_ns && str_eqb (a_local a) (ascii_str "space") then
             if allowed [ascii_str "default"; ascii_str "preserve"] (a_value a) then next else None
           else next
  end.
(** gather, 136-171; None is a SAXException. *)
Definition gather (rules : list rule) (atts : list attr) : option (list (str * str)) :=
  if existsb (fun r => r_mandatory r && empty (value_of_q atts (r_name r))) rules then None
  else gather_all rules atts (defaults rules).
Definition yes (m : list (str * str)) (k : string) : bool := str_eqb (lookup m (ascii_str k)) (ascii_str "yes").

(** * What is compiled *)
Section Compiled.
  (** Namespace contexts, expressions (also attribute value templates), patterns, expanded names,
      and numbers. *)
  Context {scope X M N P : Type}.
  (** Items; Sort, xslt_sort.hpp; names are clarkNames, or raw names with a namespace. *)
  Record sorting := Sorting { so_select : X; so_type : X; so_order : X; so_case : X }.
  Inductive item :=
  | CText (disable : bool) (s : str)
  | CValueOf (disable : bool) (select : X)
  | CInline (name uri : str) (atts : list (str * str * X)) (body : list item)
  | CElement (name : X) (uri : list (str * str) + X) (body : list item)
  | CAttribute (name : X) (uri : list (str * str) + X) (body : list item)
  | CComment (body : list item)
  | CPi (name : X) (body : list item)
  | CIf (test : X) (body : list item)
  | CChoose (whens : list (X * list item)) (otherwise : option (list item))
  | CForEach (select : X) (sorts : list sorting) (body : list item)
  | CApply (select : option X) (mode : str) (sorts : list sorting) (params : list (str * option X * list item))
  | CImports
  | CCall (name : str) (params : list (str * option X * list item))
  | CCopy (sets : str) (body : list item)
  | CCopyOf (select : X)
  | CMessage (terminate : bool) (body : list item)
  | CVariable (name : str) (select : option X) (body : list item)
  | CParam (name : str) (select : option X) (body : list item).
  Record rule_ := Template { t_match : list M; t_name : str; t_mode : str; t_priority : option P; t_body : list item }.
  Record key := Key { k_name : str; k_match : list M; k_use : X }.
  (** CompiledStylesheet, as far as this stylesheet goes: all_templates_, topLevelVars_ (whether a
      parameter, with name and value), keys_, output_settings_ and output_cdata_elements_. *)
  Record sheet := Sheet {
    s_templates : list rule_;
    s_variables : list (bool * (str * option X * list item));
    s_keys : list key;
    s_output : option (list (str * str));
    s_cdata : list N }.
  (** What the handlers are given; None is an exception.  The first bool is current_allowed_, the
      other variables_allowed_, xslt_compilation_context.hpp:78-94. *)
  Record services := Services {
    x_expr : scope -> bool -> bool -> str -> option X;
    x_avt : scope -> bool -> str -> option X;
    x_match : scope -> bool -> str -> option (list M);
    (** processInternalQName and clarkName. *)
    x_name : scope -> str -> option str;
    (** extractCDATAElements, xslt_output_handler.hpp:63-84. *)
    x_cdata : scope -> str -> option (list N);
    (** lexical_cast of the normalized text, xslt_template.hpp:44. *)
    x_number : str -> option P;
    x_namespaces : scope -> list (str * str) }.

  (** * Handlers *)
  Inductive vkind := InBody | OfTemplate | Passed | TopVariable | TopParam.
  (** What a handler of a container has made, without its content. *)
  Inductive head :=
  | KTemplate (m : list M) (name mode : str) (priority : option P)
  | KInline (name uri : str) (atts : list (str * str * X))
  | KRoot (m : list M) (name uri : str) (atts : list (str * str * X))
  | KElement (name : X) (uri : list (str * str) + X)
  | KAttribute (name : X) (uri : list (str * str) + X)
  | KComment
  | KPi (name : X)
  | KIf (test : X)
  | KWhen (test : X)
  | KOtherwise
  | KForEach (select : X) (sorts : list sorting)
  | KCopy (sets : str)
  | KMessage (terminate : bool)
  | KVariable (k : vkind) (name : str) (select : option X).
  (** Handlers that have had their own startElement.  [done] is done_params_ or done_sort_, which
      only some containers have. *)
  Inductive handler :=
  | Box (h : head) (items : list item) (done : bool)
  | HValueOf (disable : bool) (select : X)
  | HText (disable : bool) (buffer : str)
  | HApply (select : option X) (mode : str) (sorts : list sorting) (params : list (str * option X * list item))
  | HCall (name : str) (params : list (str * option X * list item))
  | HImports
  | HCopyOf (select : X)
  | HChoose (whens : list (X * list item)) (otherwise : option (list item)) (seen_when seen_otherwise : bool)
  | HSort (s : sorting)
  | HKey (k : key)
  | HOutput (settings : list (str * str)) (cdata : list N)
  | HAlias
  | HForeign (depth : nat).
  (** The StylesheetHandler's top_, and the CompilationContext: handlerStack_ without the
      StylesheetHandler, the innermost first; namespaceRemap_, autoNs_ and current_allowed_.
      parentStack_ holds the containers of the handlers below: none or that of the handler that
      called push. *)
  Record compiler := Compiler {
    c_top : bool;
    c_stack : list handler;
    c_aliases : list (str * (str * str));
    c_auto : nat;
    c_current : bool;
    c_sheet : sheet }.
  (** [Broken] is the use of a null pointer or the wrong handler, [LeftOut] an include. *)
  Inductive res (A : Type) := Ok (a : A) | Throws | Broken | LeftOut.
  Arguments Ok {A} a.
  Arguments Throws {A}.
  Arguments Broken {A}.
  Arguments LeftOut {A}.
  Definition bind {A B} (r : res A) (k : A -> res B) : res B :=
    match r with Ok a => k a | Throws => Throws | Broken => Broken | LeftOut => LeftOut end.
  Definition need {A B} (o : option A) (k : A -> res B) : res B := match o with Some a => k a | None => Throws end.
  Definition refuse {B} (b : bool) (k : res B) : res B := if b then Throws else k.
  Definition with_stack (l : list handler) (c : compiler) : compiler := Compiler (c_top c) l (c_aliases c) (c_auto c) (c_current c) (c_sheet c).
  Definition with_sheet (s : sheet) (c : compiler) : compiler := Compiler (c_top c) (c_stack c) (c_aliases c) (c_auto c) (c_current c) s.
  (** ~Disallow, 249-256: true, whatever it was before. *)
  Definition current_again (c : compiler) : compiler := Compiler (c_top c) (c_stack c) (c_aliases c) (c_auto c) true (c_sheet c).
  Definition next_auto (c : compiler) : compiler := Compiler (c_top c) (c_stack c) (c_aliases c) (S (c_auto c)) (c_current c) (c_sheet c).

  Context (V : services).
  Definition expr (c : compiler) (sc : scope) (s : str) : option X := x_expr V sc (c_current c) true s.
  Definition avt (c : compiler) (sc : scope) (s : str) : option X := x_avt V sc (c_current c) s.
  (** A start tag. *)
  Record tag := Tag { g_scope : scope; g_uri : str; g_local : str; g_qname : str; g_atts : list attr }.

  Definition is_ (g : tag) (s : string) : bool := str_eqb (g_local g) (ascii_str s).

  (** An expression that need not be there: an empty one is not. *)
  Definition optional {A} (f : str -> option A) (s : str) : option (option A) :=
    match s with [] => Some None | _ => match f s with Some x => Some (Some x) | None => None end end.
  Definition or_empty (f : str -> option str) (s : str) : option str := match s with [] => Some [] | _ => f s end.

  (** xslt_element_handler.hpp:25-51; xslt_attribute_handler.hpp:25-42. *)
  Definition named_content (c : compiler) (g : tag) (rules : list rule) (sets : bool) (k : X -> list (str * str) + X -> head) : res (handler * compiler) :=
    need (gather rules (g_atts g)) (fun r =>
    need (avt c (g_scope g) (lookup r (ascii_str "name"))) (fun n =>
    refuse (sets && negb (empty (lookup r (ascii_str "use-attribute-sets"))))
    match lookup r (ascii_str "namespace") with
    | [] => Ok (Box (k n (inl (x_namespaces V (g_scope g)))) [] false, c)
    | u => need (avt c (g_scope g) u) (fun u => Ok (Box (k n (inr u)) [] false, c))
    end)).
  (** xslt_variable_handler.hpp:40-60. *)
  Definition variable (c : compiler) (g : tag) (k : vkind) : res (handler * compiler) :=
    need (gather [must "name"; may "select"] (g_atts g)) (fun r =>
    need (optional (expr c (g_scope g)) (value_of_q (g_atts g) (ascii_str "select"))) (fun e =>
    need (x_name V (g_scope g) (lookup r (ascii_str "name"))) (fun n => Ok (Box (KVariable k n e) [] false, c)))).
  (** xslt_sort_handler.hpp:25-58. *)
  Definition sort (c : compiler) (g : tag) : res (handler * compiler) :=
    need (gather [usually "select" "."; may "lang"; usually "data-type" "text"; usually "order" "ascending"; usually "case-order" "upper-first"] (g_atts g)) (fun r =>
    need (expr c (g_scope g) (lookup r (ascii_str "select"))) (fun e =>
    need (avt c (g_scope g) (lookup r (ascii_str "data-type"))) (fun d =>
    need (avt c (g_scope g) (lookup r (ascii_str "order"))) (fun o =>
    need (avt c (g_scope g) (lookup r (ascii_str "case-order"))) (fun k => Ok (HSort (Sorting e d o k), c)))))).
  (** makeName, xslt_inline_element_handler.hpp:63-69. *)
  Definition make_name (prefix local : str) : str := prefix ++ [58] ++ local.
  (** The loop of createContainer, 31-52. *)
  Fixpoint inline_atts (c : compiler) (sc : scope) (atts : list attr) : option (list (str * str * X) * compiler) :=
    match atts with
    | [] => Some ([], c)
    | a :: atts =>
        if str_eqb (firstn 6 (a_qname a)) (ascii_str "xmlns:") then inline_atts c sc atts
        else if str_eqb (a_uri a) xslt_uri then inline_atts c sc atts
        else
          let '(name, uri, c) :=
            match mm_find (a_uri a) (c_aliases c) with
            | None => (a_qname a, a_uri a, c)
            | Some (p, u) => if empty p && negb (empty u) then (make_name (auto_ns (c_auto c)) (a_local a), u, next_auto c)
                             else (make_name p (a_local a), u, c)
            end in
          match avt c sc (a_value a) with
          | None => None
          | Some x => match inline_atts c sc atts with
                      | Some (l, c) => Some ((name, uri, x) :: l, c)
                      | None => None
                      end
          end
    end.
  (** The rest of it, 54-60. *)
  Definition inline_name (c : compiler) (g : tag) : str * str :=
    match mm_find (g_uri g) (c_aliases c) with
    | None => (g_qname g, g_uri g)
    | Some (p, u) => (make_name p (g_local g), u)
    end.
  Definition inline (c : compiler) (g : tag) (k : str -> str -> list (str * str * X) -> head) : res (handler * compiler) :=
    need (inline_atts c (g_scope g) (g_atts g)) (fun '(l, c) => let '(n, u) := inline_name c g in Ok (Box (k n u l) [] false, c)).

  (** AllowedChildren, xslt_item_container_handler.hpp:138-160, each with its first startElement;
      None is an element that is not in the map. *)
  Definition instruction (c : compiler) (g : tag) : option (res (handler * compiler)) :=
    let sc := g_scope g in
    let atts := g_atts g in
    if is_ g "apply-imports" then
      Some (refuse (negb (empty atts)) (Ok (HImports, c)))
    else if is_ g "apply-templates" then
      (** xslt_apply_templates_handler.hpp:36-50. *)
      Some (need (gather [may "select"; may "mode"] atts) (fun r =>
            need (optional (expr c sc) (lookup r (ascii_str "select"))) (fun e =>
            need (or_empty (x_name V sc) (lookup r (ascii_str "mode"))) (fun m => Ok (HApply e m [] [], c)))))
    else if is_ g "attribute" then
      Some (named_content c g [must "name"; usually "namespace" ""] false KAttribute)
    else if is_ g "call-template" then
      (** xslt_call_template_handler.hpp:34-41. *)
      Some (need (gather [must "name"] atts) (fun r =>
            need (x_name V sc (lookup r (ascii_str "name"))) (fun n => Ok (HCall n [], c))))
    else if is_ g "choose" then
      Some (refuse (negb (empty atts)) (Ok (HChoose [] None false false, c)))
    else if is_ g "comment" then
      Some (refuse (negb (empty atts)) (Ok (Box KComment [] false, c)))
    else if is_ g "copy" then
      Some (need (gather [may "use-attribute-sets"] atts) (fun r => Ok (Box (KCopy (lookup r (ascii_str "use-attribute-sets"))) [] false, c)))
    else if is_ g "copy-of" then
      Some (need (gather [must "select"] atts) (fun r =>
            need (expr c sc (lookup r (ascii_str "select"))) (fun e => Ok (HCopyOf e, c))))
    else if is_ g "element" then
      Some (named_content c g [must "name"; usually "namespace" ""; may "use-attribute-sets"] true KElement)
    else if is_ g "fallback" then Some Throws
    else if is_ g "for-each" then
      Some (need (gather [must "select"] atts) (fun r =>
            need (expr c sc (lookup r (ascii_str "select"))) (fun e => Ok (Box (KForEach e []) [] false, c))))
    else if is_ g "if" then
      Some (need (gather [must "test"] atts) (fun r =>
            need (expr c sc (lookup r (ascii_str "test"))) (fun e => Ok (Box (KIf e) [] false, c))))
    else if is_ g "message" then
      Some (need (gather [one_of "terminate" "no" ["yes"; "no"]%string] atts) (fun r => Ok (Box (KMessage (yes r "terminate")) [] false, c)))
    else if is_ g "number" then Some Throws
    else if is_ g "processing-instruction" then
      Some (need (gather [must "name"] atts) (fun r =>
            need (avt c sc (lookup r (ascii_str "name"))) (fun n => Ok (Box (KPi n) [] false, c))))
    else if is_ g "text" then
      Some (need (gather [one_of "disable-output-escaping" "no" ["yes"; "no"]%string] atts) (fun r => Ok (HText (yes r "disable-output-escaping") [], c)))
    else if is_ g "value-of" then
      Some (need (gather [must "select"; one_of "disable-output-escaping" "no" ["yes"; "no"]%string] atts) (fun r =>
            need (expr c sc (lookup r (ascii_str "select"))) (fun e => Ok (HValueOf (yes r "disable-output-escaping") e, c))))
    else if is_ g "variable" then Some (variable c g InBody)
    else None.
  (** push: the handler made goes on the stack. *)
  Definition push (below : list handler) (r : res (handler * compiler)) : res compiler :=
    bind r (fun '(h, c) => Ok (with_stack (h :: below) c)).

  Definition given (g : tag) (s : string) : bool := match index_of_q (g_atts g) (ascii_str s) with Some _ => true | None => false end.
  (** xslt_template_handler.hpp:41-89; Template's constructor, xslt_template.hpp:33-49. *)
  Definition template (c : compiler) (g : tag) : res (handler * compiler) :=
    need (gather [may "match"; may "mode"; may "name"; may "priority"] (g_atts g)) (fun r =>
    let m := lookup r (ascii_str "match") in
    let name := lookup r (ascii_str "name") in
    let mode := lookup r (ascii_str "mode") in
    let priority := lookup r (ascii_str "priority") in
    refuse (empty m && empty name)
    (refuse (given g "mode" && (empty mode || empty m))
    (refuse (given g "priority" && empty priority)
    (need (or_empty (x_name V (g_scope g)) name) (fun name =>
     need (or_empty (x_name V (g_scope g)) mode) (fun mode =>
     if empty m then Ok (Box (KTemplate [] name mode None) [] false, c)
     else need (x_match V (g_scope g) true m) (fun ms =>
          need (optional (x_number V) priority) (fun p => Ok (Box (KTemplate ms name mode p) [] false, current_again c))))))))).
  (** xslt_key_handler.hpp:25-50. *)
  Definition key_element (c : compiler) (g : tag) : res (handler * compiler) :=
    need (gather [must "name"; must "match"; must "use"] (g_atts g)) (fun r =>
    need (x_name V (g_scope g) (lookup r (ascii_str "name"))) (fun n =>
    need (x_match V (g_scope g) false (lookup r (ascii_str "match"))) (fun ms =>
    need (x_expr V (g_scope g) true false (lookup r (ascii_str "use"))) (fun u => Ok (HKey (Key n ms u), current_again c))))).
  (** xslt_output_handler.hpp:21-46. *)
  Definition output_rules : list rule :=
    [one_of "method" "xml" ["xml"; "html"; "text"]%string; usually "version" "1.0"; usually "encoding" "UTF-8";
     one_of "omit-xml-declaration" "no" ["yes"; "no"]%string; one_of "standalone" "" ["yes"; "no"]%string;
     usually "doctype-public" ""; usually "doctype-system" ""; usually "cdata-section-elements" "";
     one_of "indent" "no" ["yes"; "no"]%string; usually "media-type" ""].
  Definition output (c : compiler) (g : tag) : res (handler * compiler) :=
    need (gather output_rules (g_atts g)) (fun r =>
    match lookup r (ascii_str "cdata-section-elements") with
    | [] => Ok (HOutput r [], c)
    | t => need (x_cdata V (g_scope g) t) (fun l => Ok (HOutput r l, c))
    end).
  (** xslt_namespace_alias_handler.hpp:26-58; addNamespaceAlias, xslt_compilation_context.hpp:155-160. *)
  Definition undefault (s : str) : str := if str_eqb s (ascii_str "#default") then [] else s.
  Definition alias (c : compiler) (g : tag) : res (handler * compiler) :=
    need (gather [must "stylesheet-prefix"; must "result-prefix"] (g_atts g)) (fun r =>
    let from := undefault (lookup r (ascii_str "stylesheet-prefix")) in
    let to := undefault (lookup r (ascii_str "result-prefix")) in
    let spaces := x_namespaces V (g_scope g) in
    let known p := empty p || match mm_find p spaces with Some _ => true | None => false end in
    refuse (negb (known from)) (refuse (negb (known to))
    (Ok (HAlias, Compiler (c_top c) (c_stack c) ((lookup spaces from, (to, lookup spaces to)) :: c_aliases c) (c_auto c) (c_current c) (c_sheet c))))).

  (** StylesheetHandler, xslt_stylesheet_compiler.hpp.  startElement, 49-70; startStylesheet, 90-107;
      startLREAsStylesheet, 109-143; startXSLTElement, 145-163; allowedChildren, 193-210. *)
  Definition root_version (atts : list attr) : str :=
    match find (fun a => str_eqb xslt_uri (a_uri a) && str_eqb (ascii_str "version") (a_local a)) atts with Some a => a_value a | None => [] end.
  Definition top_element (c : compiler) (g : tag) : res compiler :=
    if str_eqb (g_uri g) xslt_uri then
      if is_ g "import" || is_ g "include" then LeftOut
      else if is_ g "template" then push [] (template c g)
      else if is_ g "param" then push [] (variable c g TopParam)
      else if is_ g "variable" then push [] (variable c g TopVariable)
      else if is_ g "output" then push [] (output c g)
      else if is_ g "key" then push [] (key_element c g)
      else if is_ g "namespace-alias" then push [] (alias c g)
      (** attribute-set, decimal-format, preserve-space and strip-space are not implemented; the
          others are not allowed. *)
      else Throws
    else if empty (g_uri g) then Throws
    else Ok (with_stack [HForeign 1] c).
  Definition root_element (c : compiler) (g : tag) : res compiler :=
    let c := Compiler false (c_stack c) (c_aliases c) (c_auto c) (c_current c) (c_sheet c) in
    if str_eqb (g_uri g) xslt_uri then
      refuse (negb (is_ g "stylesheet" || is_ g "transform"))
      (need (gather [must "version"; may "extension-element-prefixes"; may "exclude-result-prefixes"; may "id"] (g_atts g)) (fun r =>
       refuse (negb (str_eqb (lookup r (ascii_str "version")) (ascii_str "1.0")))
       (refuse (negb (empty (lookup r (ascii_str "extension-element-prefixes")))) (Ok c))))
    else
      refuse (negb (str_eqb (root_version (g_atts g)) (ascii_str "1.0")))
      (need (x_match V (g_scope g) true (ascii_str "/")) (fun ms => push [] (inline (current_again c) g (KRoot ms)))).

  (** startElement of the handler on top.  ItemContainerHandler, xslt_item_container_handler.hpp:47-62, 83-106;
      createChild of templates and for-each, xslt_template_handler.hpp:91-115, xslt_for_each_handler.hpp:39-62. *)
  Definition box_start (c : compiler) (h : head) (items : list item) (done : bool) (below : list handler) (g : tag) : res compiler :=
    let stack := Box h items true :: below in
    if str_eqb (g_uri g) xslt_uri then
      match h with
      | KTemplate _ _ _ _ => if is_ g "param" then refuse done (push (Box h items done :: below) (variable c g OfTemplate))
                             else match instruction c g with Some r => push stack r | None => Throws end
      | KForEach _ _ => if is_ g "sort" then refuse done (push (Box h items done :: below) (sort c g))
                        else match instruction c g with Some r => push stack r | None => Throws end
      | _ => match instruction c g with Some r => push stack r | None => Throws end
      end
    else push stack (inline c g KInline).
  Definition start_element (c : compiler) (g : tag) : res compiler :=
    let xslt := str_eqb (g_uri g) xslt_uri in
    match c_stack c with
    | [] => if c_top c then root_element c g else top_element c g
    | Box h items done :: below => box_start c h items done below g
    (** xslt_apply_templates_handler.hpp:55-80. *)
    | HApply e m ss ps :: below =>
        if xslt && is_ g "sort" then push (c_stack c) (sort c g)
        else if xslt && is_ g "with-param" then push (c_stack c) (variable c g Passed)
        else Throws
    (** xslt_call_template_handler.hpp:45-55. *)
    | HCall n ps :: below => if xslt && is_ g "with-param" then push (c_stack c) (variable c g Passed) else Throws
    (** xslt_choose_handler.hpp:117-148; 30-39, 67-76. *)
    | HChoose ws o sw so :: below =>
        if xslt && is_ g "when" then
          refuse so (push (HChoose ws o true so :: below)
            (need (gather [must "test"] (g_atts g)) (fun r =>
             need (expr c (g_scope g) (lookup r (ascii_str "test"))) (fun e => Ok (Box (KWhen e) [] false, c)))))
        else if xslt && is_ g "otherwise" then
          refuse so (push (HChoose ws o sw true :: below) (refuse (negb (empty (g_atts g))) (Ok (Box KOtherwise [] false, c))))
        else Throws
    (** done_ is never set, xslt_namespace_alias_handler.hpp:31. *)
    | HAlias :: below => push below (alias c g)
    | HForeign n :: below => Ok (with_stack (HForeign (S n) :: below) c)
    | (HValueOf _ _ | HText _ _ | HImports | HCopyOf _ | HSort _ | HKey _ | HOutput _ _) :: _ => Throws
    end.

  (** * The ends of elements *)
  (** parentContainer().add_item *)
  Definition add_item (i : item) (below : list handler) (c : compiler) : res compiler :=
    match below with
    | Box h items done :: r => Ok (with_stack (Box h (items ++ [i]) done :: r) c)
    | _ => Broken
    end.
  (** add_template, xslt_compiled_stylesheet.hpp:121-151, all templates having one precedence. *)
  Definition add_template (t : rule_) (below : list handler) (c : compiler) : res compiler :=
    let s := c_sheet c in
    refuse (negb (empty (t_name t)) && existsb (fun u => str_eqb (t_name u) (t_name t)) (s_templates s))
    (Ok (with_stack below (with_sheet (Sheet (s_templates s ++ [t]) (s_variables s) (s_keys s) (s_output s) (s_cdata s)) c))).
  Definition add_variable (param : bool) (v : str * option X * list item) (below : list handler) (c : compiler) : res compiler :=
    let s := c_sheet c in
    Ok (with_stack below (with_sheet (Sheet (s_templates s) (s_variables s ++ [(param, v)]) (s_keys s) (s_output s) (s_cdata s)) c)).
  (** endElement of containers. *)
  Definition box_end (c : compiler) (h : head) (items : list item) (below : list handler) : res compiler :=
    match h with
    | KTemplate ms n m p => add_template (Template ms n m p items) below c
    | KRoot ms n u atts => add_template (Template ms [] [] None [CInline n u atts items]) below c
    | KInline n u atts => add_item (CInline n u atts items) below c
    | KElement n u => add_item (CElement n u items) below c
    | KAttribute n u => add_item (CAttribute n u items) below c
    | KComment => add_item (CComment items) below c
    | KPi n => add_item (CPi n items) below c
    | KIf e => add_item (CIf e items) below c
    | KForEach e ss => add_item (CForEach e ss items) below c
    | KCopy s => add_item (CCopy s items) below c
    | KMessage t => add_item (CMessage t items) below c
    | KVariable InBody n e => add_item (CVariable n e items) below c
    | KVariable OfTemplate n e => add_item (CParam n e items) below c
    | KVariable TopVariable n e => add_variable false (n, e, items) below c
    | KVariable TopParam n e => add_variable true (n, e, items) below c
    (** xslt_with_param_handler.hpp:24-30. *)
    | KVariable Passed n e =>
        match below with
        | HApply x m ss ps :: r => Ok (with_stack (HApply x m ss (ps ++ [(n, e, items)]) :: r) c)
        | HCall x ps :: r => Ok (with_stack (HCall x (ps ++ [(n, e, items)]) :: r) c)
        | _ => Broken
        end
    (** xslt_choose_handler.hpp:41-47, 78-84. *)
    | KWhen e => match below with HChoose ws o sw so :: r => Ok (with_stack (HChoose (ws ++ [(e, items)]) o sw so :: r) c) | _ => Broken end
    | KOtherwise => match below with HChoose ws o sw so :: r => Ok (with_stack (HChoose ws (Some items) sw so :: r) c) | _ => Broken end
    end.
  Definition end_element (c : compiler) : res compiler :=
    match c_stack c with
    | [] => Ok c
    | Box h items _ :: below => box_end c h items below
    | HValueOf d e :: below => add_item (CValueOf d e) below c
    | HText d s :: below => add_item (CText d s) below c
    | HApply e m ss ps :: below => add_item (CApply e m ss ps) below c
    | HCall n ps :: below => add_item (CCall n ps) below c
    | HImports :: below => add_item CImports below c
    | HCopyOf e :: below => add_item (CCopyOf e) below c
    (** xslt_choose_handler.hpp:151-159. *)
    | HChoose ws o sw _ :: below => refuse (negb sw) (add_item (CChoose ws o) below c)
    (** sortee_.add_sort, xslt_sort_handler.hpp:60-66. *)
    | HSort s :: below =>
        match below with
        | HApply x m ss ps :: r => Ok (with_stack (HApply x m (ss ++ [s]) ps :: r) c)
        | Box (KForEach e ss) items done :: r => Ok (with_stack (Box (KForEach e (ss ++ [s])) items done :: r) c)
        | _ => Broken
        end
    | HKey k :: below =>
        let s := c_sheet c in
        Ok (with_stack below (with_sheet (Sheet (s_templates s) (s_variables s) (s_keys s ++ [k]) (s_output s) (s_cdata s)) c))
    (** output_settings, xslt_compiled_stylesheet.hpp:164-169. *)
    | HOutput m l :: below =>
        let s := c_sheet c in
        Ok (with_stack below (with_sheet (Sheet (s_templates s) (s_variables s) (s_keys s) (Some m) (s_cdata s ++ l)) c))
    | HAlias :: below => Ok (with_stack below c)
    | HForeign n :: below => Ok (with_stack match n with S (S n) => HForeign (S n) :: below | _ => below end c)
    end.

  (** * Text *)
  (** ItemContainerHandler, xslt_item_container_handler.hpp:72-80; templates, xslt_template_handler.hpp:25-38;
      variables, xslt_variable_handler.hpp:62-71. *)
  Definition characters (c : compiler) (s : str) : res compiler :=
    match c_stack c with
    | Box h items done :: below =>
        if blank s then Ok c
        else match h with
             | KVariable _ _ (Some _) => Throws
             | _ => Ok (with_stack (Box h (items ++ [CText false s]) (match h with KTemplate _ _ _ _ => true | _ => done end) :: below) c)
             end
    | HText d b :: below => Ok (with_stack (HText d (b ++ s) :: below) c)
    | (HCall _ _ | HForeign _) :: _ => Ok c
    (** verifyNoCharacterData *)
    | _ => refuse (negb (blank s)) (Ok c)
    end.

  (** * A document *)
  Inductive event := Start (g : tag) | End | Characters (s : str).
  Definition step (c : compiler) (e : event) : res compiler :=
    match e with
    | Start g => start_element c g
    | End => end_element c
    | Characters s => characters c s
    end.
  Fixpoint run (c : compiler) (l : list event) : res compiler :=
    match l with [] => Ok c | e :: l => bind (step c e) (fun c => run c l) end.
  (** The constructors, xslt_compilation_context.hpp:44-57, and startDocument. *)
  Definition no_sheet : sheet := Sheet [] [] [] None [].
  Definition start_compiler : compiler := Compiler true [] [] 1 false no_sheet.
  Definition compile (l : list event) : res sheet := bind (run start_compiler l) (fun c => Ok (c_sheet c)).
End Compiled.
Arguments Ok {A} a.
Arguments Throws {A}.
Arguments Broken {A}.
Arguments LeftOut {A}.
