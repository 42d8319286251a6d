(** The HTML schema: include/Taggle/impl/html/HTMLSchema.hpp, with the constants of
    HTMLModels.hpp:20-41 and src/taggle/Schema.cpp:5-12.  Generated from these files.  The masks
    are given by their bits, and are sums here since the bits of a mask are different ones. *)
From Coq Require Import String.
From Verif.Model Require Import Base XSort.
From Coq Require Import List.
Import ListNotations.
Open Scope Z_scope.

Definition M_ANY := 4294967295.
Definition M_EMPTY := 0.
Definition M_PCDATA := 1073741824.
Definition M_ROOT := 2147483648.
Definition F_RESTART := 1.
Definition F_CDATA := 2.
Definition F_NOFORCE := 4.
Definition M_AREA := 2.
Definition M_BLOCK := 4.
Definition M_BLOCKINLINE := 8.
Definition M_BODY := 16.
Definition M_CELL := 32.
Definition M_COL := 64.
Definition M_DEF := 128.
Definition M_FORM := 256.
Definition M_FRAME := 512.
Definition M_HEAD := 1024.
Definition M_HTML := 2048.
Definition M_INLINE := 4096.
Definition M_LEGEND := 8192.
Definition M_LI := 16384.
Definition M_NOLINK := 32768.
Definition M_OPTION := 65536.
Definition M_OPTIONS := 131072.
Definition M_P := 262144.
Definition M_PARAM := 524288.
Definition M_TABLE := 1048576.
Definition M_TABULAR := 2097152.
Definition M_TR := 4194304.

(** elementTypes, HTMLSchema.hpp:51-158: the name, the model, what it is a member of, the flags. *)
Definition html_types : list (string * Z * Z * Z) :=
  [
   ("<pcdata>"%string, M_EMPTY, M_PCDATA, 0);
   ("<root>"%string, M_ROOT, M_EMPTY, 0);
   ("a"%string, M_PCDATA + M_NOLINK + M_BLOCK, M_INLINE, 0);
   ("abbr"%string, M_PCDATA + M_INLINE, M_INLINE + M_NOLINK, F_RESTART);
   ("acronym"%string, M_PCDATA + M_INLINE, M_INLINE + M_NOLINK, F_RESTART);
   ("address"%string, M_PCDATA + M_INLINE + M_P, M_BLOCK, 0);
   ("applet"%string, M_PCDATA + M_PARAM + M_INLINE + M_BLOCK, M_INLINE + M_NOLINK, 0);
   ("area"%string, M_EMPTY, M_AREA, 0);
   ("b"%string, M_PCDATA + M_INLINE, M_INLINE + M_NOLINK, F_RESTART);
   ("base"%string, M_EMPTY, M_HEAD, 0);
   ("basefont"%string, M_EMPTY, M_INLINE + M_NOLINK, 0);
   ("bdo"%string, M_PCDATA + M_INLINE, M_INLINE + M_NOLINK, F_RESTART);
   ("bgsound"%string, M_EMPTY, M_HEAD, 0);
   ("big"%string, M_PCDATA + M_INLINE, M_INLINE + M_NOLINK, F_RESTART);
   ("blink"%string, M_PCDATA + M_INLINE, M_INLINE + M_NOLINK, F_RESTART);
   ("blockquote"%string, M_PCDATA + M_INLINE + M_BLOCK, M_BLOCK, 0);
   ("body"%string, M_PCDATA + M_INLINE + M_BLOCK, M_HTML + M_BODY, 0);
   ("br"%string, M_EMPTY, M_INLINE + M_NOLINK, 0);
   ("button"%string, M_PCDATA + M_INLINE + M_BLOCK, M_INLINE + M_NOLINK, 0);
   ("canvas"%string, M_PCDATA + M_INLINE, M_INLINE + M_NOLINK, 0);
   ("caption"%string, M_PCDATA + M_INLINE, M_TABULAR, 0);
   ("center"%string, M_PCDATA + M_INLINE + M_BLOCK, M_BLOCK, 0);
   ("cite"%string, M_PCDATA + M_INLINE, M_INLINE + M_NOLINK, F_RESTART);
   ("code"%string, M_PCDATA + M_INLINE, M_INLINE + M_NOLINK, F_RESTART);
   ("col"%string, M_EMPTY, M_COL + M_TABULAR, 0);
   ("colgroup"%string, M_COL, M_TABULAR, 0);
   ("comment"%string, M_PCDATA + M_INLINE, M_INLINE + M_NOLINK, 0);
   ("dd"%string, M_PCDATA + M_INLINE + M_BLOCK, M_DEF, 0);
   ("del"%string, M_PCDATA + M_INLINE + M_BLOCK, M_INLINE + M_BLOCKINLINE + M_BLOCK, F_RESTART);
   ("dfn"%string, M_PCDATA + M_INLINE, M_INLINE + M_NOLINK, F_RESTART);
   ("dir"%string, M_LI, M_BLOCK, 0);
   ("div"%string, M_PCDATA + M_INLINE + M_BLOCK, M_BLOCK, 0);
   ("dl"%string, M_DEF, M_BLOCK, 0);
   ("dt"%string, M_PCDATA + M_INLINE, M_DEF, 0);
   ("em"%string, M_PCDATA + M_INLINE, M_INLINE + M_NOLINK, F_RESTART);
   ("fieldset"%string, M_PCDATA + M_LEGEND + M_INLINE + M_BLOCK, M_BLOCK, 0);
   ("font"%string, M_PCDATA + M_INLINE, M_INLINE + M_NOLINK, 0);
   ("form"%string, M_PCDATA + M_INLINE + M_NOLINK + M_BLOCK + M_TR + M_CELL, M_BLOCK + M_FORM, F_NOFORCE);
   ("frame"%string, M_EMPTY, M_FRAME, 0);
   ("frameset"%string, M_FRAME, M_FRAME + M_HTML, 0);
   ("h1"%string, M_PCDATA + M_INLINE, M_BLOCK, 0);
   ("h2"%string, M_PCDATA + M_INLINE, M_BLOCK, 0);
   ("h3"%string, M_PCDATA + M_INLINE, M_BLOCK, 0);
   ("h4"%string, M_PCDATA + M_INLINE, M_BLOCK, 0);
   ("h5"%string, M_PCDATA + M_INLINE, M_BLOCK, 0);
   ("h6"%string, M_PCDATA + M_INLINE, M_BLOCK, 0);
   ("head"%string, M_HEAD, M_HTML, 0);
   ("hr"%string, M_EMPTY, M_BLOCK, 0);
   ("html"%string, M_HTML, M_ROOT, 0);
   ("i"%string, M_PCDATA + M_INLINE, M_INLINE + M_NOLINK, F_RESTART);
   ("iframe"%string, M_PCDATA + M_INLINE + M_BLOCK, M_INLINE + M_NOLINK, 0);
   ("img"%string, M_EMPTY, M_INLINE + M_NOLINK, 0);
   ("input"%string, M_EMPTY, M_INLINE + M_NOLINK, 0);
   ("ins"%string, M_PCDATA + M_INLINE + M_BLOCK, M_INLINE + M_BLOCK, F_RESTART);
   ("isindex"%string, M_EMPTY, M_HEAD, 0);
   ("kbd"%string, M_PCDATA + M_INLINE, M_INLINE + M_NOLINK, F_RESTART);
   ("label"%string, M_PCDATA + M_INLINE, M_INLINE + M_NOLINK, 0);
   ("legend"%string, M_PCDATA + M_INLINE, M_LEGEND, 0);
   ("li"%string, M_PCDATA + M_INLINE + M_BLOCK, M_LI, 0);
   ("link"%string, M_EMPTY, M_HEAD + M_INLINE, 0);
   ("listing"%string, M_PCDATA + M_INLINE, M_BLOCK, 0);
   ("map"%string, M_BLOCK + M_AREA, M_INLINE, 0);
   ("marquee"%string, M_PCDATA + M_INLINE, M_INLINE + M_NOLINK, 0);
   ("menu"%string, M_LI, M_BLOCK, 0);
   ("meta"%string, M_EMPTY, M_HEAD, 0);
   ("nobr"%string, M_PCDATA + M_INLINE, M_INLINE + M_NOLINK, 0);
   ("noframes"%string, M_BODY + M_BLOCK + M_INLINE, M_BLOCK + M_HTML + M_FRAME, 0);
   ("noscript"%string, M_PCDATA + M_INLINE + M_BLOCK, M_BLOCK, 0);
   ("object"%string, M_PCDATA + M_PARAM + M_INLINE + M_BLOCK, M_HEAD + M_INLINE + M_NOLINK, 0);
   ("ol"%string, M_LI, M_BLOCK, 0);
   ("optgroup"%string, M_OPTIONS, M_OPTIONS, 0);
   ("option"%string, M_PCDATA, M_OPTION + M_OPTIONS, 0);
   ("p"%string, M_PCDATA + M_INLINE + M_TABLE, M_BLOCK + M_P, 0);
   ("param"%string, M_EMPTY, M_PARAM, 0);
   ("pre"%string, M_PCDATA + M_INLINE, M_BLOCK, 0);
   ("q"%string, M_PCDATA + M_INLINE, M_INLINE + M_NOLINK, F_RESTART);
   ("rb"%string, M_PCDATA + M_INLINE, M_INLINE + M_NOLINK, F_RESTART);
   ("rbc"%string, M_PCDATA + M_INLINE, M_INLINE + M_NOLINK, F_RESTART);
   ("rp"%string, M_PCDATA + M_INLINE, M_INLINE + M_NOLINK, F_RESTART);
   ("rt"%string, M_PCDATA + M_INLINE, M_INLINE + M_NOLINK, F_RESTART);
   ("rtc"%string, M_PCDATA + M_INLINE, M_INLINE + M_NOLINK, F_RESTART);
   ("ruby"%string, M_PCDATA + M_INLINE, M_INLINE + M_NOLINK, F_RESTART);
   ("s"%string, M_PCDATA + M_INLINE, M_INLINE + M_NOLINK, F_RESTART);
   ("samp"%string, M_PCDATA + M_INLINE, M_INLINE + M_NOLINK, F_RESTART);
   ("script"%string, M_PCDATA, M_ANY - M_ROOT, F_CDATA);
   ("select"%string, M_OPTIONS, M_INLINE, 0);
   ("small"%string, M_PCDATA + M_INLINE, M_INLINE + M_NOLINK, F_RESTART);
   ("span"%string, M_PCDATA + M_INLINE, M_INLINE + M_NOLINK, 0);
   ("strike"%string, M_PCDATA + M_INLINE, M_INLINE + M_NOLINK, F_RESTART);
   ("strong"%string, M_PCDATA + M_INLINE, M_INLINE + M_NOLINK, F_RESTART);
   ("style"%string, M_PCDATA, M_HEAD + M_INLINE, F_CDATA);
   ("sub"%string, M_PCDATA + M_INLINE, M_INLINE + M_NOLINK, F_RESTART);
   ("sup"%string, M_PCDATA + M_INLINE, M_INLINE + M_NOLINK, F_RESTART);
   ("table"%string, M_FORM + M_TABULAR, M_BLOCK + M_TABLE, F_NOFORCE);
   ("tbody"%string, M_TR, M_TABULAR, 0);
   ("td"%string, M_PCDATA + M_INLINE + M_BLOCK, M_CELL, 0);
   ("textarea"%string, M_PCDATA, M_INLINE, 0);
   ("tfoot"%string, M_TR + M_FORM + M_CELL, M_TABULAR, 0);
   ("th"%string, M_PCDATA + M_INLINE + M_BLOCK, M_CELL, 0);
   ("thead"%string, M_TR + M_FORM + M_CELL, M_TABULAR, 0);
   ("title"%string, M_PCDATA, M_HEAD, 0);
   ("tr"%string, M_FORM + M_CELL, M_TR + M_TABULAR, 0);
   ("tt"%string, M_PCDATA + M_INLINE, M_INLINE + M_NOLINK, F_RESTART);
   ("u"%string, M_PCDATA + M_INLINE, M_INLINE + M_NOLINK, F_RESTART);
   ("ul"%string, M_LI, M_BLOCK, 0);
   ("var"%string, M_PCDATA + M_INLINE, M_INLINE + M_NOLINK, 0);
   ("wbr"%string, M_EMPTY, M_INLINE + M_NOLINK, 0);
   ("xmp"%string, M_PCDATA + M_INLINE, M_BLOCK, 0)
  ].
(** parents, 163-269. *)
Definition html_parents : list (string * string) :=
  [
   ("<pcdata>", "body");
   ("html", "<root>");
   ("a", "body");
   ("abbr", "body");
   ("acronym", "body");
   ("address", "body");
   ("applet", "body");
   ("area", "map");
   ("b", "body");
   ("base", "head");
   ("basefont", "body");
   ("bdo", "body");
   ("bgsound", "head");
   ("big", "body");
   ("blink", "body");
   ("blockquote", "body");
   ("body", "html");
   ("br", "body");
   ("button", "form");
   ("canvas", "body");
   ("caption", "table");
   ("center", "body");
   ("cite", "body");
   ("code", "body");
   ("col", "table");
   ("colgroup", "table");
   ("comment", "body");
   ("dd", "dl");
   ("del", "body");
   ("dfn", "body");
   ("dir", "body");
   ("div", "body");
   ("dl", "body");
   ("dt", "dl");
   ("em", "body");
   ("fieldset", "form");
   ("font", "body");
   ("form", "body");
   ("frame", "frameset");
   ("frameset", "html");
   ("h1", "body");
   ("h2", "body");
   ("h3", "body");
   ("h4", "body");
   ("h5", "body");
   ("h6", "body");
   ("head", "html");
   ("hr", "body");
   ("i", "body");
   ("iframe", "body");
   ("img", "body");
   ("input", "form");
   ("ins", "body");
   ("isindex", "head");
   ("kbd", "body");
   ("label", "form");
   ("legend", "fieldset");
   ("li", "ul");
   ("link", "head");
   ("listing", "body");
   ("map", "body");
   ("marquee", "body");
   ("menu", "body");
   ("meta", "head");
   ("nobr", "body");
   ("noframes", "html");
   ("noscript", "body");
   ("object", "body");
   ("ol", "body");
   ("optgroup", "select");
   ("option", "select");
   ("p", "body");
   ("param", "object");
   ("pre", "body");
   ("q", "body");
   ("rb", "body");
   ("rbc", "body");
   ("rp", "body");
   ("rt", "body");
   ("rtc", "body");
   ("ruby", "body");
   ("s", "body");
   ("samp", "body");
   ("script", "html");
   ("select", "form");
   ("small", "body");
   ("span", "body");
   ("strike", "body");
   ("strong", "body");
   ("style", "head");
   ("sub", "body");
   ("sup", "body");
   ("table", "body");
   ("tbody", "table");
   ("td", "tr");
   ("textarea", "form");
   ("tfoot", "table");
   ("th", "tr");
   ("thead", "table");
   ("title", "head");
   ("tr", "tbody");
   ("tt", "body");
   ("u", "body");
   ("ul", "body");
   ("var", "body");
   ("wbr", "body");
   ("xmp", "body")
  ]%string.
(** attributes, 283-828: the element, the name, the type, the value. *)
Definition html_attributes : list (string * string * string * string) :=
  [
   ("a", "hreflang", "NMTOKEN", "");
   ("a", "shape", "CDATA", "rect");
   ("a", "tabindex", "NMTOKEN", "");
   ("applet", "align", "NMTOKEN", "");
   ("area", "nohref", "BOOLEAN", "");
   ("area", "shape", "CDATA", "rect");
   ("area", "tabindex", "NMTOKEN", "");
   ("br", "clear", "CDATA", "none");
   ("button", "disabled", "BOOLEAN", "");
   ("button", "tabindex", "NMTOKEN", "");
   ("button", "type", "CDATA", "submit");
   ("caption", "align", "NMTOKEN", "");
   ("col", "align", "NMTOKEN", "");
   ("col", "span", "CDATA", "1");
   ("col", "valign", "NMTOKEN", "");
   ("colgroup", "align", "NMTOKEN", "");
   ("colgroup", "span", "CDATA", "1");
   ("colgroup", "valign", "NMTOKEN", "");
   ("dir", "compact", "BOOLEAN", "");
   ("div", "align", "NMTOKEN", "");
   ("dl", "compact", "BOOLEAN", "");
   ("form", "enctype", "CDATA", "application/x-www-form-urlencoded");
   ("form", "method", "CDATA", "get");
   ("frame", "frameborder", "CDATA", "1");
   ("frame", "noresize", "BOOLEAN", "");
   ("frame", "scrolling", "CDATA", "auto");
   ("h1", "align", "NMTOKEN", "");
   ("h2", "align", "NMTOKEN", "");
   ("h3", "align", "NMTOKEN", "");
   ("h4", "align", "NMTOKEN", "");
   ("h5", "align", "NMTOKEN", "");
   ("h6", "align", "NMTOKEN", "");
   ("hr", "align", "NMTOKEN", "");
   ("hr", "noshade", "BOOLEAN", "");
   ("iframe", "align", "NMTOKEN", "");
   ("iframe", "frameborder", "CDATA", "1");
   ("iframe", "scrolling", "CDATA", "auto");
   ("img", "align", "NMTOKEN", "");
   ("img", "ismap", "BOOLEAN", "");
   ("input", "align", "NMTOKEN", "");
   ("input", "checked", "BOOLEAN", "");
   ("input", "disabled", "BOOLEAN", "");
   ("input", "ismap", "BOOLEAN", "");
   ("input", "maxlength", "NMTOKEN", "");
   ("input", "readonly", "BOOLEAN", "");
   ("input", "tabindex", "NMTOKEN", "");
   ("input", "type", "CDATA", "text");
   ("label", "for", "IDREF", "");
   ("legend", "align", "NMTOKEN", "");
   ("li", "value", "NMTOKEN", "");
   ("link", "hreflang", "NMTOKEN", "");
   ("marquee", "width", "NMTOKEN", "");
   ("menu", "compact", "BOOLEAN", "");
   ("meta", "http-equiv", "NMTOKEN", "");
   ("meta", "name", "NMTOKEN", "");
   ("object", "align", "NMTOKEN", "");
   ("object", "declare", "BOOLEAN", "");
   ("object", "tabindex", "NMTOKEN", "");
   ("ol", "compact", "BOOLEAN", "");
   ("ol", "start", "NMTOKEN", "");
   ("optgroup", "disabled", "BOOLEAN", "");
   ("option", "disabled", "BOOLEAN", "");
   ("option", "selected", "BOOLEAN", "");
   ("p", "align", "NMTOKEN", "");
   ("param", "valuetype", "CDATA", "data");
   ("pre", "width", "NMTOKEN", "");
   ("rt", "rbspan", "CDATA", "1");
   ("script", "defer", "BOOLEAN", "");
   ("select", "disabled", "BOOLEAN", "");
   ("select", "multiple", "BOOLEAN", "");
   ("select", "size", "NMTOKEN", "");
   ("select", "tabindex", "NMTOKEN", "");
   ("table", "align", "NMTOKEN", "");
   ("table", "frame", "NMTOKEN", "");
   ("table", "rules", "NMTOKEN", "");
   ("tbody", "align", "NMTOKEN", "");
   ("tbody", "valign", "NMTOKEN", "");
   ("td", "align", "NMTOKEN", "");
   ("td", "colspan", "CDATA", "1");
   ("td", "headers", "IDREFS", "");
   ("td", "nowrap", "BOOLEAN", "");
   ("td", "rowspan", "CDATA", "1");
   ("td", "scope", "NMTOKEN", "");
   ("td", "valign", "NMTOKEN", "");
   ("textarea", "cols", "NMTOKEN", "");
   ("textarea", "disabled", "BOOLEAN", "");
   ("textarea", "readonly", "BOOLEAN", "");
   ("textarea", "rows", "NMTOKEN", "");
   ("textarea", "tabindex", "NMTOKEN", "");
   ("tfoot", "align", "NMTOKEN", "");
   ("tfoot", "valign", "NMTOKEN", "");
   ("th", "align", "NMTOKEN", "");
   ("th", "colspan", "CDATA", "1");
   ("th", "headers", "IDREFS", "");
   ("th", "nowrap", "BOOLEAN", "");
   ("th", "rowspan", "CDATA", "1");
   ("th", "scope", "NMTOKEN", "");
   ("th", "valign", "NMTOKEN", "");
   ("thead", "align", "NMTOKEN", "");
   ("thead", "valign", "NMTOKEN", "");
   ("tr", "align", "NMTOKEN", "");
   ("tr", "valign", "NMTOKEN", "");
   ("ul", "compact", "BOOLEAN", "");
   ("ul", "type", "NMTOKEN", "");
   ("xmp", "width", "NMTOKEN", "");
   ("a", "class", "NMTOKEN", "");
   ("abbr", "class", "NMTOKEN", "");
   ("acronym", "class", "NMTOKEN", "");
   ("address", "class", "NMTOKEN", "");
   ("applet", "class", "NMTOKEN", "");
   ("area", "class", "NMTOKEN", "");
   ("b", "class", "NMTOKEN", "");
   ("base", "class", "NMTOKEN", "");
   ("basefont", "class", "NMTOKEN", "");
   ("bdo", "class", "NMTOKEN", "");
   ("bgsound", "class", "NMTOKEN", "");
   ("big", "class", "NMTOKEN", "");
   ("blink", "class", "NMTOKEN", "");
   ("blockquote", "class", "NMTOKEN", "");
   ("body", "class", "NMTOKEN", "");
   ("br", "class", "NMTOKEN", "");
   ("button", "class", "NMTOKEN", "");
   ("canvas", "class", "NMTOKEN", "");
   ("caption", "class", "NMTOKEN", "");
   ("center", "class", "NMTOKEN", "");
   ("cite", "class", "NMTOKEN", "");
   ("code", "class", "NMTOKEN", "");
   ("col", "class", "NMTOKEN", "");
   ("colgroup", "class", "NMTOKEN", "");
   ("comment", "class", "NMTOKEN", "");
   ("dd", "class", "NMTOKEN", "");
   ("del", "class", "NMTOKEN", "");
   ("dfn", "class", "NMTOKEN", "");
   ("dir", "class", "NMTOKEN", "");
   ("div", "class", "NMTOKEN", "");
   ("dl", "class", "NMTOKEN", "");
   ("dt", "class", "NMTOKEN", "");
   ("em", "class", "NMTOKEN", "");
   ("fieldset", "class", "NMTOKEN", "");
   ("font", "class", "NMTOKEN", "");
   ("form", "class", "NMTOKEN", "");
   ("frame", "class", "NMTOKEN", "");
   ("frameset", "class", "NMTOKEN", "");
   ("h1", "class", "NMTOKEN", "");
   ("h2", "class", "NMTOKEN", "");
   ("h3", "class", "NMTOKEN", "");
   ("h4", "class", "NMTOKEN", "");
   ("h5", "class", "NMTOKEN", "");
   ("h6", "class", "NMTOKEN", "");
   ("head", "class", "NMTOKEN", "");
   ("hr", "class", "NMTOKEN", "");
   ("html", "class", "NMTOKEN", "");
   ("i", "class", "NMTOKEN", "");
   ("iframe", "class", "NMTOKEN", "");
   ("img", "class", "NMTOKEN", "");
   ("input", "class", "NMTOKEN", "");
   ("ins", "class", "NMTOKEN", "");
   ("isindex", "class", "NMTOKEN", "");
   ("kbd", "class", "NMTOKEN", "");
   ("label", "class", "NMTOKEN", "");
   ("legend", "class", "NMTOKEN", "");
   ("li", "class", "NMTOKEN", "");
   ("link", "class", "NMTOKEN", "");
   ("listing", "class", "NMTOKEN", "");
   ("map", "class", "NMTOKEN", "");
   ("marquee", "class", "NMTOKEN", "");
   ("menu", "class", "NMTOKEN", "");
   ("meta", "class", "NMTOKEN", "");
   ("nobr", "class", "NMTOKEN", "");
   ("noframes", "class", "NMTOKEN", "");
   ("noscript", "class", "NMTOKEN", "");
   ("object", "class", "NMTOKEN", "");
   ("ol", "class", "NMTOKEN", "");
   ("optgroup", "class", "NMTOKEN", "");
   ("option", "class", "NMTOKEN", "");
   ("p", "class", "NMTOKEN", "");
   ("param", "class", "NMTOKEN", "");
   ("pre", "class", "NMTOKEN", "");
   ("q", "class", "NMTOKEN", "");
   ("rb", "class", "NMTOKEN", "");
   ("rbc", "class", "NMTOKEN", "");
   ("rp", "class", "NMTOKEN", "");
   ("rt", "class", "NMTOKEN", "");
   ("rtc", "class", "NMTOKEN", "");
   ("ruby", "class", "NMTOKEN", "");
   ("s", "class", "NMTOKEN", "");
   ("samp", "class", "NMTOKEN", "");
   ("script", "class", "NMTOKEN", "");
   ("select", "class", "NMTOKEN", "");
   ("small", "class", "NMTOKEN", "");
   ("span", "class", "NMTOKEN", "");
   ("strike", "class", "NMTOKEN", "");
   ("strong", "class", "NMTOKEN", "");
   ("style", "class", "NMTOKEN", "");
   ("sub", "class", "NMTOKEN", "");
   ("sup", "class", "NMTOKEN", "");
   ("table", "class", "NMTOKEN", "");
   ("tbody", "class", "NMTOKEN", "");
   ("td", "class", "NMTOKEN", "");
   ("textarea", "class", "NMTOKEN", "");
   ("tfoot", "class", "NMTOKEN", "");
   ("th", "class", "NMTOKEN", "");
   ("thead", "class", "NMTOKEN", "");
   ("title", "class", "NMTOKEN", "");
   ("tr", "class", "NMTOKEN", "");
   ("tt", "class", "NMTOKEN", "");
   ("u", "class", "NMTOKEN", "");
   ("ul", "class", "NMTOKEN", "");
   ("var", "class", "NMTOKEN", "");
   ("wbr", "class", "NMTOKEN", "");
   ("xmp", "class", "NMTOKEN", "");
   ("a", "dir", "NMTOKEN", "");
   ("abbr", "dir", "NMTOKEN", "");
   ("acronym", "dir", "NMTOKEN", "");
   ("address", "dir", "NMTOKEN", "");
   ("applet", "dir", "NMTOKEN", "");
   ("area", "dir", "NMTOKEN", "");
   ("b", "dir", "NMTOKEN", "");
   ("base", "dir", "NMTOKEN", "");
   ("basefont", "dir", "NMTOKEN", "");
   ("bdo", "dir", "NMTOKEN", "");
   ("bgsound", "dir", "NMTOKEN", "");
   ("big", "dir", "NMTOKEN", "");
   ("blink", "dir", "NMTOKEN", "");
   ("blockquote", "dir", "NMTOKEN", "");
   ("body", "dir", "NMTOKEN", "");
   ("br", "dir", "NMTOKEN", "");
   ("button", "dir", "NMTOKEN", "");
   ("canvas", "dir", "NMTOKEN", "");
   ("caption", "dir", "NMTOKEN", "");
   ("center", "dir", "NMTOKEN", "");
   ("cite", "dir", "NMTOKEN", "");
   ("code", "dir", "NMTOKEN", "");
   ("col", "dir", "NMTOKEN", "");
   ("colgroup", "dir", "NMTOKEN", "");
   ("comment", "dir", "NMTOKEN", "");
   ("dd", "dir", "NMTOKEN", "");
   ("del", "dir", "NMTOKEN", "");
   ("dfn", "dir", "NMTOKEN", "");
   ("dir", "dir", "NMTOKEN", "");
   ("div", "dir", "NMTOKEN", "");
   ("dl", "dir", "NMTOKEN", "");
   ("dt", "dir", "NMTOKEN", "");
   ("em", "dir", "NMTOKEN", "");
   ("fieldset", "dir", "NMTOKEN", "");
   ("font", "dir", "NMTOKEN", "");
   ("form", "dir", "NMTOKEN", "");
   ("frame", "dir", "NMTOKEN", "");
   ("frameset", "dir", "NMTOKEN", "");
   ("h1", "dir", "NMTOKEN", "");
   ("h2", "dir", "NMTOKEN", "");
   ("h3", "dir", "NMTOKEN", "");
   ("h4", "dir", "NMTOKEN", "");
   ("h5", "dir", "NMTOKEN", "");
   ("h6", "dir", "NMTOKEN", "");
   ("head", "dir", "NMTOKEN", "");
   ("hr", "dir", "NMTOKEN", "");
   ("html", "dir", "NMTOKEN", "");
   ("i", "dir", "NMTOKEN", "");
   ("iframe", "dir", "NMTOKEN", "");
   ("img", "dir", "NMTOKEN", "");
   ("input", "dir", "NMTOKEN", "");
   ("ins", "dir", "NMTOKEN", "");
   ("isindex", "dir", "NMTOKEN", "");
   ("kbd", "dir", "NMTOKEN", "");
   ("label", "dir", "NMTOKEN", "");
   ("legend", "dir", "NMTOKEN", "");
   ("li", "dir", "NMTOKEN", "");
   ("link", "dir", "NMTOKEN", "");
   ("listing", "dir", "NMTOKEN", "");
   ("map", "dir", "NMTOKEN", "");
   ("marquee", "dir", "NMTOKEN", "");
   ("menu", "dir", "NMTOKEN", "");
   ("meta", "dir", "NMTOKEN", "");
   ("nobr", "dir", "NMTOKEN", "");
   ("noframes", "dir", "NMTOKEN", "");
   ("noscript", "dir", "NMTOKEN", "");
   ("object", "dir", "NMTOKEN", "");
   ("ol", "dir", "NMTOKEN", "");
   ("optgroup", "dir", "NMTOKEN", "");
   ("option", "dir", "NMTOKEN", "");
   ("p", "dir", "NMTOKEN", "");
   ("param", "dir", "NMTOKEN", "");
   ("pre", "dir", "NMTOKEN", "");
   ("q", "dir", "NMTOKEN", "");
   ("rb", "dir", "NMTOKEN", "");
   ("rbc", "dir", "NMTOKEN", "");
   ("rp", "dir", "NMTOKEN", "");
   ("rt", "dir", "NMTOKEN", "");
   ("rtc", "dir", "NMTOKEN", "");
   ("ruby", "dir", "NMTOKEN", "");
   ("s", "dir", "NMTOKEN", "");
   ("samp", "dir", "NMTOKEN", "");
   ("script", "dir", "NMTOKEN", "");
   ("select", "dir", "NMTOKEN", "");
   ("small", "dir", "NMTOKEN", "");
   ("span", "dir", "NMTOKEN", "");
   ("strike", "dir", "NMTOKEN", "");
   ("strong", "dir", "NMTOKEN", "");
   ("style", "dir", "NMTOKEN", "");
   ("sub", "dir", "NMTOKEN", "");
   ("sup", "dir", "NMTOKEN", "");
   ("table", "dir", "NMTOKEN", "");
   ("tbody", "dir", "NMTOKEN", "");
   ("td", "dir", "NMTOKEN", "");
   ("textarea", "dir", "NMTOKEN", "");
   ("tfoot", "dir", "NMTOKEN", "");
   ("th", "dir", "NMTOKEN", "");
   ("thead", "dir", "NMTOKEN", "");
   ("title", "dir", "NMTOKEN", "");
   ("tr", "dir", "NMTOKEN", "");
   ("tt", "dir", "NMTOKEN", "");
   ("u", "dir", "NMTOKEN", "");
   ("ul", "dir", "NMTOKEN", "");
   ("var", "dir", "NMTOKEN", "");
   ("wbr", "dir", "NMTOKEN", "");
   ("xmp", "dir", "NMTOKEN", "");
   ("a", "id", "ID", "");
   ("abbr", "id", "ID", "");
   ("acronym", "id", "ID", "");
   ("address", "id", "ID", "");
   ("applet", "id", "ID", "");
   ("area", "id", "ID", "");
   ("b", "id", "ID", "");
   ("base", "id", "ID", "");
   ("basefont", "id", "ID", "");
   ("bdo", "id", "ID", "");
   ("bgsound", "id", "ID", "");
   ("big", "id", "ID", "");
   ("blink", "id", "ID", "");
   ("blockquote", "id", "ID", "");
   ("body", "id", "ID", "");
   ("br", "id", "ID", "");
   ("button", "id", "ID", "");
   ("canvas", "id", "ID", "");
   ("caption", "id", "ID", "");
   ("center", "id", "ID", "");
   ("cite", "id", "ID", "");
   ("code", "id", "ID", "");
   ("col", "id", "ID", "");
   ("colgroup", "id", "ID", "");
   ("comment", "id", "ID", "");
   ("dd", "id", "ID", "");
   ("del", "id", "ID", "");
   ("dfn", "id", "ID", "");
   ("dir", "id", "ID", "");
   ("div", "id", "ID", "");
   ("dl", "id", "ID", "");
   ("dt", "id", "ID", "");
   ("em", "id", "ID", "");
   ("fieldset", "id", "ID", "");
   ("font", "id", "ID", "");
   ("form", "id", "ID", "");
   ("frame", "id", "ID", "");
   ("frameset", "id", "ID", "");
   ("h1", "id", "ID", "");
   ("h2", "id", "ID", "");
   ("h3", "id", "ID", "");
   ("h4", "id", "ID", "");
   ("h5", "id", "ID", "");
   ("h6", "id", "ID", "");
   ("head", "id", "ID", "");
   ("hr", "id", "ID", "");
   ("html", "id", "ID", "");
   ("i", "id", "ID", "");
   ("iframe", "id", "ID", "");
   ("img", "id", "ID", "");
   ("input", "id", "ID", "");
   ("ins", "id", "ID", "");
   ("isindex", "id", "ID", "");
   ("kbd", "id", "ID", "");
   ("label", "id", "ID", "");
   ("legend", "id", "ID", "");
   ("li", "id", "ID", "");
   ("link", "id", "ID", "");
   ("listing", "id", "ID", "");
   ("map", "id", "ID", "");
   ("marquee", "id", "ID", "");
   ("menu", "id", "ID", "");
   ("meta", "id", "ID", "");
   ("nobr", "id", "ID", "");
   ("noframes", "id", "ID", "");
   ("noscript", "id", "ID", "");
   ("object", "id", "ID", "");
   ("ol", "id", "ID", "");
   ("optgroup", "id", "ID", "");
   ("option", "id", "ID", "");
   ("p", "id", "ID", "");
   ("param", "id", "ID", "");
   ("pre", "id", "ID", "");
   ("q", "id", "ID", "");
   ("rb", "id", "ID", "");
   ("rbc", "id", "ID", "");
   ("rp", "id", "ID", "");
   ("rt", "id", "ID", "");
   ("rtc", "id", "ID", "");
   ("ruby", "id", "ID", "");
   ("s", "id", "ID", "");
   ("samp", "id", "ID", "");
   ("script", "id", "ID", "");
   ("select", "id", "ID", "");
   ("small", "id", "ID", "");
   ("span", "id", "ID", "");
   ("strike", "id", "ID", "");
   ("strong", "id", "ID", "");
   ("style", "id", "ID", "");
   ("sub", "id", "ID", "");
   ("sup", "id", "ID", "");
   ("table", "id", "ID", "");
   ("tbody", "id", "ID", "");
   ("td", "id", "ID", "");
   ("textarea", "id", "ID", "");
   ("tfoot", "id", "ID", "");
   ("th", "id", "ID", "");
   ("thead", "id", "ID", "");
   ("title", "id", "ID", "");
   ("tr", "id", "ID", "");
   ("tt", "id", "ID", "");
   ("u", "id", "ID", "");
   ("ul", "id", "ID", "");
   ("var", "id", "ID", "");
   ("wbr", "id", "ID", "");
   ("xmp", "id", "ID", "");
   ("a", "lang", "NMTOKEN", "");
   ("abbr", "lang", "NMTOKEN", "");
   ("acronym", "lang", "NMTOKEN", "");
   ("address", "lang", "NMTOKEN", "");
   ("applet", "lang", "NMTOKEN", "");
   ("area", "lang", "NMTOKEN", "");
   ("b", "lang", "NMTOKEN", "");
   ("base", "lang", "NMTOKEN", "");
   ("basefont", "lang", "NMTOKEN", "");
   ("bdo", "lang", "NMTOKEN", "");
   ("bgsound", "lang", "NMTOKEN", "");
   ("big", "lang", "NMTOKEN", "");
   ("blink", "lang", "NMTOKEN", "");
   ("blockquote", "lang", "NMTOKEN", "");
   ("body", "lang", "NMTOKEN", "");
   ("br", "lang", "NMTOKEN", "");
   ("button", "lang", "NMTOKEN", "");
   ("canvas", "lang", "NMTOKEN", "");
   ("caption", "lang", "NMTOKEN", "");
   ("center", "lang", "NMTOKEN", "");
   ("cite", "lang", "NMTOKEN", "");
   ("code", "lang", "NMTOKEN", "");
   ("col", "lang", "NMTOKEN", "");
   ("colgroup", "lang", "NMTOKEN", "");
   ("comment", "lang", "NMTOKEN", "");
   ("dd", "lang", "NMTOKEN", "");
   ("del", "lang", "NMTOKEN", "");
   ("dfn", "lang", "NMTOKEN", "");
   ("dir", "lang", "NMTOKEN", "");
   ("div", "lang", "NMTOKEN", "");
   ("dl", "lang", "NMTOKEN", "");
   ("dt", "lang", "NMTOKEN", "");
   ("em", "lang", "NMTOKEN", "");
   ("fieldset", "lang", "NMTOKEN", "");
   ("font", "lang", "NMTOKEN", "");
   ("form", "lang", "NMTOKEN", "");
   ("frame", "lang", "NMTOKEN", "");
   ("frameset", "lang", "NMTOKEN", "");
   ("h1", "lang", "NMTOKEN", "");
   ("h2", "lang", "NMTOKEN", "");
   ("h3", "lang", "NMTOKEN", "");
   ("h4", "lang", "NMTOKEN", "");
   ("h5", "lang", "NMTOKEN", "");
   ("h6", "lang", "NMTOKEN", "");
   ("head", "lang", "NMTOKEN", "");
   ("hr", "lang", "NMTOKEN", "");
   ("html", "lang", "NMTOKEN", "");
   ("i", "lang", "NMTOKEN", "");
   ("iframe", "lang", "NMTOKEN", "");
   ("img", "lang", "NMTOKEN", "");
   ("input", "lang", "NMTOKEN", "");
   ("ins", "lang", "NMTOKEN", "");
   ("isindex", "lang", "NMTOKEN", "");
   ("kbd", "lang", "NMTOKEN", "");
   ("label", "lang", "NMTOKEN", "");
   ("legend", "lang", "NMTOKEN", "");
   ("li", "lang", "NMTOKEN", "");
   ("link", "lang", "NMTOKEN", "");
   ("listing", "lang", "NMTOKEN", "");
   ("map", "lang", "NMTOKEN", "");
   ("marquee", "lang", "NMTOKEN", "");
   ("menu", "lang", "NMTOKEN", "");
   ("meta", "lang", "NMTOKEN", "");
   ("nobr", "lang", "NMTOKEN", "");
   ("noframes", "lang", "NMTOKEN", "");
   ("noscript", "lang", "NMTOKEN", "");
   ("object", "lang", "NMTOKEN", "");
   ("ol", "lang", "NMTOKEN", "");
   ("optgroup", "lang", "NMTOKEN", "");
   ("option", "lang", "NMTOKEN", "");
   ("p", "lang", "NMTOKEN", "");
   ("param", "lang", "NMTOKEN", "");
   ("pre", "lang", "NMTOKEN", "");
   ("q", "lang", "NMTOKEN", "");
   ("rb", "lang", "NMTOKEN", "");
   ("rbc", "lang", "NMTOKEN", "");
   ("rp", "lang", "NMTOKEN", "");
   ("rt", "lang", "NMTOKEN", "");
   ("rtc", "lang", "NMTOKEN", "");
   ("ruby", "lang", "NMTOKEN", "");
   ("s", "lang", "NMTOKEN", "");
   ("samp", "lang", "NMTOKEN", "");
   ("script", "lang", "NMTOKEN", "");
   ("select", "lang", "NMTOKEN", "");
   ("small", "lang", "NMTOKEN", "");
   ("span", "lang", "NMTOKEN", "");
   ("strike", "lang", "NMTOKEN", "");
   ("strong", "lang", "NMTOKEN", "");
   ("style", "lang", "NMTOKEN", "");
   ("sub", "lang", "NMTOKEN", "");
   ("sup", "lang", "NMTOKEN", "");
   ("table", "lang", "NMTOKEN", "");
   ("tbody", "lang", "NMTOKEN", "");
   ("td", "lang", "NMTOKEN", "");
   ("textarea", "lang", "NMTOKEN", "");
   ("tfoot", "lang", "NMTOKEN", "");
   ("th", "lang", "NMTOKEN", "");
   ("thead", "lang", "NMTOKEN", "");
   ("title", "lang", "NMTOKEN", "");
   ("tr", "lang", "NMTOKEN", "");
   ("tt", "lang", "NMTOKEN", "");
   ("u", "lang", "NMTOKEN", "");
   ("ul", "lang", "NMTOKEN", "");
   ("var", "lang", "NMTOKEN", "");
   ("wbr", "lang", "NMTOKEN", "");
   ("xmp", "lang", "NMTOKEN", "")
  ]%string.
(** entities, 835-2917. *)
Definition html_entities : list (string * Z) :=
  [
   ("aacute"%string, 225);
   ("Aacute"%string, 193);
   ("acirc"%string, 226);
   ("Acirc"%string, 194);
   ("acute"%string, 180);
   ("aelig"%string, 230);
   ("AElig"%string, 198);
   ("agrave"%string, 224);
   ("Agrave"%string, 192);
   ("amp"%string, 38);
   ("apos"%string, 39);
   ("aring"%string, 229);
   ("Aring"%string, 197);
   ("ast"%string, 42);
   ("atilde"%string, 227);
   ("Atilde"%string, 195);
   ("auml"%string, 228);
   ("Auml"%string, 196);
   ("brvbar"%string, 166);
   ("bsol"%string, 92);
   ("ccedil"%string, 231);
   ("Ccedil"%string, 199);
   ("cedil"%string, 184);
   ("Cedilla"%string, 184);
   ("cent"%string, 162);
   ("centerdot"%string, 183);
   ("circledR"%string, 174);
   ("colon"%string, 58);
   ("comma"%string, 44);
   ("commat"%string, 64);
   ("copy"%string, 169);
   ("curren"%string, 164);
   ("deg"%string, 176);
   ("DiacriticalAcute"%string, 180);
   ("DiacriticalGrave"%string, 96);
   ("die"%string, 168);
   ("div"%string, 247);
   ("divide"%string, 247);
   ("dollar"%string, 36);
   ("Dot"%string, 168);
   ("DoubleDot"%string, 168);
   ("eacute"%string, 233);
   ("Eacute"%string, 201);
   ("ecirc"%string, 234);
   ("Ecirc"%string, 202);
   ("egrave"%string, 232);
   ("Egrave"%string, 200);
   ("equals"%string, 61);
   ("eth"%string, 240);
   ("ETH"%string, 208);
   ("euml"%string, 235);
   ("Euml"%string, 203);
   ("excl"%string, 33);
   ("frac12"%string, 189);
   ("frac14"%string, 188);
   ("frac34"%string, 190);
   ("grave"%string, 96);
   ("gt"%string, 62);
   ("half"%string, 189);
   ("Hat"%string, 94);
   ("iacute"%string, 237);
   ("Iacute"%string, 205);
   ("icirc"%string, 238);
   ("Icirc"%string, 206);
   ("iexcl"%string, 161);
   ("igrave"%string, 236);
   ("Igrave"%string, 204);
   ("iquest"%string, 191);
   ("iuml"%string, 239);
   ("Iuml"%string, 207);
   ("laquo"%string, 171);
   ("lbrace"%string, 123);
   ("lbrack"%string, 91);
   ("lcub"%string, 123);
   ("lowbar"%string, 95);
   ("lpar"%string, 40);
   ("lsqb"%string, 91);
   ("lt"%string, 60);
   ("macr"%string, 175);
   ("micro"%string, 181);
   ("middot"%string, 183);
   ("nbsp"%string, 160);
   ("NewLine"%string, 10);
   ("NonBreakingSpace"%string, 160);
   ("not"%string, 172);
   ("ntilde"%string, 241);
   ("Ntilde"%string, 209);
   ("num"%string, 35);
   ("oacute"%string, 243);
   ("Oacute"%string, 211);
   ("ocirc"%string, 244);
   ("Ocirc"%string, 212);
   ("ograve"%string, 242);
   ("Ograve"%string, 210);
   ("ordf"%string, 170);
   ("ordm"%string, 186);
   ("oslash"%string, 248);
   ("Oslash"%string, 216);
   ("otilde"%string, 245);
   ("Otilde"%string, 213);
   ("ouml"%string, 246);
   ("Ouml"%string, 214);
   ("OverBar"%string, 175);
   ("para"%string, 182);
   ("percnt"%string, 37);
   ("period"%string, 46);
   ("plus"%string, 43);
   ("PlusMinus"%string, 177);
   ("plusmn"%string, 177);
   ("pm"%string, 177);
   ("pound"%string, 163);
   ("quest"%string, 63);
   ("quot"%string, 34);
   ("raquo"%string, 187);
   ("rbrace"%string, 125);
   ("rbrack"%string, 93);
   ("rcub"%string, 125);
   ("reg"%string, 174);
   ("rpar"%string, 41);
   ("rsqb"%string, 93);
   ("sect"%string, 167);
   ("semi"%string, 59);
   ("shy"%string, 173);
   ("sol"%string, 47);
   ("strns"%string, 175);
   ("sup1"%string, 185);
   ("sup2"%string, 178);
   ("sup3"%string, 179);
   ("szlig"%string, 223);
   ("Tab"%string, 9);
   ("thorn"%string, 254);
   ("THORN"%string, 222);
   ("times"%string, 215);
   ("uacute"%string, 250);
   ("Uacute"%string, 218);
   ("ucirc"%string, 251);
   ("Ucirc"%string, 219);
   ("ugrave"%string, 249);
   ("Ugrave"%string, 217);
   ("uml"%string, 168);
   ("uuml"%string, 252);
   ("Uuml"%string, 220);
   ("verbar"%string, 124);
   ("vert"%string, 124);
   ("VerticalLine"%string, 124);
   ("yacute"%string, 253);
   ("Yacute"%string, 221);
   ("yen"%string, 165);
   ("yuml"%string, 255)
  ].
