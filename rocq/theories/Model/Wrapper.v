(** The readers around expat and libxml2: include/SAX/wrappers/saxexpat.hpp and
    saxlibxml2.hpp.  Modelled are the calls they make on the content, lexical and error
    handlers for each callback of the library, and their features.  The libraries themselves
    are not: a parse is given by the callbacks the library makes.  DTD callbacks are in
    ContentText. *)
From Verif.Model Require Import Base Containers Text NsSupport Attrs Sax.

Inductive library := Expat | Libxml2.

(** The handlers that are set, and the features; saxexpat.hpp:319-346. *)
Record settings := Settings {
  s_content : bool; s_lexical : bool; s_errors : bool;
  s_namespaces : bool; s_prefixes : bool }.

(** nsSupport_, namespaceContextCreated_ (expat only), isInCData_ (libxml2 only), parsing_. *)
Record reader := Reader {
  r_contexts : contexts; r_made : list bool; r_cdata : bool; r_parsing : bool }.
Definition new_reader : reader := Reader ns_reset [] false false.

(** What the handlers hear.  Errors: the calls of reportError. *)
Inductive complaint := UndeclaredPrefix (name : str) | IllegalPrefix (prefix : str) | NotParsed.
Inductive report := Said (e : sax) | Erred (c : complaint).

(** [Thrown]: processName threw a SAXException, which leaves parse.  [Wild]: undefined
    behaviour. *)
Inductive status := Fine (r : reader) | Thrown (r : reader) | Wild.
Notation heard := (list report * status)%type.
Definition then_ (a : heard) (k : reader -> heard) : heard :=
  match a with
  | (l, Fine r) => let (l', s) := k r in (l ++ l', s)
  | _ => a
  end.
Definition quietly (r : reader) : heard := ([], Fine r).

(** reportError, saxexpat.hpp:529-545, saxlibxml2.hpp:349-361. *)
Definition complain (s : settings) (c : complaint) : list report :=
  if s_errors s then [Erred c] else [].

(** processName, saxexpat.hpp:520-527, saxlibxml2.hpp:340-347. *)
Definition named (s : settings) (st : contexts) (raw : str) (is_attribute : bool)
  : option (qname * list report) :=
  match process_name st raw is_attribute with
  | None => None
  | Some q => Some (q, match q_uri q, q_prefix q with
                       | [], _ :: _ => complain s (UndeclaredPrefix raw)
                       | _, _ => []
                       end)
  end.

(** find(attQName, nsc_.xmlns) == 0, and the prefix after the colon;
    saxexpat.hpp:607-620, saxlibxml2.hpp:571-577. *)
Fixpoint begins (p s : str) : bool :=
  match p, s with
  | [], _ => true
  | c :: p', d :: s' => (c =? d) && begins p' s'
  | _, [] => false
  end.
Definition is_declaration (q : str) : bool := begins s_xmlns q.
Definition declared_prefix (q : str) : str :=
  match find_char 58 q with Some n => skipn (n + 1) q | None => [] end.

(** attributeTypeT::CDATA. *)
Definition cdata_type : str := [67; 68; 65; 84; 65].

(** The first pass over the attributes, saxexpat.hpp:598-630, saxlibxml2.hpp:561-589.
    expat's wrapper pushes a context at the first declaration. *)
Fixpoint first_pass (lib : library) (s : settings) (l : list (str * str)) (st : contexts)
  (pushed : bool) : outcome (contexts * bool * list report * list attr) :=
  match l with
  | [] => Val (st, pushed, [], [])
  | (q, v) :: r =>
      if is_declaration q then
        let st1 := match lib with
                   | Expat => if pushed then st else push_context st
                   | Libxml2 => st
                   end in
        let p := declared_prefix q in
        obind (declare_prefix p v st1) (fun d =>
        obind (first_pass lib s r (snd d) true) (fun '(st', pushed', said, atts) =>
        Val (st', pushed',
             (if fst d then [] else complain s (IllegalPrefix p)) ++ Said (StartPrefix p v) :: said,
             (if s_prefixes s then [Attr [] [] q cdata_type v] else []) ++ atts)))
      else first_pass lib s r st pushed
  end.

(** The second pass, saxexpat.hpp:632-648, saxlibxml2.hpp:591-605; None is the exception. *)
Fixpoint second_pass (s : settings) (l : list (str * str)) (st : contexts)
  : list report * option (list attr) :=
  match l with
  | [] => ([], Some [])
  | (q, v) :: r =>
      if is_declaration q then second_pass s r st
      else match named s st q true with
           | None => ([], None)
           | Some (n, errs) =>
               let (errs', atts) := second_pass s r st in
               (errs ++ errs',
                match atts with
                | Some l' => Some (Attr (q_uri n) (q_local n) (q_raw n) cdata_type v :: l')
                | None => None
                end)
           end
  end.

(** startElementNoNS, endElementNoNS; saxexpat.hpp:657-703, saxlibxml2.hpp:615-671. *)
Definition plain_atts (l : list (str * str)) : list attr :=
  map (fun a => Attr [] [] (fst a) cdata_type (snd a)) l.

(** SAXendCdataSection, saxlibxml2.hpp:530-539; every other callback that is modelled calls
    it first. *)
Definition leave_cdata (lib : library) (s : settings) (r : reader) : heard :=
  match lib with
  | Expat => quietly r
  | Libxml2 =>
      if r_cdata r
      then (if s_lexical s then [Said EndCDATA] else [],
            Fine (Reader (r_contexts r) (r_made r) false (r_parsing r)))
      else quietly r
  end.

(** startElement, saxexpat.hpp:582-655, SAXstartElement, saxlibxml2.hpp:541-613. *)
Definition start_element (lib : library) (s : settings) (q : str) (l : list (str * str))
  (r : reader) : heard :=
  if negb (s_content s) then quietly r
  else if negb (s_namespaces s) then ([Said (StartElement [] [] q (plain_atts l))], Fine r)
  else
    let st := match lib with Expat => r_contexts r | Libxml2 => push_context (r_contexts r) end in
    match first_pass lib s l st false with
    | Val (st', pushed, said, decls) =>
        match second_pass s l st' with
        | (errs, None) =>
            (said ++ errs, Thrown (Reader st' (r_made r) (r_cdata r) (r_parsing r)))
        | (errs, Some atts) =>
            let made := match lib with Expat => pushed :: r_made r | Libxml2 => r_made r end in
            let r' := Reader st' made (r_cdata r) (r_parsing r) in
            match named s st' q false with
            | None => (said ++ errs, Thrown r')
            | Some (n, errs') =>
                (said ++ errs ++ errs'
                 ++ [Said (StartElement (q_uri n) (q_local n) (q_raw n) (decls ++ atts))], Fine r')
            end
        end
    | _ => ([], Wild)
    end.

(** endElement, saxexpat.hpp:676-703, SAXendElement, saxlibxml2.hpp:641-664. *)
Definition end_element (lib : library) (s : settings) (q : str) (r : reader) : heard :=
  if negb (s_content s) then quietly r
  else if negb (s_namespaces s) then ([Said (EndElement [] [] q)], Fine r)
  else
    match named s (r_contexts r) q false with
    | None => ([], Thrown r)
    | Some (n, errs) =>
        match get_declared_prefixes (r_contexts r) with
        | Val ps =>
            (errs ++ Said (EndElement (q_uri n) (q_local n) (q_raw n)) :: map (fun p => Said (EndPrefix p)) ps,
             match lib with
             | Expat =>
                 match r_made r with
                 | [] => Wild
                 | true :: m => match pop_context (r_contexts r) with
                                | Val st => Fine (Reader st m (r_cdata r) (r_parsing r))
                                | _ => Wild
                                end
                 | false :: m => Fine (Reader (r_contexts r) m (r_cdata r) (r_parsing r))
                 end
             | Libxml2 => match pop_context (r_contexts r) with
                          | Val st => Fine (Reader st (r_made r) (r_cdata r) (r_parsing r))
                          | _ => Wild
                          end
             end)
        | _ => ([], Wild)
        end
    end.

(** The callbacks.  expat announces both ends of a CDATA section (CStartCdata, CEndCdata);
    libxml2 gives the text of one (CCdata), src/SAX/wrappers/saxlibxml2.cpp:61-68, and the
    start and the end of the document. *)
Inductive callback :=
  | CStart (q : str) (atts : list (str * str)) | CEnd (q : str)
  | CText (s : str) | CPI (target data : str) | CComment (s : str)
  | CStartCdata | CEndCdata | CCdata (s : str) | CStartDoc | CEndDoc.

Definition content (s : settings) (e : sax) (r : reader) : heard :=
  (if s_content s then [Said e] else [], Fine r).
Definition lexical (s : settings) (e : sax) (r : reader) : heard :=
  (if s_lexical s then [Said e] else [], Fine r).

(** saxexpat.hpp:558-563, 705-710, 927-953; saxlibxml2.hpp:419-539. *)
Definition heed (lib : library) (s : settings) (c : callback) (r : reader) : heard :=
  match c with
  | CStart q l => then_ (leave_cdata lib s r) (start_element lib s q l)
  | CEnd q => then_ (leave_cdata lib s r) (end_element lib s q)
  | CText t => then_ (leave_cdata lib s r) (content s (Characters t))
  | CPI t d => then_ (leave_cdata lib s r) (content s (PI t d))
  | CComment t => then_ (leave_cdata lib s r) (lexical s (Comment t))
  | CStartCdata => lexical s StartCDATA r
  | CEndCdata => lexical s EndCDATA r
  | CCdata t =>
      then_ (if r_cdata r then quietly r
             else lexical s StartCDATA (Reader (r_contexts r) (r_made r) true (r_parsing r)))
            (content s (Characters t))
  | CStartDoc => then_ (leave_cdata lib s r) (content s StartDocument)
  | CEndDoc => then_ (leave_cdata lib s r) (content s EndDocument)
  end.
Fixpoint heed_all (lib : library) (s : settings) (l : list callback) (r : reader) : heard :=
  match l with
  | [] => quietly r
  | c :: k => then_ (heed lib s c r) (heed_all lib s k)
  end.

Definition parsing (b : bool) (r : reader) : reader :=
  Reader (r_contexts r) (r_made r) (r_cdata r) b.

(** parse, saxexpat.hpp:451-507, saxlibxml2.hpp:397-417.  [ok]: the library found no error.
    setDocumentLocator is left out.  That libxml2 calls startDocument first and endDocument
    last, also after an error, is its own behaviour. *)
Definition parse (lib : library) (s : settings) (l : list callback) (ok : bool) (r : reader)
  : heard :=
  let error := if ok then [] else complain s NotParsed in
  let all :=
    match lib with
    | Expat =>
        then_ (content s StartDocument (parsing true r)) (fun r1 =>
        then_ (heed_all lib s l r1) (fun r2 =>
        then_ (error, Fine r2) (content s EndDocument)))
    | Libxml2 =>
        then_ (heed_all lib s (CStartDoc :: l) (parsing true r)) (fun r1 =>
        then_ (error, Fine r1) (heed lib s CEndDoc))
    end in
  then_ all (fun r' => quietly (parsing false r')).

(** The features about namespaces, saxexpat.hpp:389-449, saxlibxml2.hpp:272-338.
    None is the exception. *)
Inductive feature := Namespaces | NamespacePrefixes.
Definition set_feature (f : feature) (v : bool) (r : reader) (s : settings) : option settings :=
  match f with
  | Namespaces =>
      if r_parsing r then None
      else Some (Settings (s_content s) (s_lexical s) (s_errors s) v
                   (if negb v && negb (s_prefixes s) then true else s_prefixes s))
  | NamespacePrefixes =>
      if r_parsing r then None
      else Some (Settings (s_content s) (s_lexical s) (s_errors s)
                   (if v && negb (s_namespaces s) then true else s_namespaces s) v)
  end.
Definition get_feature (f : feature) (s : settings) : bool :=
  match f with
  | Namespaces => s_namespaces s
  | NamespacePrefixes => s_prefixes s
  end.
