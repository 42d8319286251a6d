(** xsl:include and xsl:import: include/XSLT/impl/handler/xslt_include_handler.hpp, with the
    parts of xslt_stylesheet_parser.hpp, xslt_stylesheet_compiler.hpp,
    xslt_compilation_context.hpp and SAX/filter/TextCoalescer.hpp that it works through.

    The events of the main document go through the TextCoalescer to whichever handler is set:
    the one on top of the stack of handlers, or the IncludeHandler.  The events of the documents
    that are brought in go to the IncludeHandler, which passes them on to the TextCoalescer.
    The handlers are a machine that the model is given: it takes events (XSheet) with the
    precedence that is set.  A document is the events that a reader reports for it, and whether
    it reports no error.  xml:base is left out, and so are namespaces: a start tag comes with
    what the NamespaceTracker holds when it is read. *)
From Coq Require Import String.
From Verif.Model Require Import Base Attrs XSort XSheet Precedence.
From Coq Require Import List.
Import ListNotations.
Open Scope Z_scope.

(** [Fails] is an exception, [Wild] undefined behaviour, [Starved] not enough fuel. *)
Inductive reply (A : Type) := Done (a : A) | Fails | Wild | Starved.
Arguments Done {A} a.
Arguments Fails {A}.
Arguments Wild {A}.
Arguments Starved {A}.
Definition next {A B} (r : reply A) (k : A -> reply B) : reply B :=
  match r with Done a => k a | Fails => Fails | Wild => Wild | Starved => Starved end.

Section Including.
  Context {scope : Type}.
  Notation tag := (tag (scope := scope)).
  Notation event := (event (scope := scope)).
  (** What a reader reports. *)
  Inductive heard := HStart (g : tag) | HEnd (uri local : str) | HText (s : str).
  Record document := Doc { d_events : list heard; d_ok : bool }.
  (** The handlers: what an event does, and startDocument.  [LeftOut] is the answer of the
      StylesheetHandler to an xsl:include or xsl:import, which it hands to the IncludeHandler,
      xslt_stylesheet_compiler.hpp:150-154. *)
  Context {D : Type} (down : D -> precedence -> event -> res D) (begin : D -> D).
  (** The documents that there are, and makeAbsolute. *)
  Context (world : str -> option document) (absolute : str -> str -> str).

  (** [i_base]: the location of the document; [i_plugged]: the IncludeHandler is the content
      handler of the parser of the main document; [i_buffer]: the TextCoalescer's; [i_prec],
      [i_kids]: the CompilationContext's precedence_; [i_imports], [i_includes], [i_hrefs],
      [i_closed]: import_stack_, current_includes_, href_ and no_content_; [i_pushed]: how often
      something was added to import_stack_ and to href_. *)
  Record state := State {
    i_down : D; i_buffer : str; i_plugged : bool; i_base : str; i_prec : precedence; i_kids : Z;
    i_imports : list (str * precedence * list str); i_includes : list str; i_hrefs : list str;
    i_closed : bool; i_pushed : nat * nat }.
  Definition set_down d s := State d (i_buffer s) (i_plugged s) (i_base s) (i_prec s) (i_kids s) (i_imports s) (i_includes s) (i_hrefs s) (i_closed s) (i_pushed s).
  Definition set_buffer b s := State (i_down s) b (i_plugged s) (i_base s) (i_prec s) (i_kids s) (i_imports s) (i_includes s) (i_hrefs s) (i_closed s) (i_pushed s).
  Definition plug b s := State (i_down s) (i_buffer s) b (i_base s) (i_prec s) (i_kids s) (i_imports s) (i_includes s) (i_hrefs s) (i_closed s) (i_pushed s).
  Definition set_base b s := State (i_down s) (i_buffer s) (i_plugged s) b (i_prec s) (i_kids s) (i_imports s) (i_includes s) (i_hrefs s) (i_closed s) (i_pushed s).
  Definition set_precedence p k s := State (i_down s) (i_buffer s) (i_plugged s) (i_base s) p k (i_imports s) (i_includes s) (i_hrefs s) (i_closed s) (i_pushed s).
  Definition set_imports l s := State (i_down s) (i_buffer s) (i_plugged s) (i_base s) (i_prec s) (i_kids s) l (i_includes s) (i_hrefs s) (i_closed s) (i_pushed s).
  Definition set_includes l s := State (i_down s) (i_buffer s) (i_plugged s) (i_base s) (i_prec s) (i_kids s) (i_imports s) l (i_hrefs s) (i_closed s) (i_pushed s).
  Definition set_hrefs l s := State (i_down s) (i_buffer s) (i_plugged s) (i_base s) (i_prec s) (i_kids s) (i_imports s) (i_includes s) l (i_closed s) (i_pushed s).
  Definition close b s := State (i_down s) (i_buffer s) (i_plugged s) (i_base s) (i_prec s) (i_kids s) (i_imports s) (i_includes s) (i_hrefs s) b (i_pushed s).
  Definition set_pushed c s := State (i_down s) (i_buffer s) (i_plugged s) (i_base s) (i_prec s) (i_kids s) (i_imports s) (i_includes s) (i_hrefs s) (i_closed s) c.

  (** An event reaches the handler on top. *)
  Definition deliver (e : event) (s : state) : reply state :=
    match down (i_down s) (i_prec s) e with
    | Ok d => Done (set_down d s)
    | Throws => Fails
    | _ => Wild
    end.
  (** TextCoalescer::flush, TextCoalescer.hpp:92-99.  IncludeHandler::characters, 107-112, gives
      the text back to the TextCoalescer, which then empties its buffer; parentHandler,
      xslt_compilation_context.hpp:108-112, has set the handler on top again. *)
  Definition flush (s : state) : reply state :=
    if empty (i_buffer s) then Done s
    else if i_plugged s then
      if i_closed s && negb (blank (i_buffer s)) then Fails else Done (set_buffer [] (plug false s))
    else next (deliver (Characters (i_buffer s)) s) (fun s => Done (set_buffer [] s)).
  (** startElement and endElement of the TextCoalescer when the handler on top is set, 35-48. *)
  Definition pass (e : event) (s : state) : reply state := next (flush s) (deliver e).

  Definition is_xslt (uri : str) : bool := str_eqb uri xslt_uri.
  (** validate_href, 124-130. *)
  Definition validate_href (g : tag) (s : state) : reply (str * state) :=
    match gather [must "href"] (g_atts g) with
    | None => Fails
    | Some r => Done (absolute (i_base s) (lookup r (ascii_str "href")), close true s)
    end.
  (** IncludeHandler::startElement, 49-76; next_precedence, xslt_compilation_context.hpp:182-185;
      next_generation, xslt_precedence.hpp:76-81. *)
  Definition include_start (g : tag) (s : state) : reply state :=
    if i_closed s then Fails
    else if is_xslt (g_uri g) && is_ g "import" then
      next (validate_href g s) (fun '(href, s) =>
      Done (set_pushed (S (fst (i_pushed s)), snd (i_pushed s))
             (set_imports (i_imports s ++ [(href, i_prec s ++ [i_kids s + 1], i_includes s)])
               (set_precedence (i_prec s) (i_kids s + 1) s))))
    else if is_xslt (g_uri g) && is_ g "include" then
      next (validate_href g s) (fun '(href, s) =>
      Done (set_pushed (fst (i_pushed s), S (snd (i_pushed s))) (set_hrefs (i_hrefs s ++ [href]) s)))
    else pass (Start g) (plug false s).
  (** endElement, 84-105. *)
  Definition include_end (include : str -> state -> reply state) (uri local : str) (s : state) : reply state :=
    if i_closed s && is_xslt uri then
      let s := close false s in
      next (if str_eqb local (ascii_str "include") then
              match i_hrefs s with
              | [] => Wild
              | _ => next (include (last (i_hrefs s) []) s) (fun s => Done (set_hrefs (removelast (i_hrefs s)) s))
              end
            else Done s)
        (fun s => Done (if empty (i_hrefs s) then plug false s else s))
    else pass End (plug false s).
  (** characters, 107-112. *)
  Definition include_text (t : str) (s : state) : reply state :=
    if i_closed s && negb (blank t) then Fails
    else Done (set_buffer (i_buffer s ++ t) (plug false s)).
  (** An event of a document that is brought in. *)
  Definition included (include : str -> state -> reply state) (e : heard) (s : state) : reply state :=
    match e with
    | HStart g => include_start g s
    | HEnd u l => include_end include u l s
    | HText t => include_text t s
    end.
  Fixpoint all_included (include : str -> state -> reply state) (l : list heard) (s : state) : reply state :=
    match l with [] => Done s | e :: l => next (included include e s) (all_included include l) end.

  (** include_stylesheet, 150-173, with check_for_loops, 132-142, and startDocument, 43-46.  A
      document that is not there is one that has errors.  After an error the message is made with
      [href], a reference to the last of href_ or to the import that is current: it dangles if the
      vector has grown, which is taken to move it. *)
  Definition moved (import : bool) (before after : nat * nat) : bool :=
    negb (if import then Nat.eqb (fst before) (fst after) else Nat.eqb (snd before) (snd after)).
  Fixpoint include (n : nat) (import : bool) (p : precedence) (k : Z) (href : str) (s : state) : reply state :=
    match n with
    | O => Starved
    | S n =>
        if existsb (str_eqb href) (i_includes s) then Fails
        else match world href with
             | None => Fails
             | Some doc =>
                 let s1 := set_precedence p k (set_base href (set_includes (i_includes s ++ [href]) s)) in
                 let s2 := set_down (begin (i_down s1)) (plug false s1) in
                 next (all_included (fun href s => include n false (i_prec s) (i_kids s) href s) (d_events doc) s2) (fun s3 =>
                 let s4 := set_base (i_base s) s3 in
                 if d_ok doc then Done (set_includes (removelast (i_includes s4)) s4)
                 else if moved import (i_pushed s) (i_pushed s4) then Wild else Fails)
             end
    end.

  (** An event of the main document, which has gone through the TextCoalescer; start_include,
      34-41. *)
  Definition main_event (n : nat) (e : heard) (s : state) : reply state :=
    let include := fun href s => include n false (i_prec s) (i_kids s) href s in
    match e with
    | HText t => Done (set_buffer (i_buffer s ++ t) s)
    | HStart g =>
        next (flush s) (fun s =>
        if i_plugged s then include_start g s
        else match down (i_down s) (i_prec s) (Start g) with
             | LeftOut => include_start g (plug true s)
             | Ok d => Done (set_down d s)
             | Throws => Fails
             | Broken => Wild
             end)
    | HEnd u l =>
        next (flush s) (fun s => if i_plugged s then include_end include u l s else deliver End s)
    end.
  Fixpoint main_events (n : nat) (l : list heard) (s : state) : reply state :=
    match l with [] => Done s | e :: l => next (main_event n e s) (main_events n l) end.
  (** unwind_imports, 114-121, with ImportStack, 198-232, and import_stylesheet, 144-148. *)
  Fixpoint unwind_imports (n : nat) (s : state) : reply state :=
    match i_imports s with
    | [] => Done s
    | _ =>
        match n with
        | O => Starved
        | S m =>
            let most_recent := (length (i_imports s) - 1)%nat in
            match nth_error (i_imports s) most_recent with
            | None => Wild
            | Some (href, p, includes) =>
                next (include n true p 0 href (set_includes includes s)) (fun s =>
                unwind_imports m (set_imports (firstn most_recent (i_imports s) ++ skipn (S most_recent) (i_imports s)) s))
            end
        end
    end.
  (** StylesheetCompiler::compile, xslt_stylesheet_compiler.hpp:241-272: no error handler is set,
      so that errors in the main document are not heard of.  The reader calls endDocument at the
      end, 77-81; the IncludeHandler has none. *)
  Definition start_state (base : str) (d : D) : state :=
    State (begin d) [] false base initial_precedence 0 [] [] [] false (O, O).
  Definition compile_all (n : nat) (base : str) (main : document) (d : D) : reply D :=
    next (main_events n (d_events main) (start_state base d)) (fun s =>
    next (if i_plugged s then Done s else unwind_imports n s) (fun s => Done (i_down s))).
End Including.

(** * The handlers of XSheet *)
(** The precedence is that of the template or variable that is being made.  What has been
    compiled, by precedence: documents of one precedence are read one after another. *)
Section Sheets.
  Context {scope X M N P : Type} (V : services (scope := scope) (X := X) (M := M) (N := N) (P := P)).
  Notation compiler := (compiler (X := X) (M := M) (N := N) (P := P)).
  Notation sheet := (sheet (X := X) (M := M) (N := N) (P := P)).
  Record sheets := Sheets { z_before : list (precedence * sheet); z_prec : precedence; z_compiler : compiler }.
  Definition no_sheets : sheets := Sheets [] initial_precedence start_compiler.
  (** What a new precedence does. *)
  Definition turn (p : precedence) (z : sheets) : sheets :=
    if prec_eq p (z_prec z) then z
    else Sheets (z_before z ++ [(z_prec z, c_sheet (z_compiler z))]) p (with_sheet no_sheet (z_compiler z)).
  (** add_template, xslt_compiled_stylesheet.hpp:123-151: a name that a template of higher
      precedence has, as those that were compiled before do, may be given again. *)
  Definition taken (z : sheets) (n : str) : bool :=
    negb (empty n) && existsb (fun b => existsb (fun t => str_eqb (t_name t) n) (s_templates (snd b))) (z_before z).
  Definition named_again (z : sheets) : option (rule_ (X := X) (M := M) (P := P)) :=
    match c_stack (z_compiler z) with
    | [Box (KTemplate ms n m p) items _] => if taken z n then Some (Template ms n m p items) else None
    | _ => None
    end.
  Definition sheets_step (z : sheets) (p : precedence) (e : event (scope := scope)) : res sheets :=
    let z := turn p z in
    let c := z_compiler z in
    bind (match e, named_again z with
          | End, Some t =>
              let s := c_sheet c in
              Ok (with_stack [] (with_sheet (Sheet (s_templates s ++ [t]) (s_variables s) (s_keys s) (s_output s) (s_cdata s)) c))
          | _, _ => step V c e
          end)
      (fun c => Ok (Sheets (z_before z) (z_prec z) c)).
  (** StylesheetHandler::startDocument, if it is on top. *)
  Definition sheets_begin (z : sheets) : sheets :=
    let c := z_compiler z in
    Sheets (z_before z) (z_prec z)
      (if empty (c_stack c) then Compiler true [] (c_aliases c) (c_auto c) (c_current c) (c_sheet c) else c).
  (** The CompiledStylesheet: all_templates_ and topLevelVars_ with their precedences, keys_,
      output_settings_ and output_cdata_elements_.  output_settings, 164-169, replaces what was
      set before. *)
  Definition all_sheets (z : sheets) : list (precedence * sheet) := z_before z ++ [(z_prec z, c_sheet (z_compiler z))].
  Definition all_templates (l : list (precedence * sheet)) := flat_map (fun b => map (fun t => (t, fst b)) (s_templates (snd b))) l.
  Definition all_variables (l : list (precedence * sheet)) := flat_map (fun b => map (fun v => (v, fst b)) (s_variables (snd b))) l.
  Definition all_keys (l : list (precedence * sheet)) := flat_map (fun b => s_keys (snd b)) l.
  Definition last_output (l : list (precedence * sheet)) : option (list (str * str)) :=
    fold_left (fun o b => match s_output (snd b) with Some m => Some m | None => o end) l None.
  Definition all_cdata (l : list (precedence * sheet)) := flat_map (fun b => s_cdata (snd b)) l.
  (** A stylesheet from its document at [base]. *)
  Definition compile_sheets (n : nat) (world : str -> option (document (scope := scope))) (absolute : str -> str -> str)
    (base : str) (main : document) : reply (list (precedence * sheet)) :=
    next (compile_all sheets_step sheets_begin world absolute n base main no_sheets) (fun z => Done (all_sheets z)).
End Sheets.
