(** External entities in the reader over expat: the declarations and references of
    include/SAX/wrappers/saxexpat.hpp:479-507 and 867-1030.  expat is given by the callbacks it
    makes for each text it is fed; after a callback that returns 0, or an error of its own, it makes
    no others.  Namespaces, elements and the rest are in Wrapper.v. *)
From Verif.Model Require Import Base Attrs Sax.

(** The callbacks.  Pointers that may be null are options. *)
Inductive callback :=
  | XEntity (name : str) (parameter : bool) (value sys pub notation : option str)
  | XNotation (name : str) (sys pub : option str)
  | XDoctype (name : str) (sys pub : option str)
  | XEndDoctype
  | XText (s : str)
  | XSkipped (name : str)
  | XExternal (sys pub : option str).
(** Which handlers are set; externalResolving_; entityResolver_, which is given public and system
    identifiers and gives an input source with such. *)
Record settings := Settings {
  s_content : bool; s_lexical : bool; s_decl : bool; s_dtd : bool; s_errors : bool;
  s_resolving : bool; s_resolver : option (str -> str -> str * str) }.
(** What the handlers are told. *)
Inductive news := Heard (e : sax) | Unresolved | Malformed.
Definition tell (on : bool) (e : sax) : list news := if on then [Heard e] else [].
Definition text_of_id (o : option str) : str := match o with Some s => s | None => [] end.

(** declaredExternalEnts_, a map: insert keeps what is there, operator[] inserts an empty name.  It
    is a member of the reader and never cleared. *)
Definition names : Type := list (str * str).
Fixpoint name_at (k : str) (m : names) : option str :=
  match m with [] => None | (k', v) :: m => if str_eqb k k' then Some v else name_at k m end.
Definition insert_name (k v : str) (m : names) : names := match name_at k m with Some _ => m | None => m ++ [(k, v)] end.
Definition look_name (k : str) (m : names) : str * names :=
  match name_at k m with Some v => (v, m) | None => ([], m ++ [(k, [])]) end.

Definition dtd_name : str := [91; 100; 116; 100; 93].
(** entityDeclaration 867-911, notationDeclaration 913-924, startDoctypeDecl 926-943,
    endDoctypeDecl 945-950, charHandler 573-579, skippedEntity 973-978. *)
Definition declare (h : settings) (c : callback) (m : names) : list news * names :=
  match c with
  | XEntity n _ value sys pub notation =>
      match sys, pub, notation with
      | None, None, None => (tell (s_decl h) (InternalEntityDecl n (text_of_id value)), m)
      | _, _, None =>
          (tell (s_decl h) (ExternalEntityDecl n (text_of_id pub) (text_of_id sys)),
           insert_name (text_of_id sys) n (insert_name (text_of_id pub) n m))
      | _, _, Some k => (tell (s_dtd h) (UnparsedEntityDecl n (text_of_id pub) (text_of_id sys) k), m)
      end
  | XNotation n sys pub => (tell (s_dtd h) (NotationDecl n (text_of_id pub) (text_of_id sys)), m)
  | XDoctype n sys pub =>
      if s_lexical h
      then ([Heard (StartDTD n (text_of_id pub) (text_of_id sys))],
            insert_name (text_of_id sys) dtd_name (insert_name (text_of_id pub) dtd_name m))
      else ([], m)
  | XEndDoctype => (tell (s_lexical h) EndDTD, m)
  | XText s => (tell (s_content h) (Characters s), m)
  | XSkipped n => (tell (s_content h) (SkippedEntity n), m)
  | XExternal _ _ => ([], m)
  end.
(** What a parse came to: what was told, the map, and whether it succeeded. *)
Definition result : Type := list news * names * bool.
Definition nonempty (s : str) : bool := match s with [] => false | _ => true end.
Section Reader.
  Context (h : settings).
  (** What expat does with the text at a place: its callbacks, and whether it found no error in it.
      None: there is nothing to be read at that place (see Resolver.v). *)
  Context (text : str -> str -> option (list callback * bool)).
  (** The input source, 1006-1020. *)
  Definition source (pub sys : str) : str * str :=
    match s_resolver h with
    | Some f => let '(p, s) := f pub sys in if nonempty p || nonempty s then (p, s) else (pub, sys)
    | None => (pub, sys)
    end.
  (** externalEntityRefHandler, 980-1032. *)
  Definition external (inner : str * str -> names -> outcome result) (sys pub : option str) (m : names) : outcome result :=
    let '(n, m) := match sys, pub with
                   | Some s, _ => look_name s m
                   | None, Some p => look_name p m
                   | None, None => ([], m)
                   end in
    if s_resolving h then
      obind (inner (source (text_of_id pub) (text_of_id sys)) m) (fun '(l, m, ok) =>
      Val (tell (nonempty n && s_lexical h) (StartEntity n) ++ l ++ tell (nonempty n && s_lexical h) (EndEntity n), m, ok))
    else Val (tell (nonempty n && s_content h) (SkippedEntity n), m, true).
  (** What expat calls for one text. *)
  Fixpoint feed (inner : str * str -> names -> outcome result) (l : list callback) (m : names) : outcome result :=
    match l with
    | [] => Val ([], m, true)
    | c :: l =>
        obind match c with
              | XExternal sys pub => external inner sys pub m
              | _ => let '(e, m) := declare h c m in Val (e, m, true)
              end (fun '(e, m, ok) =>
        if ok then obind (feed inner l m) (fun '(e', m, ok) => Val (e ++ e', m, ok)) else Val (e, m, false))
    end.
  (** do_parse, 479-507.  reportError, 545-560.  The fuel is for entities in entities. *)
  Fixpoint do_parse (fuel : nat) (place : str * str) (m : names) : outcome result :=
    match fuel with
    | O => NoFuel
    | S fuel =>
        match text (fst place) (snd place) with
        | None => Val (if s_errors h then [Unresolved] else [], m, false)
        | Some (l, fine) =>
            obind (feed (do_parse fuel) l m) (fun '(e, m, ok) =>
            if ok && fine then Val (e, m, true) else Val (e ++ (if s_errors h then [Malformed] else []), m, false))
        end
    end.
End Reader.
