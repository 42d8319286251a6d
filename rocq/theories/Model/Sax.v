(** SAX events, and the filters of include/SAX/filter that transform them.
    A filter that overrides nothing forwards every event unchanged:
    include/SAX/helpers/XMLFilterImpl.hpp:290-536.  Locators and error events are
    left out. *)
From Verif.Model Require Import Base Attrs Text.

Inductive sax :=
  | StartDocument | EndDocument
  | StartPrefix (p u : str) | EndPrefix (p : str)
  | StartElement (uri local qname : str) (atts : list attr)
  | EndElement (uri local qname : str)
  | Characters (s : str) | IgnorableWhitespace (s : str)
  | PI (target data : str) | SkippedEntity (name : str)
  | StartDTD (name pub sys : str) | EndDTD
  | StartEntity (name : str) | EndEntity (name : str)
  | StartCDATA | EndCDATA | Comment (s : str)
  | NotationDecl (name pub sys : str)
  | UnparsedEntityDecl (name pub sys notation : str)
  | ElementDecl (name model : str)
  | AttributeDecl (elem name type default value : str)
  | InternalEntityDecl (name value : str)
  | ExternalEntityDecl (name pub sys : str).

(** TextCoalescer, TextCoalescer.hpp:37-108: the buffer and the events passed on. *)
Definition flush (buf : str) : list sax := match buf with [] => [] | _ => [Characters buf] end.
Definition coalesce1 (e : sax) (buf : str) : list sax * str :=
  match e with
  | Characters s | IgnorableWhitespace s => ([], buf ++ s)
  | StartElement _ _ _ _ | EndElement _ _ _ | PI _ _ | StartCDATA | EndCDATA | Comment _
  | StartEntity _ | EndEntity _ => (flush buf ++ [e], [])
  | _ => ([e], buf)
  end.
Fixpoint coalescer (evs : list sax) (buf : str) : list sax * str :=
  match evs with
  | [] => ([], buf)
  | e :: r => let (o, b) := coalesce1 e buf in
              let (o', b') := coalescer r b in (o ++ o', b')
  end.

(** WhitespaceStripper, WhitespaceStripperFilter.hpp:30-37. *)
Definition strip1 (e : sax) : outcome (list sax) :=
  match e with
  | Characters s => obind (normalize_whitespace s) (fun t => Val [Characters t])
  | IgnorableWhitespace _ => Val []
  | _ => Val [e]
  end.
Fixpoint stripper (evs : list sax) : outcome (list sax) :=
  match evs with
  | [] => Val []
  | e :: r => obind (strip1 e) (fun a => obind (stripper r) (fun b => Val (a ++ b)))
  end.

(** PYXWriter, PYXWriter.hpp:55-110: what each event prints. *)
Definition pyx_escape (s : str) : str :=
  flat_map (fun c => if c =? 10 then [92; 110] else [c]) s.
Definition pyx_attr (a : attr) : str :=
  [65] ++ a_local a ++ [32] ++ pyx_escape (a_value a) ++ [10].
Definition pyx1 (e : sax) : str :=
  match e with
  | StartElement _ local _ atts => [40] ++ local ++ [10] ++ flat_map pyx_attr atts
  | EndElement _ local _ => [41] ++ local ++ [10]
  | Characters s => [45] ++ pyx_escape s ++ [10]
  | PI t d => [63] ++ t ++ [32] ++ d ++ [10]
  | _ => []
  end.
Definition pyx (evs : list sax) : str := flat_map pyx1 evs.
