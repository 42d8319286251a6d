(** What a SAX application may expect of the events of a parse, whatever the input was. *)
From Coq Require Import String.
From Verif.Model Require Import Base Attrs XSort Taggle.
From Coq Require Import List Permutation.
Import ListNotations.
Open Scope Z_scope.

(** * Names *)
Definition name_start (c : Z) : Prop := 65 <= c <= 90 \/ 97 <= c <= 122 \/ c = 95.
Definition name_char (c : Z) : Prop := name_start c \/ 48 <= c <= 57 \/ c = 45 \/ c = 46.
Definition ncname (s : str) : Prop := match s with c :: r => name_start c /\ Forall name_char r | [] => False end.
(** A qualified name in its parts. *)
Inductive parts : str -> option str -> str -> Prop :=
  | parts_plain l : ncname l -> parts l None l
  | parts_prefix p l : ncname p -> ncname l -> parts (p ++ 58 :: l) (Some p) l.
(** The namespace that goes with a prefix. *)
Definition prefix_uri (p : str) : str := if str_eqb p (ascii_str "xml") then ascii_str "http://www.w3.org/XML/1998/namespace" else ascii_str "urn:x-prefix:" ++ p.
(** The names of an element: the qualified one is one, the others agree with it. *)
Definition element_names (namespaces : bool) (u local q : str) : Prop :=
  exists p l, parts q p l /\
    if namespaces then local = l /\ u = match p with None => ascii_str "http://www.w3.org/1999/xhtml" | Some x => prefix_uri x end
    else local = [] /\ u = [].
(** Of an attribute, which is never a namespace declaration. *)
Definition attribute_names (a : attr) : Prop :=
  exists p l, parts (a_qname a) p l /\ a_local a = l /\ a_uri a = match p with None => [] | Some x => prefix_uri x end /\
    a_qname a <> ascii_str "xmlns" /\ p <> Some (ascii_str "xmlns").
Definition start_names (namespaces : bool) (e : hevent) : Prop :=
  match e with
  | HStart u local q atts => element_names namespaces u local q /\ Forall attribute_names atts /\ NoDup (map a_qname atts)
  | _ => True
  end.
(** * Documents *)
(** Comments, processing instructions, at most the document type; with [spaces] also white
    space that is ignored. *)
Inductive prolog (spaces : bool) : list hevent -> Prop :=
  | prolog_nil : prolog spaces []
  | prolog_comment s l : prolog spaces l -> prolog spaces (HComment s :: l)
  | prolog_pi t d l : prolog spaces l -> prolog spaces (HInstruction t d :: l)
  | prolog_dtd n p s l : prolog spaces l -> prolog spaces (HStartDTD n p s :: HEndDTD :: l)
  | prolog_space s l : spaces = true -> prolog spaces l -> prolog spaces (HIgnorable s :: l).

(** The prefixes of the names of an element are mapped to their namespaces. *)
Definition declares (mappings : list (str * str)) (u q : str) (atts : list attr) : Prop :=
  (forall p l, parts q (Some p) l -> u <> [] -> In (p, u) mappings) /\
  (forall a p l, In a atts -> parts (a_qname a) (Some p) l -> In (p, a_uri a) mappings).

(** An element: its mappings, which are those it needs, its start, its content, its end with the same names, and the end
    of each mapping, in any order.  With [late] a document type may be reported in it. *)
Inductive content (late : bool) : list hevent -> Prop :=
  | content_nil : content late []
  | content_text s l : content late l -> content late (HText s :: l)
  | content_space s l : content late l -> content late (HIgnorable s :: l)
  | content_comment s l : content late l -> content late (HComment s :: l)
  | content_pi t d l : content late l -> content late (HInstruction t d :: l)
  | content_dtd n p s l : late = true -> content late l -> content late (HStartDTD n p s :: HEndDTD :: l)
  | content_element e l : element late e -> content late l -> content late (e ++ l)
with element (late : bool) : list hevent -> Prop :=
  | an_element mappings u local q atts c ends :
      declares mappings u q atts -> content late c -> Permutation ends (map fst mappings) ->
      element late (map (fun m => HStartMapping (fst m) (snd m)) mappings ++ HStart u local q atts :: c ++ HEnd u local q :: map HEndMapping ends).

(** A document: exactly one element, and a mapping around it. *)
Inductive document (late spaces : bool) : list hevent -> Prop :=
  | a_document p u pre e : prolog spaces pre -> element late e ->
      document late spaces (HStartDocument :: HStartMapping p u :: pre ++ e ++ [HEndMapping p; HEndDocument]).

(** The elements open after the events, [None] if an end does not match the last open start. *)
Fixpoint nested (open : list (str * str * str)) (l : list hevent) : option (list (str * str * str)) :=
  match l with
  | [] => Some open
  | HStart u local q _ :: r => nested ((u, local, q) :: open) r
  | HEnd u local q :: r =>
      match open with
      | (u', local', q') :: o => if str_eqb u u' && str_eqb local local' && str_eqb q q' then nested o r else None
      | [] => None
      end
  | _ :: r => nested open r
  end.

(** * Text *)
Definition text_of (l : list hevent) : str := flat_map (fun e => match e with HText s => s | _ => [] end) l.
(** Input that is only text, in pieces: a character that is neither markup nor a reference, a
    carriage return with a line feed, a reference with its value. *)
Inductive piece := PChar (c : Z) | PReturn | PRef (body : str) (v : Z).
Definition source (p : piece) : str := match p with PChar c => [c] | PReturn => [13; 10] | PRef b _ => 38 :: b ++ [59] end.
Definition value (p : piece) : Z := match p with PChar c => c | PReturn => 10 | PRef _ v => v end.
Definition digit_of (base c d : Z) : Prop := d < base /\ (48 <= c <= 57 /\ d = c - 48 \/ 97 <= c <= 102 /\ d = c - 87 \/ 65 <= c <= 70 /\ d = c - 55).
Inductive numeral (base : Z) : str -> Z -> Prop :=
  | numeral_one c d : digit_of base c d -> numeral base [c] d
  | numeral_more s v c d : numeral base s v -> digit_of base c d -> numeral base (s ++ [c]) (v * base + d).
(** The references with ASCII values. *)
Definition reference (b : str) (v : Z) : Prop :=
  32 <= v <= 127 /\
  ((b = ascii_str "lt" /\ v = 60) \/ (b = ascii_str "gt" /\ v = 62) \/ (b = ascii_str "amp" /\ v = 38) \/ (b = ascii_str "quot" /\ v = 34) \/
   (exists d, b = 35 :: d /\ numeral 10 d v) \/ (exists x d, b = 35 :: x :: d /\ (x = 120 \/ x = 88) /\ numeral 16 d v)).
Definition text_piece (p : piece) : Prop :=
  match p with
  | PChar c => 32 <= c < 256 /\ c <> 60 /\ c <> 38 \/ c = 9 \/ c = 10
  | PReturn => True
  | PRef b v => reference b v
  end.

(** * Comments and processing instructions *)
(** A character that XML allows, as far as a byte shows. *)
Definition legal_char (c : Z) : Prop := 32 <= c < 256 \/ c = 9 \/ c = 10.
(** The text of a comment: no two hyphens together, none at the end. *)
Definition comment_text (s : str) : Prop :=
  Forall legal_char s /\ (forall a b, s <> a ++ [45; 45] ++ b) /\ (forall a, s <> a ++ [45]).
(** A target is a name without colon, other than "xml" in any case; the data do not end it. *)
Definition reserved_target (t : str) : Prop :=
  exists x m l, t = [x; m; l] /\ (x = 88 \/ x = 120) /\ (m = 77 \/ m = 109) /\ (l = 76 \/ l = 108).
Definition instruction (t d : str) : Prop :=
  ncname t /\ ~ reserved_target t /\ Forall legal_char d /\ forall a b, d <> a ++ [63; 62] ++ b.
Definition markup_event (e : hevent) : Prop :=
  match e with HComment s => comment_text s | HInstruction t d => instruction t d | _ => True end.
(** How many document types are reported. *)
Definition doctypes (l : list hevent) : nat := length (filter (fun e => match e with HStartDTD _ _ _ => true | _ => false end) l).
