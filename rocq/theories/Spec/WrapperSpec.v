(** The SAX events of a document with namespaces: SAX 2 and Namespaces in XML 1.0. *)
From Coq Require Import List ZArith Bool Permutation.
Import ListNotations.
Open Scope Z_scope.
From Verif.Model Require Import Base Attrs Sax.
From Verif.Spec Require Import XmlChars.

(** Names with and without a prefix, and how they are written. *)
Inductive xname := Plain (local : str) | Prefixed (prefix local : str).
Definition written (n : xname) : str :=
  match n with Plain l => l | Prefixed p l => p ++ [58] ++ l end.
Definition xmlns : str := [120; 109; 108; 110; 115].
Definition xml : str := [120; 109; 108].

(** An attribute declares a namespace (without a prefix: the default one) or has a value. *)
Inductive attribute := Declares (prefix : option str) (uri : str) | Has (n : xname) (v : str).
Definition written_attribute (a : attribute) : str * str :=
  match a with
  | Declares None u => (xmlns, u)
  | Declares (Some p) u => (xmlns ++ [58] ++ p, u)
  | Has n v => (written n, v)
  end.

Inductive node :=
  | Element (n : xname) (atts : list attribute) (kids : list node)
  | Data (s : str) | Section (s : str) | Instruction (target data : str) | Remark (s : str).

(** Which namespace a prefix stands for; the empty prefix is the default namespace. *)
Definition scope := str -> option str.
Definition outermost : scope := fun p =>
  if list_eq_dec Z.eq_dec p xml
  then Some [104;116;116;112;58;47;47;119;119;119;46;119;51;46;111;114;103;47;88;77;76;47;49;57;57;56;47;
             110;97;109;101;115;112;97;99;101]
  else None.
Definition prefix_of (p : option str) : str := match p with Some p => p | None => [] end.
Definition declarations (atts : list attribute) : list (str * str) :=
  flat_map (fun a => match a with Declares p u => [(prefix_of p, u)] | Has _ _ => [] end) atts.
Fixpoint assoc (l : list (str * str)) (p : str) : option str :=
  match l with
  | [] => None
  | (q, u) :: r => if list_eq_dec Z.eq_dec q p then Some u else assoc r p
  end.
Definition within (sc : scope) (atts : list attribute) : scope := fun p =>
  match assoc (declarations atts) p with Some u => Some u | None => sc p end.

Definition bound (sc : scope) (p : str) : str := match sc p with Some u => u | None => [] end.
Definition local (n : xname) : str := match n with Plain l => l | Prefixed _ l => l end.
(** The default namespace does not apply to attributes. *)
Definition element_uri (sc : scope) (n : xname) : str :=
  match n with Plain _ => bound sc [] | Prefixed p _ => bound sc p end.
Definition attribute_uri (sc : scope) (n : xname) : str :=
  match n with Plain _ => [] | Prefixed p _ => bound sc p end.

Section Shown.
  Context (prefixes : bool)   (* the feature namespace-prefixes *)
          (lexical : bool).   (* a lexical handler listens *)

  Definition shown_attribute (sc : scope) (a : attribute) : list attr :=
    match a with
    | Declares _ u =>
        if prefixes then [Attr [] [] (fst (written_attribute a)) [67; 68; 65; 84; 65] u] else []
    | Has n v => [Attr (attribute_uri sc n) (local n) (written n) [67; 68; 65; 84; 65] v]
    end.
  Definition heard_if (b : bool) (e : sax) : list sax := if b then [e] else [].

  (** The order of attributes and of the ends of mappings is not fixed. *)
  Inductive shows : scope -> node -> list sax -> Prop :=
    | shows_element sc n atts kids shown inner ends :
        Permutation shown (flat_map (shown_attribute (within sc atts)) atts) ->
        shows_all (within sc atts) kids inner ->
        Permutation ends (map fst (declarations atts)) ->
        shows sc (Element n atts kids)
          (map (fun d => StartPrefix (fst d) (snd d)) (declarations atts)
           ++ [StartElement (element_uri (within sc atts) n) (local n) (written n) shown]
           ++ inner
           ++ [EndElement (element_uri (within sc atts) n) (local n) (written n)]
           ++ map EndPrefix ends)
    | shows_data sc s : shows sc (Data s) [Characters s]
    | shows_section sc s :
        shows sc (Section s) (heard_if lexical StartCDATA ++ [Characters s] ++ heard_if lexical EndCDATA)
    | shows_instruction sc t d : shows sc (Instruction t d) [PI t d]
    | shows_remark sc s : shows sc (Remark s) (heard_if lexical (Comment s))
  with shows_all : scope -> list node -> list sax -> Prop :=
    | shows_none sc : shows_all sc [] []
    | shows_more sc x l evs evs' : shows sc x evs -> shows_all sc l evs' ->
        shows_all sc (x :: l) (evs ++ evs').
End Shown.

(** Documents that meet the namespace constraints: every prefix used is bound to a
    namespace, none is declared twice on an element, xml and xmlns are not declared. *)
Definition proper_name (sc : scope) (n : xname) : Prop :=
  match n with
  | Plain l => NCName l
  | Prefixed p l => NCName p /\ NCName l /\ bound sc p <> []
  end.
Definition proper_attribute (sc : scope) (a : attribute) : Prop :=
  match a with
  | Declares None _ => True
  | Declares (Some p) _ => NCName p /\ p <> xml /\ p <> xmlns
  | Has n _ => proper_name sc n
  end.
Fixpoint all_proper (sc : scope) (x : node) : Prop :=
  match x with
  | Element n atts kids =>
      NoDup (map fst (declarations atts))
      /\ proper_name (within sc atts) n
      /\ Forall (proper_attribute (within sc atts)) atts
      /\ (fix each l := match l with
                        | [] => True
                        | k :: r => all_proper (within sc atts) k /\ each r
                        end) kids
  | _ => True
  end.

(** No attribute that is not a declaration has a name that begins with xmlns. *)
Definition plain_attribute (a : attribute) : Prop :=
  match a with
  | Declares _ _ => True
  | Has n _ => forall r, written n <> xmlns ++ r
  end.
Fixpoint every (f : list attribute -> Prop) (x : node) : Prop :=
  match x with
  | Element _ atts kids =>
      f atts /\ (fix each l := match l with [] => True | k :: r => every f k /\ each r end) kids
  | _ => True
  end.
(** No CDATA section follows another immediately. *)
Definition is_section (x : node) : bool := match x with Section _ => true | _ => false end.
Fixpoint parted (before : bool) (l : list node) : Prop :=
  match l with
  | [] => True
  | x :: r => (before && is_section x = false) /\ parted (is_section x) r
  end.
Fixpoint all_parted (x : node) : Prop :=
  match x with
  | Element _ _ kids =>
      parted false kids
      /\ (fix each l := match l with [] => True | k :: r => all_parted k /\ each r end) kids
  | _ => True
  end.

(** The callbacks the libraries make for a node. *)
From Verif.Model Require Import Wrapper.
Fixpoint calls (lib : library) (x : node) : list callback :=
  match x with
  | Element n atts kids =>
      CStart (written n) (map written_attribute atts) :: flat_map (calls lib) kids
      ++ [CEnd (written n)]
  | Data s => [CText s]
  | Section s => match lib with
                 | Expat => [CStartCdata; CText s; CEndCdata]
                 | Libxml2 => [CCdata s]
                 end
  | Instruction t d => [CPI t d]
  | Remark s => [CComment s]
  end.
