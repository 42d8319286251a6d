(** XML documents as they are written (XML 1.0, without references in attribute values and
    character references), and what SAX tells of them. *)
From Coq Require Import List ZArith Bool.
Import ListNotations.
Open Scope Z_scope.
From Verif.Model Require Import Base Attrs Sax.
From Verif.Spec Require Import XmlChars.

Definition Name (s : str) : Prop :=
  match s with
  | [] => False
  | c :: t => (among c Letter \/ c = 95 \/ c = 58) /\ Forall (fun d => among d NameChar) t
  end.
Definition byte (c : Z) : Prop := 0 <= c < 256.
Definition bytes (s : str) : Prop := Forall byte s.
Definition name (s : str) : Prop := Name s /\ bytes s.
Definition space (s : str) : Prop := Forall (fun c => among c White) s.
Definition never (t s : str) : Prop := forall a b, s <> a ++ t ++ b.

(** [41] Attribute, with the space before it. *)
Record att := Att_ { at_gap : str; at_name : str; at_eq1 : str; at_eq2 : str; at_quote : Z; at_value : str }.
Definition write_att (a : att) : str :=
  at_gap a ++ at_name a ++ at_eq1 a ++ [61] ++ at_eq2 a ++ [at_quote a] ++ at_value a ++ [at_quote a].
Definition good_att (a : att) : Prop :=
  space (at_gap a) /\ at_gap a <> [] /\ name (at_name a) /\ space (at_eq1 a) /\ space (at_eq2 a)
  /\ (at_quote a = 34 \/ at_quote a = 39)
  /\ ~ In 60 (at_value a) /\ ~ In 38 (at_value a) /\ ~ In (at_quote a) (at_value a).

Inductive predefined := Lt_ | Gt_ | Amp_ | Apos_ | Quot_.
Definition write_predefined (p : predefined) : str :=
  match p with
  | Lt_ => [38; 108; 116; 59] | Gt_ => [38; 103; 116; 59] | Amp_ => [38; 97; 109; 112; 59]
  | Apos_ => [38; 97; 112; 111; 115; 59] | Quot_ => [38; 113; 117; 111; 116; 59]
  end.
Definition stands_for (p : predefined) : Z :=
  match p with Lt_ => 60 | Gt_ => 62 | Amp_ => 38 | Apos_ => 39 | Quot_ => 34 end.

(** [43] content: text, then nodes each with the text after it. *)
Inductive node :=
  | Empty_ (n : str) (atts : list att) (tail : str)
  | Full_ (n : str) (atts : list att) (tail : str) (first : str) (kids : list (node * str)) (tail' : str)
  | Stands (p : predefined)
  | Section_ (s : str) | Remark_ (s : str) | Instruction_ (target gap data : str).

Definition write_start (n : str) (atts : list att) (tail : str) : str :=
  [60] ++ n ++ flat_map write_att atts ++ tail.
Definition write_section (s : str) : str := [60; 33; 91; 67; 68; 65; 84; 65; 91] ++ s ++ [93; 93; 62].
Definition write_remark (s : str) : str := [60; 33; 45; 45] ++ s ++ [45; 45; 62].
Definition write_instruction (t gap d : str) : str := [60; 63] ++ t ++ gap ++ d ++ [63; 62].
Fixpoint write (x : node) : str :=
  match x with
  | Empty_ n atts tail => write_start n atts tail ++ [47; 62]
  | Full_ n atts tail first kids tail' =>
      write_start n atts tail ++ [62] ++ first
      ++ flat_map (fun k => write (fst k) ++ snd k) kids
      ++ [60; 47] ++ n ++ tail' ++ [62]
  | Stands p => write_predefined p
  | Section_ s => write_section s
  | Remark_ s => write_remark s
  | Instruction_ t gap d => write_instruction t gap d
  end.

(** What SAX tells.  The parser knows nothing of namespaces; names are told as local names. *)
Definition text_told (s : str) : list sax := match s with [] => [] | _ => [Characters s] end.
Definition att_told (a : att) : attr := Attr [] (at_name a) [] [67; 68; 65; 84; 65] (at_value a).
Fixpoint told (x : node) : list sax :=
  match x with
  | Empty_ n atts _ => [StartElement [] n [] (map att_told atts); EndElement [] n []]
  | Full_ n atts _ first kids _ =>
      [StartElement [] n [] (map att_told atts)] ++ text_told first
      ++ flat_map (fun k => told (fst k) ++ text_told (snd k)) kids ++ [EndElement [] n []]
  | Stands p => [Characters [stands_for p]]
  | Section_ s => text_told s
  | Remark_ _ => []
  | Instruction_ t _ d => [PI t d]
  end.

Section Good.
  (** The characters that comments, sections, instructions and document types may have. *)
  Context (char : Z -> Prop).
  Definition good_text (s : str) : Prop := ~ In 60 s /\ ~ In 38 s /\ never [93; 93; 62] s.
  Definition good_section (s : str) : Prop := Forall char s /\ never [93; 93; 62] s.
  Definition good_remark (s : str) : Prop :=
    Forall char s /\ never [45; 45] s /\ (forall a, s <> a ++ [45]).
  Definition says_xml (t : str) : Prop :=
    exists x m l, t = [x; m; l] /\ (x = 120 \/ x = 88) /\ (m = 109 \/ m = 77) /\ (l = 108 \/ l = 76).
  Definition good_instruction (t gap d : str) : Prop :=
    name t /\ ~ says_xml t /\ space gap /\ Forall char d /\ never [63; 62] d
    /\ (d <> [] -> gap <> [])
    /\ match d with [] => True | c :: _ => ~ among c White end.
  Inductive good : node -> Prop :=
    | good_empty n atts tail : name n -> Forall good_att atts -> space tail -> good (Empty_ n atts tail)
    | good_full n atts tail first kids tail' :
        name n -> Forall good_att atts -> space tail -> good_text first ->
        Forall (fun k => good (fst k) /\ good_text (snd k)) kids -> space tail' ->
        good (Full_ n atts tail first kids tail')
    | good_stands p : good (Stands p)
    | good_section_ s : good_section s -> good (Section_ s)
    | good_remark_ s : good_remark s -> good (Remark_ s)
    | good_instruction_ t gap d : good_instruction t gap d -> good (Instruction_ t gap d).
End Good.
Definition is_element (x : node) : Prop :=
  match x with Empty_ _ _ _ | Full_ _ _ _ _ _ _ => True | _ => False end.
Definition is_misc (x : node) : Prop :=
  match x with Remark_ _ | Instruction_ _ _ _ => True | _ => False end.

(** What may stand around the root element: space, and comments and instructions with space
    after each. *)
Record misc := Misc_ { m_space : str; m_items : list (node * str) }.
Definition write_misc (m : misc) : str :=
  m_space m ++ flat_map (fun k => write (fst k) ++ snd k) (m_items m).
Definition misc_told (m : misc) : list sax := flat_map (fun k => told (fst k)) (m_items m).
Definition good_misc (char : Z -> Prop) (m : misc) : Prop :=
  space (m_space m)
  /\ Forall (fun k => is_misc (fst k) /\ good char (fst k) /\ space (snd k)) (m_items m).

(** [24], [32], [80]: the parts of the XML declaration. *)
Record pseudo := Pseudo { ps_gap : str; ps_eq1 : str; ps_eq2 : str; ps_quote : Z; ps_value : str }.
Definition write_pseudo (n : str) (p : pseudo) : str :=
  ps_gap p ++ n ++ ps_eq1 p ++ [61] ++ ps_eq2 p ++ [ps_quote p] ++ ps_value p ++ [ps_quote p].
Definition good_pseudo (value : str -> Prop) (p : pseudo) : Prop :=
  space (ps_gap p) /\ ps_gap p <> [] /\ space (ps_eq1 p) /\ space (ps_eq2 p)
  /\ (ps_quote p = 34 \/ ps_quote p = 39) /\ value (ps_value p).
Definition version_char (c : Z) : Prop :=
  among c [(65, 90); (97, 122); (48, 57); (95, 95); (46, 46); (58, 58); (45, 45)].
Definition version (s : str) : Prop := s <> [] /\ Forall version_char s.
Definition encoding (s : str) : Prop :=
  match s with
  | [] => False
  | c :: t => among c [(65, 90); (97, 122)] /\ Forall (fun d => version_char d /\ d <> 58) t
  end.
Definition yes_no (s : str) : Prop := s = [121; 101; 115] \/ s = [110; 111].
Record declaration := Declaration {
  d_version : pseudo; d_encoding : option pseudo; d_standalone : option pseudo; d_tail : str }.
Definition write_option {A} (w : A -> str) (o : option A) : str :=
  match o with Some a => w a | None => [] end.
Definition write_declaration (d : declaration) : str :=
  [60; 63; 120; 109; 108]
  ++ write_pseudo [118; 101; 114; 115; 105; 111; 110] (d_version d)
  ++ write_option (write_pseudo [101; 110; 99; 111; 100; 105; 110; 103]) (d_encoding d)
  ++ write_option (write_pseudo [115; 116; 97; 110; 100; 97; 108; 111; 110; 101]) (d_standalone d)
  ++ d_tail d ++ [63; 62].
Definition if_given {A} (P : A -> Prop) (o : option A) : Prop :=
  match o with Some a => P a | None => True end.
Definition good_declaration (d : declaration) : Prop :=
  good_pseudo version (d_version d) /\ if_given (good_pseudo encoding) (d_encoding d)
  /\ if_given (good_pseudo yes_no) (d_standalone d) /\ space (d_tail d).

(** The document type, whose internal subset has no closing bracket in it. *)
Record doctype := Doctype { t_start : str; t_subset : option str; t_after : misc }.
Definition write_doctype (t : doctype) : str :=
  [60; 33; 68; 79; 67; 84; 89; 80; 69] ++ t_start t
  ++ write_option (fun s => [91] ++ s ++ [93]) (t_subset t) ++ [62] ++ write_misc (t_after t).
Definition good_doctype (char : Z -> Prop) (t : doctype) : Prop :=
  Forall char (t_start t) /\ ~ In 91 (t_start t) /\ ~ In 62 (t_start t)
  /\ if_given (fun s => Forall char s /\ ~ In 93 s) (t_subset t) /\ good_misc char (t_after t).

Record doc := Doc {
  x_declaration : option declaration; x_before : misc; x_doctype : option doctype;
  x_root : node; x_after : misc }.
Definition write_doc (d : doc) : str :=
  write_option write_declaration (x_declaration d) ++ write_misc (x_before d)
  ++ write_option write_doctype (x_doctype d) ++ write (x_root d) ++ write_misc (x_after d).
Definition good_doc (char : Z -> Prop) (d : doc) : Prop :=
  if_given good_declaration (x_declaration d) /\ good_misc char (x_before d)
  /\ if_given (good_doctype char) (x_doctype d)
  /\ is_element (x_root d) /\ good char (x_root d) /\ good_misc char (x_after d).
Definition doc_told (d : doc) : list sax :=
  [StartDocument] ++ misc_told (x_before d)
  ++ match x_doctype d with Some t => misc_told (t_after t) | None => [] end
  ++ told (x_root d) ++ misc_told (x_after d) ++ [EndDocument].
