(** Specifications for the SAX filters. *)
From Coq Require Import List ZArith Bool.
From Verif.Model Require Import Base Attrs Sax.
From Verif.Spec Require Import TextSpec.
Import ListNotations.

(** * Coalescing *)
Definition is_text (e : sax) : bool :=
  match e with Characters _ | IgnorableWhitespace _ => true | _ => false end.
Definition text_of (e : sax) : list Z :=
  match e with Characters s | IgnorableWhitespace s => s | _ => [] end.
(** All the text of a sequence, and everything else in it. *)
Definition all_text (evs : list sax) : list Z := flat_map text_of evs.
Definition others (evs : list sax) : list sax := filter (fun e => negb (is_text e)) evs.

(** Every maximal run of text events becomes one event, or none if it is empty. *)
Definition one_text (s : list Z) : list sax := match s with [] => [] | _ => [Characters s] end.
Fixpoint merged (run : list Z) (evs : list sax) : list sax :=
  match evs with
  | [] => one_text run
  | e :: r => if is_text e then merged (run ++ text_of e) r
              else one_text run ++ e :: merged [] r
  end.
Fixpoint no_adjacent_text (evs : list sax) : Prop :=
  match evs with
  | [] => True
  | e :: r => match r with
              | e' :: _ => is_text e = true -> is_text e' = false
              | [] => True
              end /\ no_adjacent_text r
  end.
(** Events the coalescer waits for. *)
Definition barrier (e : sax) : bool :=
  match e with
  | StartElement _ _ _ _ | EndElement _ _ _ | PI _ _ | StartCDATA | EndCDATA | Comment _
  | StartEntity _ | EndEntity _ => true
  | _ => false
  end.
(** Every run of text is followed directly by such an event. *)
Fixpoint text_closed (pending : bool) (evs : list sax) : Prop :=
  match evs with
  | [] => pending = false
  | e :: r => if is_text e then text_closed true r
              else (pending = true -> barrier e = true) /\ text_closed false r
  end.

(** * Stripping *)
Definition visible (s : list Z) : list Z := filter (fun c => negb (white c)) s.
Definition stripped (e : sax) : list sax :=
  match e with
  | Characters s => [Characters (spaced (words s))]
  | IgnorableWhitespace _ => []
  | _ => [e]
  end.

(** * PYX *)

(** The lines of a text, and the PYX reader: the first character of a line tells
    what it is; "\n" stands for a line feed. *)
Fixpoint lines_acc (cur : list Z) (s : list Z) : option (list (list Z)) :=
  match s with
  | [] => match cur with [] => Some [] | _ => None end
  | c :: r => if c =? 10 then
                match lines_acc [] r with Some l => Some (cur :: l) | None => None end
              else lines_acc (cur ++ [c]) r
  end.
Fixpoint unescape (s : list Z) : list Z :=
  match s with
  | 92 :: (110 :: r) => 10 :: unescape r
  | c :: r => c :: unescape r
  | [] => []
  end.
Fixpoint split_space (s : list Z) : option (list Z * list Z) :=
  match s with
  | [] => None
  | c :: r => if c =? 32 then Some ([], r)
              else match split_space r with Some (a, b) => Some (c :: a, b) | None => None end
  end.
Inductive pyx_item :=
  | POpen (name : list Z) | PAttr (name value : list Z) | PClose (name : list Z)
  | PText (s : list Z) | PInstr (target data : list Z).
Definition pyx_line (l : list Z) : option pyx_item :=
  match l with
  | 40 :: n => Some (POpen n)
  | 41 :: n => Some (PClose n)
  | 45 :: t => Some (PText (unescape t))
  | 65 :: r => match split_space r with
               | Some (n, v) => Some (PAttr n (unescape v))
               | None => None
               end
  | 63 :: r => match split_space r with Some (t, d) => Some (PInstr t d) | None => None end
  | _ => None
  end.
Fixpoint pyx_lines (ls : list (list Z)) : option (list pyx_item) :=
  match ls with
  | [] => Some []
  | l :: r => match pyx_line l, pyx_lines r with
              | Some i, Some is => Some (i :: is)
              | _, _ => None
              end
  end.
Definition pyx_read (s : list Z) : option (list pyx_item) :=
  match lines_acc [] s with Some ls => pyx_lines ls | None => None end.

(** What PYX records of an event. *)
Definition pyx_items (e : sax) : list pyx_item :=
  match e with
  | StartElement _ local _ atts => POpen local :: map (fun a => PAttr (a_local a) (a_value a)) atts
  | EndElement _ local _ => [PClose local]
  | Characters s => [PText s]
  | PI t d => [PInstr t d]
  | _ => []
  end.
(** Names without line feed or space, text without backslash, instructions on one line. *)
Definition plain_name (s : list Z) : Prop := ~ In 10 s /\ ~ In 32 s.
Definition pyx_safe (e : sax) : Prop :=
  match e with
  | StartElement _ local _ atts =>
      plain_name local /\ Forall (fun a => plain_name (a_local a) /\ ~ In 92 (a_value a)) atts
  | EndElement _ local _ => plain_name local
  | Characters s => ~ In 92 s
  | PI t d => plain_name t /\ ~ In 10 d
  | _ => True
  end.
