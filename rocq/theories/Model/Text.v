(** Model of the text helpers: escapers, names, white space. No proofs here. *)
From Verif.Model Require Import Base Chars.

(** text_escaper::operator(), include/XML/escaper.hpp:21-50: what one character
    adds to the stream. *)
Definition text_escape1 (ch : Z) : str :=
  if ch =? 60 then [38; 108; 116; 59]
  else if ch =? 62 then [38; 103; 116; 59]
  else if ch =? 38 then [38; 97; 109; 112; 59]
  else [ch].

(** attribute_escaper::operator(), include/XML/escaper.hpp:67-108. *)
Definition attribute_escape1 (ch : Z) : str :=
  if ch =? 34 then [38; 113; 117; 111; 116; 59]
  else if ch =? 9 then [38; 35; 120; 57; 59]
  else if ch =? 10 then [38; 35; 120; 65; 59]
  else if ch =? 13 then [38; 35; 120; 68; 59]
  else text_escape1 ch.

(** std::for_each over a string with either escaper, as Writer.hpp and
    DOM/io/Stream.hpp call them. *)
Definition text_escape (s : str) : str := flat_map text_escape1 s.
Definition attribute_escape (s : str) : str := flat_map attribute_escape1 s.

(** is_ncname, include/XML/strings.hpp:14-36. *)
Definition is_ncname (s : str) : bool :=
  match s with
  | [] => false
  | c :: r => if negb (is_letter c || (c =? 95)) then false else forallb is_ncname_char r
  end.

(** basic_string::find(char): index of the first occurrence. *)
Fixpoint find_char (x : Z) (s : str) : option nat :=
  match s with
  | [] => None
  | c :: r => if c =? x then Some O
              else match find_char x r with Some n => Some (S n) | None => None end
  end.

(** is_qname, include/XML/strings.hpp:45-61. *)
Definition is_qname (s : str) : bool :=
  match find_char 58 s with
  | None => is_ncname s
  | Some n => is_ncname (firstn n s) && is_ncname (skipn (n + 1) s)
  end.

(** QualifiedName, include/XML/QName.hpp:157-160. *)
Record qname := QN { q_prefix : str; q_local : str; q_uri : str; q_raw : str }.

(** QualifiedName::parseQName, include/XML/QName.hpp:62-83; None is the
    runtime_error. *)
Definition parse_qname (raw : str) (is_attribute : bool) (mapper : str -> str)
  : option qname :=
  if negb (is_qname raw) then None
  else match find_char 58 raw with
       | None => Some (QN [] raw (if is_attribute then [] else mapper []) raw)
       | Some n =>
           let p := firstn n raw in
           Some (QN p (skipn (n + 1) raw) (mapper p) raw)
       end.

(** QualifiedName::operator==, QName.hpp:110-114, and clarkName, QName.hpp:121-132. *)
Definition qname_eqb (a b : qname) : bool :=
  str_eqb (q_local a) (q_local b) && str_eqb (q_uri a) (q_uri b).
Definition clark_name (q : qname) : str :=
  match q_uri q with
  | [] => q_local q
  | u => [123] ++ u ++ [125] ++ q_local q
  end.

(** normalize_whitespace<std::string>, include/text/normalize_whitespace.hpp:22-44.
    The string is rewritten in place: [i] reads, [p] writes into the same buffer
    [v].  Reads and writes outside the buffer give UB. *)
Fixpoint set_nth (n : nat) (x : Z) (v : str) : outcome str :=
  match n, v with
  | _, [] => UB
  | O, _ :: r => Val (x :: r)
  | S n', c :: r => obind (set_nth n' x r) (fun r' => Val (c :: r'))
  end.
Definition get_nth (n : nat) (v : str) : outcome Z :=
  match nth_error v n with Some c => Val c | None => UB end.

(** while((i != ie) && is_space( *i)) ++i; *)
Fixpoint skip_spaces (fuel : nat) (v : str) (i : nat) : outcome nat :=
  match fuel with
  | O => NoFuel
  | S fuel' =>
      if Nat.eqb i (length v) then Val i
      else obind (get_nth i v) (fun c =>
           if is_space c then skip_spaces fuel' v (S i) else Val i)
  end.
(** while((i != ie) && !is_space( *i)) *p++ = *i++; *)
Fixpoint copy_word (fuel : nat) (v : str) (i p : nat) : outcome (str * nat * nat) :=
  match fuel with
  | O => NoFuel
  | S fuel' =>
      if Nat.eqb i (length v) then Val (v, i, p)
      else obind (get_nth i v) (fun c =>
           if is_space c then Val (v, i, p)
           else obind (set_nth p c v) (fun v' => copy_word fuel' v' (S i) (S p)))
  end.
(** The outer loop. *)
Fixpoint norm_words (fuel : nat) (v : str) (i p : nat) : outcome (str * nat) :=
  match fuel with
  | O => NoFuel
  | S fuel' =>
      if Nat.eqb i (length v) then Val (v, p)
      else
        obind (copy_word (S (length v)) v i p) (fun '(v1, i1, p1) =>
        obind (skip_spaces (S (length v1)) v1 i1) (fun i2 =>
        if Nat.eqb i2 (length v1) then norm_words fuel' v1 i2 p1
        else obind (set_nth p1 32 v1) (fun v2 => norm_words fuel' v2 i2 (S p1))))
  end.
Definition normalize_whitespace (s : str) : outcome str :=
  obind (skip_spaces (S (length s)) s O) (fun i =>
  obind (norm_words (S (length s)) s i O) (fun '(v, p) => Val (firstn p v))).
