(** Independent specifications for the text helpers. *)
From Coq Require Import List ZArith Bool.
Import ListNotations.
Open Scope Z_scope.

(** * What an XML processor reads *)

(** XML 1.0 section 2.11: CR LF and lone CR become LF before parsing. *)
Fixpoint eol (s : list Z) : list Z :=
  match s with
  | [] => []
  | c :: r =>
      if c =? 13 then
        match r with
        | d :: r' => if d =? 10 then 10 :: eol r' else 10 :: eol r
        | [] => [10]
        end
      else c :: eol r
  end.

(** The five predefined entities and character references. *)
Definition str_is (a b : list Z) : bool := if list_eq_dec Z.eq_dec a b then true else false.
Definition hex_digit (c : Z) : option Z :=
  if (48 <=? c) && (c <=? 57) then Some (c - 48)
  else if (65 <=? c) && (c <=? 70) then Some (c - 55)
  else if (97 <=? c) && (c <=? 102) then Some (c - 87)
  else None.
Fixpoint number (base acc : Z) (s : list Z) : option Z :=
  match s with
  | [] => Some acc
  | c :: r => match hex_digit c with
              | Some d => if d <? base then number base (base * acc + d) r else None
              | None => None
              end
  end.
Definition ref_value (name : list Z) : option Z :=
  if str_is name [108; 116] then Some 60            (* lt *)
  else if str_is name [103; 116] then Some 62       (* gt *)
  else if str_is name [97; 109; 112] then Some 38   (* amp *)
  else if str_is name [113; 117; 111; 116] then Some 34 (* quot *)
  else if str_is name [97; 112; 111; 115] then Some 39  (* apos *)
  else match name with
       | 35 :: 120 :: d :: r => number 16 0 (d :: r)
       | 35 :: d :: r => number 10 0 (d :: r)
       | _ => None
       end.

(** Character data: literal characters (false) and expanded references (true).
    [inref] holds the name read so far.  A "<" or an unfinished or unknown
    reference is an error. *)
Fixpoint expand (inref : option (list Z)) (s : list Z) : option (list (bool * Z)) :=
  match inref, s with
  | None, [] => Some []
  | Some _, [] => None
  | None, c :: r =>
      if c =? 38 then expand (Some []) r
      else if c =? 60 then None
      else match expand None r with Some l => Some ((false, c) :: l) | None => None end
  | Some n, c :: r =>
      if c =? 59 then
        match ref_value n, expand None r with
        | Some v, Some l => Some ((true, v) :: l)
        | _, _ => None
        end
      else expand (Some (n ++ [c])) r
  end.

(** Element content, and a double-quoted attribute value with the CDATA
    normalisation of section 3.3.3. *)
Definition read_content (s : list Z) : option (list Z) :=
  match expand None (eol s) with Some l => Some (map snd l) | None => None end.
Definition norm_attr (x : bool * Z) : Z :=
  let (ref, c) := x in
  if negb ref && ((c =? 9) || (c =? 10) || (c =? 13)) then 32 else c.
Definition read_attribute (s : list Z) : option (list Z) :=
  if existsb (fun c => c =? 34) s then None
  else match expand None (eol s) with Some l => Some (map norm_attr l) | None => None end.

(** * White space normalisation (XPath normalize-space) *)

Definition white (c : Z) : bool := (c =? 32) || (c =? 9) || (c =? 10) || (c =? 13).

(** The maximal runs of non-white characters, in order. *)
Fixpoint words_acc (w : list Z) (s : list Z) : list (list Z) :=
  match s with
  | [] => match w with [] => [] | _ => [w] end
  | c :: r => if white c then match w with [] => words_acc [] r | _ => w :: words_acc [] r end
              else words_acc (w ++ [c]) r
  end.
Definition words (s : list Z) : list (list Z) := words_acc [] s.
Fixpoint spaced (ws : list (list Z)) : list Z :=
  match ws with
  | [] => []
  | [w] => w
  | w :: ws' => w ++ 32 :: spaced ws'
  end.
