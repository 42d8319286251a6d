(** A small XML reader, written from the XML 1.0 recommendation (without DTDs): what
    markup a text stands for.  It rejects mismatched or unclosed tags, repeated
    attribute names, unknown references, "<" in attribute values, "--" in comments
    and "]]>" in character data.  Names are runs of characters other than white space
    and markup characters, so it accepts every XML Name. *)
From Coq Require Import List ZArith Bool.
From Verif.Spec Require Import TextSpec.
Import ListNotations.
Open Scope Z_scope.

Notation txt := (list Z) (only parsing).

Inductive tok :=
  | TStart (name : list Z) (atts : list (list Z * list Z))
  | TEnd (name : list Z)
  | TText (s : list Z)
  | TComment (s : list Z)
  | TPI (target data : list Z).

(** [starts p s]: what follows [p] in [s]; [until p s]: the text before and after the
    first [p] in [s]. *)
Fixpoint starts (p s : txt) : option txt :=
  match p, s with
  | [], _ => Some s
  | x :: p', c :: s' => if x =? c then starts p' s' else None
  | _ :: _, [] => None
  end.
Fixpoint until (p s : txt) : option (txt * txt) :=
  match starts p s with
  | Some r => Some ([], r)
  | None => match s with
            | [] => None
            | c :: s' => match until p s' with Some (a, b) => Some (c :: a, b) | None => None end
            end
  end.
Fixpoint span (f : Z -> bool) (s : txt) : txt * txt :=
  match s with
  | [] => ([], [])
  | c :: r => if f c then let (a, b) := span f r in (c :: a, b) else ([], s)
  end.

(** Names end at white space, a quote or one of / > = < & ? and the exclamation mark. *)
Definition name_char (c : Z) : bool :=
  negb (white c) && negb (existsb (Z.eqb c) [47; 62; 61; 60; 38; 39; 34; 63; 33]).
Definition read_name (s : txt) : option (txt * txt) :=
  match span name_char s with ([], _) => None | (n, r) => Some (n, r) end.
Definition skip_white (s : txt) : txt := snd (span white s).

Definition text_is (a b : txt) : bool := if list_eq_dec Z.eq_dec a b then true else false.

(** Attributes: white space, name, "=", quoted value; up to ">", "/" or "?". *)
Definition attr_value (s : txt) : option txt :=
  match expand None s with Some l => Some (map norm_attr l) | None => None end.
Definition closes (s : txt) : bool :=
  match s with c :: _ => (c =? 62) || (c =? 47) || (c =? 63) | [] => false end.
Fixpoint read_attrs (fuel : nat) (s : txt) : option (list (txt * txt) * txt) :=
  match fuel with
  | O => None
  | S f =>
      if closes (skip_white s) then Some ([], skip_white s)
      else match s with
      | c :: _ =>
          if white c then
            match read_name (skip_white s) with
            | Some (n, r) =>
                match skip_white r with
                | 61 :: r2 =>
                    match skip_white r2 with
                    | q :: r3 =>
                        if (q =? 34) || (q =? 39) then
                          match until [q] r3 with
                          | Some (v, r4) =>
                              match attr_value v, read_attrs f r4 with
                              | Some v', Some (l, r5) =>
                                  if existsb (fun x => text_is (fst x) n) l then None
                                  else Some ((n, v') :: l, r5)
                              | _, _ => None
                              end
                          | None => None
                          end
                        else None
                    | [] => None
                    end
                | _ => None
                end
            | None => None
            end
          else None
      | [] => None
      end
  end.

(** One piece of markup, or one character of text. *)
Inductive piece :=
  | KStart (name : list Z) (atts : list (list Z * list Z)) (empty : bool)
  | KEnd (name : list Z)
  | KText (s : list Z)
  | KComment (s : list Z)
  | KPI (target data : list Z).

Definition read_comment (r : txt) : option (piece * txt) :=
  match until [45; 45] r with
  | Some (s, 62 :: r') => Some (KComment s, r')
  | _ => None
  end.
Definition read_cdata (r : txt) : option (piece * txt) :=
  match until [93; 93; 62] r with Some (s, r') => Some (KText s, r') | None => None end.
(** The target "xml" is reserved for the declaration. *)
Definition reserved (t : txt) : bool :=
  match t with
  | [a; b; c] => ((a =? 120) || (a =? 88)) && ((b =? 109) || (b =? 77)) && ((c =? 108) || (c =? 76))
  | _ => false
  end.
Definition read_pi (r : txt) : option (piece * txt) :=
  match read_name r with
  | Some (t, r1) =>
      if reserved t then None
      else match starts [63; 62] r1 with
      | Some r' => Some (KPI t [], r')
      | None =>
          match r1 with
          | c :: _ => if white c then
                        match until [63; 62] (skip_white r1) with
                        | Some (d, r') => Some (KPI t d, r')
                        | None => None
                        end
                      else None
          | [] => None
          end
      end
  | None => None
  end.
Definition read_end (r : txt) : option (piece * txt) :=
  match read_name r with
  | Some (n, r1) => match skip_white r1 with 62 :: r' => Some (KEnd n, r') | _ => None end
  | None => None
  end.
Definition read_start (r : txt) : option (piece * txt) :=
  match read_name r with
  | Some (n, r1) =>
      match read_attrs (S (length r1)) r1 with
      | Some (atts, r2) =>
          match starts [62] r2, starts [47; 62] r2 with
          | Some r', _ => Some (KStart n atts false, r')
          | None, Some r' => Some (KStart n atts true, r')
          | None, None => None
          end
      | None => None
      end
  | None => None
  end.
Definition read_ref (r : txt) : option (piece * txt) :=
  match until [59] r with
  | Some (n, r') => match ref_value n with Some v => Some (KText [v], r') | None => None end
  | None => None
  end.
Definition read_piece (s : txt) : option (piece * txt) :=
  match starts [60; 33; 45; 45] s, starts [60; 33; 91; 67; 68; 65; 84; 65; 91] s,
        starts [60; 63] s, starts [60; 47] s with
  | Some r, _, _, _ => read_comment r
  | _, Some r, _, _ => read_cdata r
  | _, _, Some r, _ => read_pi r
  | _, _, _, Some r => read_end r
  | None, None, None, None =>
      match s with
      | [] => None
      | c :: r => if c =? 60 then read_start r
                  else if c =? 38 then read_ref r
                  else match starts [93; 93; 62] s with Some _ => None | None => Some (KText [c], r) end
      end
  end.

(** Content: pieces until the end of the text, tags matching. *)
Definition enter (open : list txt) (k : piece) : option (list txt * list tok) :=
  match k with
  | KStart n atts false => Some (n :: open, [TStart n atts])
  | KStart n atts true => Some (open, [TStart n atts; TEnd n])
  | KEnd n => match open with
              | m :: o => if text_is n m then Some (o, [TEnd n]) else None
              | [] => None
              end
  | KText s => Some (open, [TText s])
  | KComment s => Some (open, [TComment s])
  | KPI t d => Some (open, [TPI t d])
  end.
Fixpoint read_all (fuel : nat) (open : list txt) (s : txt) : option (list tok) :=
  match fuel with
  | O => None
  | S f =>
      match s with
      | [] => match open with [] => Some [] | _ => None end
      | _ => match read_piece s with
             | Some (k, r) =>
                 match enter open k with
                 | Some (open', l) =>
                     match read_all f open' r with Some l' => Some (l ++ l') | None => None end
                 | None => None
                 end
             | None => None
             end
      end
  end.

(** Adjacent text is one text; empty text is none. *)
Definition text_tok (s : txt) : list tok := match s with [] => [] | _ => [TText s] end.
Fixpoint join_acc (run : txt) (l : list tok) : list tok :=
  match l with
  | [] => text_tok run
  | TText s :: r => join_acc (run ++ s) r
  | t :: r => text_tok run ++ t :: join_acc [] r
  end.
Definition join (l : list tok) : list tok := join_acc [] l.

(** A whole text: line ends are normalised, an XML declaration may come first. *)
Definition read_content_text (s : txt) : option (list tok) :=
  match read_all (S (length s)) [] s with Some l => Some (join l) | None => None end.
Definition read_decl (s : txt) : option (list (txt * txt) * txt) :=
  match starts [60; 63; 120; 109; 108] s with
  | Some (c :: r) =>
      if white c then
        match read_attrs (S (length (c :: r))) (c :: r) with
        | Some (atts, r1) => match starts [63; 62] r1 with Some r2 => Some (atts, r2) | None => None end
        | None => None
        end
      else Some ([], s)
  | _ => Some ([], s)
  end.
Definition read_xml (s : txt) : option (list (txt * txt) * list tok) :=
  match read_decl (eol s) with
  | Some (d, r) => match read_content_text r with Some l => Some (d, l) | None => None end
  | None => None
  end.

(** Text with some characters left out. *)
Definition keep_text (f : Z -> bool) (t : tok) : tok :=
  match t with TText s => TText (filter f s) | _ => t end.
Definition without_white (l : list tok) : list tok :=
  join (map (keep_text (fun c => negb (white c))) l).

(** Conditions under which a text can be written literally. *)
Definition contains (p s : txt) : Prop := exists a b, s = a ++ p ++ b.
Definition is_name (s : txt) : Prop := s <> [] /\ forallb name_char s = true.
Definition comment_ok (s : txt) : Prop := ~ In 13 s /\ ~ contains [45; 45] (s ++ [45]).
Definition cdata_ok (s : txt) : Prop := ~ In 13 s /\ ~ contains [93; 93; 62] s.
Definition pi_ok (t d : txt) : Prop :=
  is_name t /\ reserved t = false /\ ~ In 13 d /\ ~ contains [63; 62] d
  /\ match d with c :: _ => white c = false | [] => True end.
