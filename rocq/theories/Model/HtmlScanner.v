(** The HTML scanner, include/Taggle/impl/html/HTMLScanner.hpp, and the parse with it.  The line
    and column numbers are not modelled. *)
From Coq Require Import String.
From Verif.Model Require Import Base Chars Text Attrs XSort HtmlSchema Taggle.
From Coq Require Import List.
Import ListNotations.
Open Scope Z_scope.

(** HTMLScanner.hpp:28-94. *)
Inductive sstate := S_ANAME | S_APOS | S_AVAL | S_BB | S_BBC | S_BBCD | S_BBCDA | S_BBCDAT | S_BBCDATA | S_CDATA | S_CDATA2 | S_CDSECT | S_CDSECT1 | S_CDSECT2 | S_COM | S_COM2 | S_COM3 | S_COM4 | S_DECL | S_DECL2 | S_DONE | S_EMPTYTAG | S_ENT | S_EQ | S_ETAG | S_GI | S_NCR | S_PCDATA | S_PI | S_PITARGET | S_QUOT | S_STAGC | S_TAG | S_TAGWS | S_XNCR.
Inductive saction := A_ADUP | A_ADUP_SAVE | A_ADUP_STAGC | A_ANAME | A_ANAME_ADUP | A_ANAME_ADUP_STAGC | A_AVAL | A_AVAL_STAGC | A_CDATA | A_CMNT | A_DECL | A_EMPTYTAG | A_ENTITY | A_ENTITY_START | A_ETAG | A_GI | A_GI_STAGC | A_LT | A_LT_PCDATA | A_MINUS | A_MINUS2 | A_MINUS3 | A_PCDATA | A_PI | A_PITARGET | A_PITARGET_PI | A_SAVE | A_SKIP | A_SP | A_STAGC | A_UNGET | A_UNSAVE_PCDATA.
(** statetable, HTMLScanner.hpp:538-688. *)
Definition state_table : list (sstate * Z * saction * sstate) :=
  [(S_ANAME, 47, A_ANAME_ADUP, S_EMPTYTAG);
   (S_ANAME, 61, A_ANAME, S_AVAL);
   (S_ANAME, 62, A_ANAME_ADUP_STAGC, S_PCDATA);
   (S_ANAME, 0, A_SAVE, S_ANAME);
   (S_ANAME, (-1), A_ANAME_ADUP_STAGC, S_DONE);
   (S_ANAME, 32, A_ANAME, S_EQ);
   (S_ANAME, 10, A_ANAME, S_EQ);
   (S_ANAME, 9, A_ANAME, S_EQ);
   (S_APOS, 39, A_AVAL, S_TAGWS);
   (S_APOS, 0, A_SAVE, S_APOS);
   (S_APOS, (-1), A_AVAL_STAGC, S_DONE);
   (S_APOS, 32, A_SP, S_APOS);
   (S_APOS, 10, A_SP, S_APOS);
   (S_APOS, 9, A_SP, S_APOS);
   (S_AVAL, 39, A_SKIP, S_APOS);
   (S_AVAL, 34, A_SKIP, S_QUOT);
   (S_AVAL, 62, A_AVAL_STAGC, S_PCDATA);
   (S_AVAL, 0, A_SAVE, S_STAGC);
   (S_AVAL, (-1), A_AVAL_STAGC, S_DONE);
   (S_AVAL, 32, A_SKIP, S_AVAL);
   (S_AVAL, 10, A_SKIP, S_AVAL);
   (S_AVAL, 9, A_SKIP, S_AVAL);
   (S_BB, 67, A_SKIP, S_BBC);
   (S_BB, 0, A_SKIP, S_DECL);
   (S_BB, (-1), A_SKIP, S_DONE);
   (S_BBC, 68, A_SKIP, S_BBCD);
   (S_BBC, 0, A_SKIP, S_DECL);
   (S_BBC, (-1), A_SKIP, S_DONE);
   (S_BBCD, 65, A_SKIP, S_BBCDA);
   (S_BBCD, 0, A_SKIP, S_DECL);
   (S_BBCD, (-1), A_SKIP, S_DONE);
   (S_BBCDA, 84, A_SKIP, S_BBCDAT);
   (S_BBCDA, 0, A_SKIP, S_DECL);
   (S_BBCDA, (-1), A_SKIP, S_DONE);
   (S_BBCDAT, 65, A_SKIP, S_BBCDATA);
   (S_BBCDAT, 0, A_SKIP, S_DECL);
   (S_BBCDAT, (-1), A_SKIP, S_DONE);
   (S_BBCDATA, 91, A_SKIP, S_CDSECT);
   (S_BBCDATA, 0, A_SKIP, S_DECL);
   (S_BBCDATA, (-1), A_SKIP, S_DONE);
   (S_CDATA, 60, A_SAVE, S_CDATA2);
   (S_CDATA, 0, A_SAVE, S_CDATA);
   (S_CDATA, (-1), A_PCDATA, S_DONE);
   (S_CDATA2, 47, A_UNSAVE_PCDATA, S_ETAG);
   (S_CDATA2, 0, A_SAVE, S_CDATA);
   (S_CDATA2, (-1), A_UNSAVE_PCDATA, S_DONE);
   (S_CDSECT, 93, A_SAVE, S_CDSECT1);
   (S_CDSECT, 0, A_SAVE, S_CDSECT);
   (S_CDSECT, (-1), A_SKIP, S_DONE);
   (S_CDSECT1, 93, A_SAVE, S_CDSECT2);
   (S_CDSECT1, 0, A_SAVE, S_CDSECT);
   (S_CDSECT1, (-1), A_SKIP, S_DONE);
   (S_CDSECT2, 62, A_CDATA, S_PCDATA);
   (S_CDSECT2, 0, A_SAVE, S_CDSECT);
   (S_CDSECT2, (-1), A_SKIP, S_DONE);
   (S_COM, 45, A_SKIP, S_COM2);
   (S_COM, 0, A_SAVE, S_COM2);
   (S_COM, (-1), A_CMNT, S_DONE);
   (S_COM2, 45, A_SKIP, S_COM3);
   (S_COM2, 0, A_SAVE, S_COM2);
   (S_COM2, (-1), A_CMNT, S_DONE);
   (S_COM3, 45, A_SKIP, S_COM4);
   (S_COM3, 0, A_MINUS, S_COM2);
   (S_COM3, (-1), A_CMNT, S_DONE);
   (S_COM4, 45, A_MINUS3, S_COM4);
   (S_COM4, 62, A_CMNT, S_PCDATA);
   (S_COM4, 0, A_MINUS2, S_COM2);
   (S_COM4, (-1), A_CMNT, S_DONE);
   (S_DECL, 45, A_SKIP, S_COM);
   (S_DECL, 91, A_SKIP, S_BB);
   (S_DECL, 62, A_SKIP, S_PCDATA);
   (S_DECL, 0, A_SAVE, S_DECL2);
   (S_DECL, (-1), A_SKIP, S_DONE);
   (S_DECL2, 62, A_DECL, S_PCDATA);
   (S_DECL2, 0, A_SAVE, S_DECL2);
   (S_DECL2, (-1), A_SKIP, S_DONE);
   (S_EMPTYTAG, 62, A_EMPTYTAG, S_PCDATA);
   (S_EMPTYTAG, 0, A_SAVE, S_ANAME);
   (S_EMPTYTAG, 32, A_SKIP, S_TAGWS);
   (S_EMPTYTAG, 10, A_SKIP, S_TAGWS);
   (S_EMPTYTAG, 9, A_SKIP, S_TAGWS);
   (S_ENT, 0, A_ENTITY, S_ENT);
   (S_ENT, (-1), A_ENTITY, S_DONE);
   (S_EQ, 61, A_SKIP, S_AVAL);
   (S_EQ, 62, A_ADUP_STAGC, S_PCDATA);
   (S_EQ, 0, A_ADUP_SAVE, S_ANAME);
   (S_EQ, (-1), A_ADUP_STAGC, S_DONE);
   (S_EQ, 32, A_SKIP, S_EQ);
   (S_EQ, 10, A_SKIP, S_EQ);
   (S_EQ, 9, A_SKIP, S_EQ);
   (S_ETAG, 62, A_ETAG, S_PCDATA);
   (S_ETAG, 0, A_SAVE, S_ETAG);
   (S_ETAG, (-1), A_ETAG, S_DONE);
   (S_ETAG, 32, A_SKIP, S_ETAG);
   (S_ETAG, 10, A_SKIP, S_ETAG);
   (S_ETAG, 9, A_SKIP, S_ETAG);
   (S_GI, 47, A_SKIP, S_EMPTYTAG);
   (S_GI, 62, A_GI_STAGC, S_PCDATA);
   (S_GI, 0, A_SAVE, S_GI);
   (S_GI, (-1), A_SKIP, S_DONE);
   (S_GI, 32, A_GI, S_TAGWS);
   (S_GI, 10, A_GI, S_TAGWS);
   (S_GI, 9, A_GI, S_TAGWS);
   (S_NCR, 0, A_ENTITY, S_NCR);
   (S_NCR, (-1), A_ENTITY, S_DONE);
   (S_PCDATA, 38, A_ENTITY_START, S_ENT);
   (S_PCDATA, 60, A_PCDATA, S_TAG);
   (S_PCDATA, 0, A_SAVE, S_PCDATA);
   (S_PCDATA, (-1), A_PCDATA, S_DONE);
   (S_PI, 62, A_PI, S_PCDATA);
   (S_PI, 0, A_SAVE, S_PI);
   (S_PI, (-1), A_PI, S_DONE);
   (S_PITARGET, 62, A_PITARGET_PI, S_PCDATA);
   (S_PITARGET, 0, A_SAVE, S_PITARGET);
   (S_PITARGET, (-1), A_PITARGET_PI, S_DONE);
   (S_PITARGET, 32, A_PITARGET, S_PI);
   (S_PITARGET, 10, A_PITARGET, S_PI);
   (S_PITARGET, 9, A_PITARGET, S_PI);
   (S_QUOT, 34, A_AVAL, S_TAGWS);
   (S_QUOT, 0, A_SAVE, S_QUOT);
   (S_QUOT, (-1), A_AVAL_STAGC, S_DONE);
   (S_QUOT, 32, A_SP, S_QUOT);
   (S_QUOT, 10, A_SP, S_QUOT);
   (S_QUOT, 9, A_SP, S_QUOT);
   (S_STAGC, 62, A_AVAL_STAGC, S_PCDATA);
   (S_STAGC, 0, A_SAVE, S_STAGC);
   (S_STAGC, (-1), A_AVAL_STAGC, S_DONE);
   (S_STAGC, 32, A_AVAL, S_TAGWS);
   (S_STAGC, 10, A_AVAL, S_TAGWS);
   (S_STAGC, 9, A_AVAL, S_TAGWS);
   (S_TAG, 33, A_SKIP, S_DECL);
   (S_TAG, 63, A_SKIP, S_PITARGET);
   (S_TAG, 47, A_SKIP, S_ETAG);
   (S_TAG, 60, A_SAVE, S_TAG);
   (S_TAG, 0, A_SAVE, S_GI);
   (S_TAG, (-1), A_LT_PCDATA, S_DONE);
   (S_TAG, 32, A_LT, S_PCDATA);
   (S_TAG, 10, A_LT, S_PCDATA);
   (S_TAG, 9, A_LT, S_PCDATA);
   (S_TAGWS, 47, A_SKIP, S_EMPTYTAG);
   (S_TAGWS, 62, A_STAGC, S_PCDATA);
   (S_TAGWS, 0, A_SAVE, S_ANAME);
   (S_TAGWS, (-1), A_STAGC, S_DONE);
   (S_TAGWS, 32, A_SKIP, S_TAGWS);
   (S_TAGWS, 10, A_SKIP, S_TAGWS);
   (S_TAGWS, 9, A_SKIP, S_TAGWS);
   (S_XNCR, 0, A_ENTITY, S_XNCR);
   (S_XNCR, (-1), A_ENTITY, S_DONE)].
Scheme Boolean Equality for sstate.

(** The search of the table, 222-243; None for action 0. *)
Fixpoint search (st : sstate) (ch : Z) (found : option (saction * sstate)) (table : list (sstate * Z * saction * sstate)) : option (saction * sstate) :=
  match table with
  | [] => found
  | (s, c, a, n) :: r =>
      if sstate_beq st s then
        if c =? 0 then search st ch (Some (a, n)) r
        else if c =? ch then Some (a, n) else search st ch found r
      else match found with Some _ => found | None => search st ch found r end
  end.

(** The std::istream: what has been read, the last first, what has not, and whether it has
    failed.  get, and unget, which does nothing once the stream has failed; its buffer allows
    two characters to be put back. *)
Record input := Input { in_before : str; in_rest : str; in_failed : bool }.
Definition get_char (i : input) : Z * input :=
  if in_failed i then (-1, i)
  else match in_rest i with
       | [] => (-1, Input (in_before i) [] true)
       | c :: r => (c, Input (c :: in_before i) r false)
       end.
Definition unget_char (i : input) : input :=
  if in_failed i then i
  else match in_before i with
       | [] => Input [] (in_rest i) true
       | c :: b => Input b (c :: in_rest i) false
       end.
(** 198-206: a carriage return is a line feed. *)
Definition next_char (i : input) : Z * input :=
  let (ch, i1) := get_char i in
  if ch =? 13 then
    let (ch2, i2) := get_char i1 in
    if ch2 =? 10 then (10, i2) else (10, unget_char i2)
  else (ch, i1).

(** The state of the scanner, with the parser it calls. *)
Record scanner := Scanner { sc_state : sstate; sc_buffer : str; sc_input : input; sc_parser : taggle }.

(** save, 507-519.  Whether the buffer has reached its capacity depends on the library: [full]
    says so for every step, in any way. *)
Definition as_byte (ch : Z) : Z := ch mod 256.
Definition in_text (st : sstate) : bool := match st with S_PCDATA | S_CDATA => true | _ => false end.
Definition save (F : features) (full : bool) (st : sstate) (ch : Z) (b : str) (g : taggle) : outcome (str * taggle) :=
  if full && in_text st then obind (pcdata F b g) (fun g' => Val ([as_byte ch], g')) else Val (b ++ [as_byte ch], g).

(** A_ENTITY, 304-382: the next state, the buffer, the parser, and whether the character is put
    back.  substr throws on an empty buffer. *)
Definition is_hex_letter (c : Z) : bool := existsb (Z.eqb c) (ascii_str "abcdefABCDEF").
Definition more_reference (st : sstate) (ch : Z) : option sstate :=
  let c := wide ch in
  match st with
  | S_ENT => if c =? 35 then Some S_NCR else if is_letter_or_digit c then Some S_ENT else None
  | S_NCR => if (c =? 120) || (c =? 88) then Some S_XNCR else if is_digit c then Some S_NCR else None
  | S_XNCR => if is_digit c || is_hex_letter c then Some S_XNCR else None
  | _ => None
  end.
Definition reference_text (ent : Z) : str :=
  if ent <? 32 then []
  else if (55296 <=? ent) && (ent <=? 57343) then []
  else if ent <=? 65535 then [as_byte ent]
  else [as_byte (Z.shiftr (ent - 65536) 10 + 55296); as_byte (Z.land (ent - 65536) 1023 + 56320)].
Definition do_entity (st : sstate) (ch : Z) (b : str) (g : taggle) : outcome (sstate * str * taggle * bool) :=
  match more_reference st ch with
  | Some n => Val (n, b ++ [as_byte ch], g, false)
  | None =>
      match b with
      | [] => UB
      | _ :: t =>
          let g' := entity t g in
          if tg_entity g' =? 0 then Val (S_PCDATA, b, g', true)
          else Val (S_PCDATA, reference_text (tg_entity g'), g', negb (ch =? 59))
      end
  end.

(** The other actions, 245-480: the buffer and the parser. *)
Definition drop_last (n : nat) (b : str) : str := firstn (length b - n) b.
Definition cleared (o : outcome taggle) : outcome (str * taggle) := obind o (fun g => Val ([], g)).
Definition act (F : features) (full : bool) (a : saction) (st : sstate) (ch : Z) (b : str) (g : taggle) : outcome (str * taggle) :=
  match a with
  | A_ADUP => cleared (adup g)
  | A_ADUP_SAVE => obind (adup g) (fun g' => save F full st ch [] g')
  | A_ADUP_STAGC => cleared (obind (adup g) (stagc F []))
  | A_ANAME => cleared (aname F b g)
  | A_ANAME_ADUP => cleared (obind (aname F b g) adup)
  | A_ANAME_ADUP_STAGC => cleared (obind (obind (aname F b g) adup) (stagc F []))
  | A_AVAL => cleared (aval b g)
  | A_AVAL_STAGC => cleared (obind (aval b g) (stagc F []))
  | A_CDATA => cleared (pcdata F (if Nat.ltb 1 (length b) then drop_last 2 b else b) g)
  | A_ENTITY_START => obind (pcdata F b g) (fun g' => save F full st ch [] g')
  | A_ETAG => Val ([], etag F b g)
  | A_DECL => cleared (decl b g)
  | A_GI => cleared (gi F b g)
  | A_GI_STAGC => cleared (obind (gi F b g) (stagc F []))
  | A_LT => obind (save F full st 60 b g) (fun '(b', g') => save F full st ch b' g')
  | A_LT_PCDATA => obind (save F full st 60 b g) (fun '(b', g') => cleared (pcdata F b' g'))
  | A_PCDATA => cleared (pcdata F b g)
  | A_CMNT => Val ([], cmnt b g)
  | A_MINUS3 => obind (save F full st 45 b g) (fun '(b', g') => save F full st 32 b' g')
  | A_MINUS2 => obind (save F full st 45 b g) (fun '(b', g') => obind (save F full st 32 b' g') (fun '(b2, g2) =>
                obind (save F full st 45 b2 g2) (fun '(b3, g3) => save F full st ch b3 g3)))
  | A_MINUS => obind (save F full st 45 b g) (fun '(b', g') => save F full st ch b' g')
  | A_PI => Val ([], pi b g)
  | A_PITARGET => Val ([], pitarget F b g)
  | A_PITARGET_PI => Val ([], pi [] (pitarget F b g))
  | A_SAVE => save F full st ch b g
  | A_SKIP => Val (b, g)
  | A_SP => save F full st 32 b g
  | A_STAGC => cleared (stagc F b g)
  | A_EMPTYTAG => cleared (obind (if nothing b then Val g else gi F b g) (stage F []))
  | A_UNSAVE_PCDATA => cleared (pcdata F (drop_last 1 b) g)
  | A_ENTITY | A_UNGET => Val (b, g)
  end.

(** One turn of the loop, 190-481. *)
Definition scan_step (F : features) (full : bool) (s : scanner) : outcome scanner :=
  let (ch, i) := next_char (sc_input s) in
  let st := sc_state s in
  let b := sc_buffer s in
  let g := set_cdata false (sc_parser s) in
  if negb ((32 <=? ch) || (ch =? 10) || (ch =? 9) || (ch =? -1)) then Val (Scanner st b i g)
  else
    match search st ch None state_table with
    | None => UB
    | Some (A_ENTITY, _) => obind (do_entity st ch b g) (fun '(n, b', g', back) => Val (Scanner n b' (if back then unget_char i else i) g'))
    | Some (a, n) =>
        obind (act F full a st ch b g) (fun '(b', g') =>
        Val (Scanner (if tg_cdata g' then S_CDATA else n) b' match a with A_UNGET => unget_char i | _ => i end g'))
    end.
(** scan, 170-484. *)
Fixpoint scan (fuel : nat) (F : features) (full : nat -> bool) (s : scanner) : outcome taggle :=
  match sc_state s with
  | S_DONE => eof F (sc_parser s)
  | _ => match fuel with
         | O => NoFuel
         | S f => obind (scan_step F (full f) s) (scan f F full)
         end
  end.
(** Taggle::parse, Parser.hpp:458-479: the events; [again] says that the parser has seen a doctype
    in an earlier parse. *)
Definition fuel_for (s : str) : nat := 2 * length s + 10.
Definition parse_again (again : bool) (F : features) (full : nat -> bool) (s : str) : outcome taggle :=
  scan (fuel_for s) F full (Scanner S_PCDATA [] (Input [] s false) (setup F again)).
Definition parse (F : features) (full : nat -> bool) (s : str) : outcome (list hevent) :=
  obind (parse_again false F full s) (fun g => Val (tg_out g)).
(** The defaults, 1225-1242. *)
Definition default_features : features := Features true false false true true false true false true.
