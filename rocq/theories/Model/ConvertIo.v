(** Model of the converting streams: include/io/convert_adaptor.hpp (a stream
    buffer that converts what it reads from or writes to another one) and
    include/io/convertstream.hpp (streams that convert whole strings), with the
    uses the latter has in include/Arabica/StringAdaptor.hpp. No proofs here.

    Simplified: the external characters are bytes (externalCharT = char), so that
    memcpy(from, from_next, shortfall), convert_adaptor.hpp:243, copies characters.
    The external stream buffer is a text that ends.  A vector's capacity is its
    size, as it is with the growth these functions ask for.  Facets that answer
    noconv or always_noconv are left out: no converter of Arabica does.  The value
    eof() of wchar_t is not a character here. *)
From Verif.Model Require Import Base Convert Base64.

(** * Converters *)

(** What codecvt::in and codecvt::out answer. *)
Inductive verdict := Converted | More | Failed.

(** A facet: [cvt_in state from room] gives what is written to the [room] places
    between to and to_end, the new state, what is left from from_next on and the
    answer. *)
Record codec (S : Type) := Codec {
  cvt_in : S -> str -> nat -> outcome (str * S * str * verdict);
  cvt_out : S -> str -> nat -> outcome (str * S * str * verdict);
  max_length : nat }.
Arguments Codec {S}. Arguments cvt_in {S}. Arguments cvt_out {S}. Arguments max_length {S}.

Definition to_verdict (r : cvt_result) : verdict :=
  match r with CvtOk => Converted | CvtPartial => More end.

(** return (from_next == from_end) ? ok : partial. *)
Definition by_rest (rest : str) : verdict := match rest with [] => Converted | _ => More end.

(** The facets whose conversions Model/Convert.v and Model/Base64.v model; the state
    goes unused except by base64. *)

(** rot13codecvt, src/convert/rot13codecvt.cpp:32-39 and rot13codecvt.hpp:55. *)
Definition rot13_facet : codec unit :=
  let call s inp room := let '(o, rest, r) := rot13 inp room in Val (o, s, rest, to_verdict r) in
  Codec call call 1.

(** utf8ucs2codecvt: wide inside, UTF-8 outside; utf8ucs2codecvt.cpp:12-32, .hpp:63. *)
Definition utf8ucs2_facet : codec unit :=
  Codec
    (fun s inp room =>
       obind (utf8_2_ucs2 inp room) (fun '(o, rest) => Val (o, s, rest, by_rest rest)))
    (fun s inp room =>
       let '(o, rest, r) := ucs2_2_utf8 inp room in Val (o, s, rest, to_verdict r))
    3.

(** utf16beucs2codecvt, utf16leucs2codecvt: wide inside, UTF-16 outside; .hpp:59. *)
Definition utf16ucs2_facet (be : bool) : codec unit :=
  Codec
    (fun s inp room =>
       let (o, rest) := utf16_2_ucs2 be inp room in Val (o, s, rest, by_rest rest))
    (fun s inp room =>
       let '(o, rest, r) := ucs2_2_utf16 be inp room in Val (o, s, rest, to_verdict r))
    2.

(** utf8iso88591codecvt: Latin-1 inside, UTF-8 outside; .cpp:11-31, .hpp:46. *)
Definition utf8iso88591_facet : codec unit :=
  Codec
    (fun s inp room =>
       obind (utf8_2_iso88591 inp room) (fun '(o, rest) => Val (o, s, rest, by_rest rest)))
    (fun s inp room =>
       let '(o, rest, r) := iso88591_2_utf8 inp room in Val (o, s, rest, to_verdict r))
    3.

(** iso88591utf8codecvt: UTF-8 inside, Latin-1 outside; .cpp:10-30, .hpp:47. *)
Definition iso88591utf8_facet : codec unit :=
  Codec
    (fun s inp room =>
       let '(o, rest, r) := iso88591_2_utf8 inp room in Val (o, s, rest, to_verdict r))
    (fun s inp room =>
       obind (utf8_2_iso88591 inp room) (fun '(o, rest) => Val (o, s, rest, by_rest rest)))
    1.

(** base64codecvt; max_length is codecvt<char, char, mbstate_t>'s. *)
Definition base64_facet : codec st64 :=
  Codec
    (fun s inp room => let '(o, s', rest, r) := do_in s inp room in Val (o, s', rest, to_verdict r))
    (fun s inp room => let '(o, s', rest, r) := do_out s inp room in Val (o, s', rest, to_verdict r))
    1.

(** * Reading through convert_bufadaptor *)

(** bufferSize_ and pbSize_, convert_adaptor.hpp:72-75. *)
Definition block : nat := 1024.
Definition spare : nat := 4.

(** eback(), gptr(), egptr() as places in inBuffer_.  After a reallocation that no
    setg() follows they point into freed memory. *)
Inductive marks := Null | At (eback gptr egptr : nat) | Dangling.

Record reader (S : Type) := Reader {
  area : list Z;      (* inBuffer_ *)
  places : marks;
  in_state : S;       (* inState_ *)
  ended : bool;       (* inEof_ *)
  source : str }.     (* what externalbuf_ still holds *)
Arguments Reader {S}. Arguments area {S}. Arguments places {S}. Arguments in_state {S}.
Arguments ended {S}. Arguments source {S}.

(** convert_bufadaptor::convert_bufadaptor, :41.  inState_ is not initialised:
    [s] is whatever the memory holds. *)
Definition fresh {S} (s : S) (text : str) : reader S := Reader [] Null s false text.

(** memcpy(&m[0] + dst, &m[0] + src, n elements).  Leaving the vector is undefined;
    so is copying between places that overlap.  Copying nothing, and copying onto
    itself, are taken to do nothing. *)
Definition memcpy (m : list Z) (dst src : Z) (n : nat) : outcome (list Z) :=
  if Nat.eqb n 0 then Val m
  else if (dst <? 0) || (src <? 0)
          || (Z.of_nat (length m) <? dst + Z.of_nat n)
          || (Z.of_nat (length m) <? src + Z.of_nat n) then UB
  else if dst =? src then Val m
  else if Z.abs (dst - src) <? Z.of_nat n then UB
  else Val (firstn (Z.to_nat dst) m ++ firstn n (skipn (Z.to_nat src) m)
            ++ skipn (Z.to_nat dst + n) m).

(** growInBuffer, :129-135. *)
Definition grow_in (m : list Z) : list Z :=
  let oldsize := length m in
  let newsize := ((if Nat.eqb oldsize 0 then block else oldsize * 2) + spare)%nat in
  m ++ repeat 0 (newsize - oldsize).

(** The characters [o] written from place [i] on. *)
Definition write_at (m : list Z) (i : nat) (o : str) : list Z :=
  firstn i m ++ o ++ skipn (i + length o) m.

(** The do loop of readIn, :215-252.  [from] is the first res elements of the array
    from, [next] is from_next - from.  Result: inBuffer_, inState_, converted, the
    rest of the source, res and the last answer. *)
Fixpoint convert_loop {S} (c : codec S) (fuel : nat) (m : list Z) (s : S)
    (from : str) (next converted : nat) (src : str)
  : outcome (list Z * S * nat * str * nat * verdict) :=
  match fuel with
  | O => NoFuel
  | Datatypes.S fuel' =>
      let room := (length m - spare - (spare + converted))%nat in
      obind (cvt_in c s (skipn next from) room) (fun '(o, s', rest, r) =>
      let m' := write_at m (spare + converted) o in
      let converted' := (converted + length o)%nat in
      let next' := (length from - length rest)%nat in
      match r with
      | More =>
          if Nat.eqb (length o) room
          then convert_loop c fuel' (grow_in m') s' from next' converted' src
          else
            let shortfall := length rest in
            if negb (Nat.eqb next' 0) && Nat.ltb next' shortfall then UB
            else
              let got := firstn (block - shortfall) src in
              match got with
              | [] => Val (m', s', converted', src, O, More)
              | _ =>
                  convert_loop c fuel' m' s' (rest ++ got) O converted'
                    (skipn (block - shortfall) src)
              end
      | _ => Val (m', s', converted', src, length from, r)
      end)
  end.

(** Turns that are enough for a converter that gives no more characters than it
    takes bytes. *)
Definition turns (from src : str) : nat := (3 * (length from + length src) + 4)%nat.

(** readIn, :182-264, for a charT of [size] bytes: the reader and the value
    returned.  The array offsets of :189-190 are scaled by sizeof(charT) although
    they already count elements. *)
Definition read_in {S} (c : codec S) (size : nat) (r : reader S) : outcome (reader S * nat) :=
  match places r with
  | Dangling => UB
  | _ =>
      let m0 := match area r with [] => grow_in [] | m => m end in
      let '(e, g) := match places r with At e g _ => (e, g) | _ => (O, O) end in
      let pb := Nat.min (g - e) spare in
      obind (memcpy m0 (Z.of_nat ((spare - pb) * size))
                    (Z.of_nat g - Z.of_nat (pb * size)) pb) (fun m1 =>
      let from := if ended r then [] else firstn block (source r) in
      let src := if ended r then source r else skipn block (source r) in
      let eof := if ended r then true else match src with [] => true | _ => false end in
      match from with
      | [] =>
          Val (Reader m1 (At (spare - pb) spare spare) (in_state r) eof src, O)
      | _ =>
          obind (convert_loop c (turns from src) m1 (in_state r) from O O src)
            (fun '(m2, s2, converted, src2, res, answer) =>
          match answer with
          | Failed =>
              Val (Reader m2
                     (if Nat.eqb (length m2) (length (area r)) then places r
                      else match places r with Null => Null | _ => Dangling end)
                     s2 eof src2, O)
          | _ =>
              Val (Reader m2 (At (spare - pb) spare (spare + converted)) s2 eof src2, res)
          end)
      end)
  end.

(** *gptr() once more characters are there or were said to be. *)
Definition at_gptr {S} (r : reader S) : outcome Z :=
  match places r with
  | At _ g _ => match nth_error (area r) g with Some c => Val c | None => UB end
  | _ => UB
  end.

(** gbump(n). *)
Definition bump {S} (r : reader S) : reader S :=
  match places r with
  | At e g x => Reader (area r) (At e (g + 1) x) (in_state r) (ended r) (source r)
  | _ => r
  end.

(** gptr() < egptr(). *)
Definition ready {S} (r : reader S) : bool :=
  match places r with At _ g x => Nat.ltb g x | _ => false end.

(** underflow, :96-106; sgetc is the same.  None: eof. *)
Definition underflow {S} (c : codec S) (size : nat) (r : reader S)
  : outcome (reader S * option Z) :=
  match places r with
  | Dangling => UB
  | _ =>
      if ready r then obind (at_gptr r) (fun ch => Val (r, Some ch))
      else
        obind (read_in c size r) (fun '(r', n) =>
        if Nat.eqb n 0 then Val (r', None)
        else obind (at_gptr r') (fun ch => Val (r', Some ch)))
  end.

(** sbumpc: the character at gptr(), or uflow, which is underflow, *gptr() and
    gbump(1). *)
Definition get {S} (c : codec S) (size : nat) (r : reader S) : outcome (reader S * option Z) :=
  obind (underflow c size r) (fun '(r', a) =>
  match a with
  | None => Val (r', None)
  | Some ch => Val (bump r', Some ch)
  end).

(** sungetc, and sputbackc of another character, :108-118: pbackfail steps back
    unless gptr() is eback(), and stores [c]. *)
Definition unget {S} (c : option Z) (r : reader S) : outcome (reader S * option Z) :=
  match places r with
  | Dangling => UB
  | Null => Val (r, None)
  | At e g x =>
      if Nat.eqb g e then Val (r, None)
      else
        let m := match c with None => area r | Some ch => write_at (area r) (g - 1) [ch] end in
        let r' := Reader m (At e (g - 1) x) (in_state r) (ended r) (source r) in
        obind (at_gptr r') (fun ch => Val (r', Some ch))
  end.

(** What a caller does with the stream buffer. *)
Inductive reading := Get | Peek | Unget | Putback (c : Z).

Definition read_step {S} (c : codec S) (size : nat) (op : reading) (r : reader S)
  : outcome (reader S * option Z) :=
  match op with
  | Get => get c size r
  | Peek => underflow c size r
  | Unget => unget None r
  | Putback ch => unget (Some ch) r
  end.

Fixpoint read_run {S} (c : codec S) (size : nat) (ops : list reading) (r : reader S)
  : outcome (reader S * list (option Z)) :=
  match ops with
  | [] => Val (r, [])
  | op :: ops' =>
      obind (read_step c size op r) (fun '(r1, a) =>
      obind (read_run c size ops' r1) (fun '(r2, l) => Val (r2, a :: l)))
  end.

(** * Writing through convert_bufadaptor *)

Record writer (S : Type) := Writer {
  out_area : list Z;  (* outBuffer_ *)
  pptr : nat;         (* pptr() - &outBuffer_[0]; epptr() is the end of outBuffer_ *)
  out_state : S;      (* outState_ *)
  sink : str }.       (* what was written to externalbuf_ *)
Arguments Writer {S}. Arguments out_area {S}. Arguments pptr {S}. Arguments out_state {S}.
Arguments sink {S}.

Definition new_writer {S} (s : S) : writer S := Writer [] O s [].

(** growOutBuffer, :120-127. *)
Definition grow_out {S} (w : writer S) : writer S :=
  let oldsize := length (out_area w) in
  let newsize := if Nat.eqb oldsize 0 then block else (oldsize * 2)%nat in
  Writer (out_area w ++ repeat 0 (newsize - oldsize)) oldsize (out_state w) (sink w).

(** sputc and overflow, :78-88. *)
Definition put {S} (ch : Z) (w : writer S) : writer S :=
  let w := if Nat.ltb (pptr w) (length (out_area w)) then w else grow_out w in
  Writer (write_at (out_area w) (pptr w) [ch]) (pptr w + 1) (out_state w) (sink w).

(** The do loop of flushOut, :158-171: bytes written, state, last answer. *)
Fixpoint flush_loop {S} (c : codec S) (fuel : nat) (s : S) (input : str) (room : nat)
  : outcome (str * S * verdict) :=
  match fuel with
  | O => NoFuel
  | Datatypes.S fuel' =>
      obind (cvt_out c s input room) (fun '(o, s', rest, r) =>
      match r with
      | More => obind (flush_loop c fuel' s' rest room) (fun '(o2, s2, r2) => Val (o ++ o2, s2, r2))
      | _ => Val (o, s', r)
      end)
  end.

(** flushOut and sync, :90-94 and :137-180.  &outBuffer_[0] of an empty vector is
    undefined. *)
Definition flush_with {S} (fuel : nat) (c : codec S) (w : writer S) : outcome (writer S * bool) :=
  match out_area w with
  | [] => UB
  | _ =>
      if Nat.eqb (pptr w) 0 then Val (w, true)
      else
        obind (flush_loop c fuel (out_state w) (firstn (pptr w) (out_area w))
                 (pptr w + max_length c)) (fun '(o, s', r) =>
        match r with
        | Failed => Val (Writer (out_area w) (pptr w) s' (sink w ++ o), false)
        | _ => Val (Writer (out_area w) O s' (sink w ++ o), true)
        end)
  end.

(** Turns that are enough if each takes or gives at least one of four. *)
Definition flush {S} (c : codec S) (w : writer S) : outcome (writer S * bool) :=
  flush_with (4 * pptr w + 4) c w.

Inductive writing := Put (ch : Z) | Flush.

(** The writer after the calls, and whether each flush succeeded. *)
Fixpoint write_run {S} (c : codec S) (ops : list writing) (w : writer S)
  : outcome (writer S * list bool) :=
  match ops with
  | [] => Val (w, [])
  | Put ch :: ops' => write_run c ops' (put ch w)
  | Flush :: ops' =>
      obind (flush c w) (fun '(w1, ok) =>
      obind (write_run c ops' w1) (fun '(w2, oks) => Val (w2, ok :: oks)))
  end.

(** oconvert_adaptor, :314-340: the calls, then the destructor's flush. *)
Definition write_out {S} (c : codec S) (s : S) (ops : list writing) : outcome (str * list bool) :=
  obind (write_run c (ops ++ [Flush]) (new_writer s)) (fun '(w, oks) => Val (sink w, oks)).

(** * convertstream.hpp *)

(** toSize_, convertstream.hpp:171 and :271. *)
Definition to_size : nat := 4096.

(** basic_iconvertstream::str(from), :123-158, and then str(): the do loop.  An
    error ends it silently. [s] is the uninitialised local state. *)
Fixpoint convert_in {S} (c : codec S) (fuel : nat) (s : S) (input : str) : outcome str :=
  match fuel with
  | O => NoFuel
  | Datatypes.S fuel' =>
      obind (cvt_in c s input to_size) (fun '(o, s', rest, r) =>
      match r with
      | More => obind (convert_in c fuel' s' rest) (fun o2 => Val (o ++ o2))
      | _ => Val o
      end)
  end.

(** basic_oconvertstream::str(), :212-252. *)
Fixpoint convert_out {S} (c : codec S) (fuel : nat) (s : S) (input : str) : outcome str :=
  match fuel with
  | O => NoFuel
  | Datatypes.S fuel' =>
      obind (cvt_out c s input to_size) (fun '(o, s', rest, r) =>
      match r with
      | More => obind (convert_out c fuel' s' rest) (fun o2 => Val (o ++ o2))
      | _ => Val o
      end)
  end.

(** default_string_adaptor<std::string>::asStdWString, StringAdaptor.hpp:153-159, and
    construct_from_utf16, :143-151; the turns of the loops are bounded by [fuel]. *)
Definition as_wide (fuel : nat) (s : str) : outcome str := convert_in utf8ucs2_facet fuel tt s.
Definition from_utf16 (fuel : nat) (s : str) : outcome str :=
  match s with [] => Val [] | _ => convert_out utf8ucs2_facet fuel tt s end.
