(** C71: reading through a converting stream. C72: writing through one, and
    converting whole strings. *)
From Coq Require Import Lia.
From Verif.Model Require Import Base Convert Base64 ConvertIo.
From Verif.Spec Require Import Utf8Spec ConvertIoSpec.
From Verif.Proof Require Import Tac ConvertProof ConvertIoProof ConvertFacets.

(** * C71 *)

(** The converters that follow the form they are named after. *)
Theorem C71_rot13_follows : decodes rot13_facet rot13_form.
Proof. exact rot13_decodes. Qed.
Print Assumptions C71_rot13_follows.

Theorem C71_utf8_follows : decodes utf8ucs2_facet utf8_form.
Proof. exact utf8_decodes. Qed.
Print Assumptions C71_utf8_follows.

Theorem C71_utf16_follows : forall be, decodes (utf16ucs2_facet be) (utf16_form be).
Proof. exact utf16_decodes. Qed.
Print Assumptions C71_utf16_follows.

(** Whatever is called, wherever the 1024 byte blocks end, and however the buffer
    grows: the answers are those of a place moving in the text the bytes stand for,
    unless a memcpy goes wrong.  Characters of more than one byte are read forward
    only. *)
Theorem C71_reads_partial : forall T (c : codec T) D s bytes text s' size ops,
  decodes c D -> D s bytes text s' -> size = 1%nat \/ Forall forward ops ->
  read_run c size ops (fresh s bytes) = UB \/
  exists r answers p,
    read_run c size ops (fresh s bytes) = Val (r, answers)
    /\ travels ([], text) 0 ops answers p.
Proof.
  intros T c D s bytes text s' size ops L H HS.
  apply (run_lemma c D L size s' ops HS (fresh s bytes) ([], text) 0);
    [apply holds_new; exact H|apply Nat.le_0_l|apply Nat.le_0_l].
Qed.
Print Assumptions C71_reads_partial.

(** No memcpy goes wrong for one byte characters when the bytes fit one block. *)
Theorem C71_one_block_partial : forall T (c : codec T) D s bytes text s' ops,
  decodes c D -> D s bytes text s' -> (length bytes <= 1024)%nat ->
  exists r answers p,
    read_run c 1 ops (fresh s bytes) = Val (r, answers)
    /\ travels ([], text) 0 ops answers p.
Proof.
  intros T c D s bytes text s' ops L H HB.
  apply (run_safe c D L s' ops (fresh s bytes) ([], text) 0);
    [apply holds_new; exact H|left; exact HB|apply Nat.le_0_l|apply Nat.le_0_l].
Qed.
Print Assumptions C71_one_block_partial.

(** Nor, for rot13, unless the last block has one, two or three bytes. *)
Theorem C71_rot13_partial : forall bytes ops, in_range 0 256 bytes ->
  (length bytes mod 1024 = 0 \/ 4 <= length bytes mod 1024)%nat ->
  exists r answers p,
    read_run rot13_facet 1 ops (fresh tt bytes) = Val (r, answers)
    /\ travels ([], map rot13_letter bytes) 0 ops answers p.
Proof.
  intros bytes ops H HB.
  apply (run_safe rot13_facet rot13_form rot13_decodes tt ops (fresh tt bytes)
           ([], map rot13_letter bytes) 0);
    [apply holds_new; split; auto|right; split; [exact rot13_exact|exact HB]
    |apply Nat.le_0_l|apply Nat.le_0_l].
Qed.
Print Assumptions C71_rot13_partial.

(** Wide characters, four bytes each: sixteen or more of them from one block are
    read to the end. *)
Theorem C71_wide_partial : forall T (c : codec T) D s bytes text s',
  decodes c D -> D s bytes text s' -> (length bytes <= 1024)%nat -> (16 <= length text)%nat ->
  exists r, read_run c 4 (repeat Get (length text + 1)) (fresh s bytes) = Val (r, to_the_end text).
Proof.
  intros T c D s bytes text s' L H HB HT.
  apply (wide_run c D L s' text (fresh s bytes) []); [apply holds_new; exact H|split; assumption].
Qed.
Print Assumptions C71_wide_partial.

(** What the calls answer. *)
Definition answers {T} (c : codec T) (size : nat) (ops : list reading) (s : T) (bytes : str)
  : outcome (list (option Z)) :=
  obind (read_run c size ops (fresh s bytes)) (fun '(_, l) => Val l).

Example C71_case :
  answers rot13_facet 1 [Get; Get; Unget; Peek; Putback 33; Get; Get; Get; Get] tt [72; 105]
  = Val [Some 85; Some 118; Some 118; Some 118; Some 33; Some 33; Some 118; None; None]
  /\ utf8_form tt (utf8 [8364; 65]) [8364; 65] tt
  /\ rot13_form tt [72; 105] [85; 118] tt.
Proof.
  split; [vm_compute; reflexivity|]. split.
  - split; [repeat constructor; discriminate|reflexivity].
  - split; [repeat constructor; discriminate|reflexivity].
Qed.

(** Seventeen euro signs: three bytes each, read as wide characters. *)
Example C71_wide_case : let text := repeat 8364 17 in
  answers utf8ucs2_facet 4 (repeat Get 18) tt (utf8 text) = Val (to_the_end text)
  /\ length (utf8 text) = 51%nat.
Proof. split; vm_compute; reflexivity. Qed.

(** A three byte character cut by the end of a block. *)
Example C71_cut_case : let text := repeat 8364 400 in
  answers utf8ucs2_facet 4 (repeat Get 401) tt (utf8 text) = Val (to_the_end text).
Proof. vm_compute. reflexivity. Qed.

(** The copy of the characters kept for putback counts bytes where it should count
    characters: the end of a short wide text is found by reading before the buffer. *)
Theorem C71_short_wide_refuted :
  answers utf8ucs2_facet 4 (repeat Get 5) tt (utf8 [104; 101; 108; 108; 111])
    = Val [Some 104; Some 101; Some 108; Some 108; Some 111]
  /\ answers utf8ucs2_facet 4 (repeat Get 6) tt (utf8 [104; 101; 108; 108; 111]) = UB.
Proof. split; vm_compute; reflexivity. Qed.
Print Assumptions C71_short_wide_refuted.

(** The same copy puts other characters behind the place: after a block has ended,
    stepping back gives a character that was read twelve places earlier. *)
Theorem C71_back_refuted :
  let text := map (fun i => 32 + Z.of_nat (i mod 90)) (seq 0 1025) in
  exists l,
    answers utf8ucs2_facet 4 (repeat Get 1025 ++ [Unget; Unget]) tt (utf8 text)
    = Val (l ++ [Some (nth 1023 text 0); Some (nth 1024 text 0); Some (nth 1024 text 0);
                 Some (nth 1011 text 0)])
    /\ nth 1011 text 0 <> nth 1023 text 0.
Proof.
  exists (map Some (firstn 1023 (map (fun i => 32 + Z.of_nat (i mod 90)) (seq 0 1025)))).
  split; [vm_compute; reflexivity|vm_compute; discriminate].
Qed.
Print Assumptions C71_back_refuted.

(** One byte characters: a last block of a single byte makes the copy overlap. *)
Theorem C71_overlap_refuted :
  answers rot13_facet 1 (repeat Get 1026) tt (repeat 65 1025) = UB.
Proof. vm_compute. reflexivity. Qed.
Print Assumptions C71_overlap_refuted.

(** Bytes that end within a character: everything before it is reported as the end
    of the stream. *)
Theorem C71_truncated_refuted :
  answers utf8ucs2_facet 4 [Get; Get] tt [97; 98; 99; 195] = Val [None; Some 97].
Proof. vm_compute. reflexivity. Qed.
Print Assumptions C71_truncated_refuted.

(** A converter that stops with a place or two of room left is taken to want more
    bytes: 1020 Latin-1 bytes or more, read as UTF-8, are no text at all. *)
Theorem C71_latin1_refuted :
  answers iso88591utf8_facet 1 [Get] tt (repeat 65 1019) = Val [Some 65]
  /\ answers iso88591utf8_facet 1 [Get] tt (repeat 65 1020) = Val [None].
Proof. split; vm_compute; reflexivity. Qed.
Print Assumptions C71_latin1_refuted.

(** UTF-8 read as Latin-1: a character cut by the end of a block is read beyond the
    block. *)
Theorem C71_split_refuted :
  answers utf8iso88591_facet 1 [Get] tt (utf8 (repeat 65 1023 ++ [233])) = UB.
Proof. vm_compute. reflexivity. Qed.
Print Assumptions C71_split_refuted.

(** A block that stands for no character still counts as one: Base64 whose last
    block is a line feed decodes to one character too many. *)
Theorem C71_nothing_refuted :
  let encoded := concat (repeat [81; 85; 74; 68] 256) ++ [10] in
  decode encoded = concat (repeat [65; 66; 67] 256)
  /\ answers base64_facet 1 (repeat Get 769) st64_init encoded
     = Val (map Some (decode encoded) ++ [Some 65]).
Proof. split; vm_compute; reflexivity. Qed.
Print Assumptions C71_nothing_refuted.

(** The conversion state is not initialised: what the memory held decides what
    Base64 decodes to. *)
Theorem C71_state_refuted :
  answers base64_facet 1 (repeat Get 4) st64_init [81; 85; 74; 68]
    = Val [Some 65; Some 66; Some 67; None]
  /\ exists s, answers base64_facet 1 (repeat Get 4) s [81; 85; 74; 68]
    <> Val [Some 65; Some 66; Some 67; None].
Proof.
  split; [vm_compute; reflexivity|]. exists (St 2 7). vm_compute. discriminate.
Qed.
Print Assumptions C71_state_refuted.

(** * C72 *)

Theorem C72_rot13_follows : encodes rot13_facet byte (map rot13_letter).
Proof. exact rot13_encodes. Qed.
Print Assumptions C72_rot13_follows.

Theorem C72_utf8_follows : encodes utf8ucs2_facet wide utf8.
Proof. exact utf8_encodes. Qed.
Print Assumptions C72_utf8_follows.

Theorem C72_utf16_follows : forall be, encodes (utf16ucs2_facet be) wide (utf16 be).
Proof. exact utf16_encodes. Qed.
Print Assumptions C72_utf16_follows.

(** However the text is cut by flushes and however the buffer grows, what arrives is
    the outside form of all characters put, and every flush succeeds.  At least one
    character must be put first. *)
Theorem C72_writes_partial : forall T (c : codec T) ok enc s ch ops,
  encodes c ok enc -> ok ch -> Forall ok (put_text ops) ->
  write_out c s (Put ch :: ops) = Val (enc (ch :: put_text ops), repeat true (flushes ops + 1)).
Proof. intros. apply (write_out_lemma c ok enc); assumption. Qed.
Print Assumptions C72_writes_partial.

Example C72_case :
  write_out utf8ucs2_facet tt [Put 8364; Flush; Flush; Put 65]
  = Val ([226; 130; 172; 65], [true; true; true])
  /\ wide 8364 /\ Forall wide (put_text [Flush; Flush; Put 65]).
Proof.
  split; [vm_compute; reflexivity|]. split; [split; [discriminate|reflexivity]|].
  repeat constructor; discriminate.
Qed.

(** Flushing, or destroying, a stream nothing was put into takes the address of the
    first element of an empty vector. *)
Theorem C72_unwritten_refuted : write_out utf8ucs2_facet tt [] = UB.
Proof. reflexivity. Qed.
Print Assumptions C72_unwritten_refuted.

(** Base64 is padded at each flush, so a flush changes what is written. *)
Theorem C72_flush_refuted :
  write_out base64_facet st64_init [Put 65; Put 66] = Val ([81; 85; 73; 61], [true])
  /\ write_out base64_facet st64_init [Put 65; Flush; Put 66]
     = Val ([81; 81; 61; 61; 81; 103; 61; 61], [true; true]).
Proof. split; vm_compute; reflexivity. Qed.
Print Assumptions C72_flush_refuted.

(** UTF-8 written as Latin-1: a flush within a character reads beyond the buffer. *)
Theorem C72_cut_refuted :
  write_out iso88591utf8_facet tt [Put 195; Put 169] = Val ([233], [true])
  /\ write_out iso88591utf8_facet tt [Put 195; Flush; Put 169] = UB.
Proof. split; vm_compute; reflexivity. Qed.
Print Assumptions C72_cut_refuted.

(** A facet that fails on what is not ASCII. *)
Fixpoint ascii_out (s : unit) (inp : str) (room : nat) : str * str * verdict :=
  match inp with
  | [] => ([], [], Converted)
  | x :: r =>
      if 127 <? x then ([], inp, Failed)
      else match room with
           | O => ([], inp, More)
           | S room' => let '(o, rest, v) := ascii_out s r room' in (x :: o, rest, v)
           end
  end.
Definition ascii_facet : codec unit :=
  let call s inp room := let '(o, rest, v) := ascii_out s inp room in Val (o, s, rest, v) in
  Codec call call 1.

(** After a failure what was written before it is written again with each flush. *)
Theorem C72_failure_refuted :
  write_out ascii_facet tt [Put 65; Put 66; Put 200; Flush; Flush]
  = Val ([65; 66; 65; 66; 65; 66], [false; false; false]).
Proof. vm_compute. reflexivity. Qed.
Print Assumptions C72_failure_refuted.

(** ** Whole strings *)

(** A converter that follows a form converts whole strings to it, of any length. *)
Theorem C72_strings_in : forall T (c : codec T) D s bytes text s',
  decodes c D -> D s bytes text s' -> convert_in c (length text + 1) s bytes = Val text.
Proof. intros T c D s bytes text s' L H. apply (convert_in_lemma c D L _ _ _ _ _ H). lia. Qed.
Print Assumptions C72_strings_in.

Theorem C72_strings_out : forall T (c : codec T) ok enc s text,
  encodes c ok enc -> (max_length c < 4096)%nat -> Forall ok text ->
  convert_out c (length text + 1) s text = Val (enc text).
Proof. intros T c ok enc s text L HM H. apply (convert_out_lemma c ok enc L); auto. lia. Qed.
Print Assumptions C72_strings_out.

(** asStdWString undoes construct_from_utf16, for texts of any length whose
    characters are below 65536. *)
Theorem C72_string_roundtrip_partial : forall text, in_range 0 65536 text ->
  from_utf16 (length text + 1) text = Val (utf8 text)
  /\ as_wide (length text + 1) (utf8 text) = Val text.
Proof. intros text H. split; [apply from_utf16_lemma|apply as_wide_lemma]; exact H. Qed.
Print Assumptions C72_string_roundtrip_partial.

Example C72_string_case :
  from_utf16 3 [8364; 65] = Val [226; 130; 172; 65] /\ as_wide 3 [226; 130; 172; 65] = Val [8364; 65].
Proof. split; vm_compute; reflexivity. Qed.

(** A string that ends within a character is converted for ever. *)
Theorem C72_string_ends_refuted : forall text p q c fuel,
  in_range 0 65536 text -> 0 <= c < 65536 -> utf8_char c = p ++ q -> p <> [] -> q <> [] ->
  as_wide fuel (utf8 text ++ p) = NoFuel.
Proof.
  intros text p q c fuel H Hc E HP HQ. apply as_wide_stuck; [exact H| |exact HP].
  right. exists c, q. auto.
Qed.
Print Assumptions C72_string_ends_refuted.

Example C72_string_ends_case : forall fuel, as_wide fuel [97; 195] = NoFuel.
Proof.
  intros fuel. apply (C72_string_ends_refuted [97] [195] [169] 233 fuel);
    [repeat constructor; discriminate|lia|reflexivity|discriminate|discriminate].
Qed.

(** Characters from 65536 on are left out without a word. *)
Theorem C72_string_beyond_refuted : from_utf16 4 [97; 128512; 98] = Val [97; 98].
Proof. vm_compute. reflexivity. Qed.
Print Assumptions C72_string_beyond_refuted.
