(** C04-C09: the character converters. *)
From Verif.Model Require Import Base Convert.
From Verif.Spec Require Import Utf8Spec.
From Verif.Proof Require Import ConvertProof.

(** C04. Each call rotates exactly the letters of the bytes that fit. *)
Theorem C04_rotates_letters : forall input cap, in_range 0 256 input ->
  rot13 input cap =
  (map rot13_letter (firstn cap input), skipn cap input,
   if Nat.leb (length input) cap then CvtOk else CvtPartial).
Proof. exact rot13_calls. Qed.
Print Assumptions C04_rotates_letters.

Theorem C04_twice_is_identity : forall input cap,
  in_range 0 256 input -> (length input <= cap)%nat ->
  exists o, rot13 input cap = (o, [], CvtOk) /\ in_range 0 256 o
            /\ rot13 o cap = (input, [], CvtOk).
Proof. exact rot13_twice. Qed.
Print Assumptions C04_twice_is_identity.

Example C04_case : rot13 [72; 122; 33; 200] 9 = ([85; 109; 33; 200], [], CvtOk).
Proof. reflexivity. Qed.

(** C05. One call, any capacity. *)
Theorem C05_latin1_encodes : forall input cap, in_range 0 256 input ->
  exists done rest res, iso88591_2_utf8 input cap = (utf8 done, rest, res)
    /\ input = done ++ rest /\ (length (utf8 done) <= cap)%nat
    /\ (res = CvtOk <-> rest = []).
Proof.
  intros input cap H. apply wide_2_utf8_call.
  eapply Forall_impl; [|exact H]. cbv beta. intros; lia.
Qed.
Print Assumptions C05_latin1_encodes.

(** A run of calls always covers the input when each buffer has four places. *)
Theorem C05_latin1_encodes_all : forall caps input, in_range 0 256 input ->
  Forall (fun c => (4 <= c)%nat) caps -> (length input <= length caps)%nat ->
  enc_calls iso88591_2_utf8 caps input = (utf8 input, []).
Proof.
  intros caps input H. apply enc_calls_finish.
  eapply Forall_impl; [|exact H]. cbv beta. intros; lia.
Qed.
Print Assumptions C05_latin1_encodes_all.

(** Decoding, whatever the sequence of output buffers. *)
Theorem C05_latin1_decodes : forall caps s, in_range 0 256 s ->
  dec_calls utf8_2_iso88591 caps (utf8 s) =
  Val (firstn (list_sum caps) s, utf8 (skipn (list_sum caps) s)).
Proof. exact (dec_calls_utf8 _ 256 utf8_2_iso88591_latin1). Qed.
Print Assumptions C05_latin1_decodes.

(** Characters outside Latin-1 become question marks, one for each. *)
Theorem C05_others_replaced : forall s cap, in_range 0 65536 s ->
  utf8_2_iso88591 (utf8 s) cap =
  Val (map (fun c => if c <=? 255 then c else 63) (firstn cap s), utf8 (skipn cap s)).
Proof. exact utf8_2_iso88591_utf8. Qed.
Print Assumptions C05_others_replaced.

Example C05_case :
  iso88591_2_utf8 [65; 233; 66] 5 = ([65; 195; 169; 66], [], CvtOk)
  /\ iso88591_2_utf8 [65; 233; 66] 4 = ([65; 195; 169], [66], CvtPartial)
  /\ utf8_2_iso88591 [65; 195; 169; 226; 130; 172] 9 = Val ([65; 233; 63], []).
Proof. repeat split. Qed.

(** C06. The full property is false above 65535: the unit disappears. *)
Theorem C06_roundtrip_refuted :
  exists c, 0 <= c < 1114112 /\ ucs2_2_utf8 [65; c; 66] 99 = ([65; 66], [], CvtOk).
Proof. exists 128512. split; [lia|vm_compute; reflexivity]. Qed.
Print Assumptions C06_roundtrip_refuted.

Theorem C06_encodes_partial : forall input cap, in_range 0 65536 input ->
  exists done rest res, ucs2_2_utf8 input cap = (utf8 done, rest, res)
    /\ input = done ++ rest /\ (length (utf8 done) <= cap)%nat
    /\ (res = CvtOk <-> rest = []).
Proof. intros. rewrite ucs2_2_utf8_wide by assumption. apply wide_2_utf8_call. assumption. Qed.
Print Assumptions C06_encodes_partial.

Theorem C06_roundtrip_partial : forall s cap, in_range 0 65536 s ->
  (length (utf8 s) < cap)%nat ->
  exists bytes, ucs2_2_utf8 s cap = (bytes, [], CvtOk)
    /\ forall caps, dec_calls utf8_2_ucs2 caps bytes =
       Val (firstn (list_sum caps) s, utf8 (skipn (list_sum caps) s)).
Proof.
  intros s cap H L. exists (utf8 s). split.
  - rewrite ucs2_2_utf8_wide by assumption. apply wide_2_utf8_all; assumption.
  - intros caps. apply (dec_calls_utf8 _ 65536 utf8_2_ucs2_utf8). assumption.
Qed.
Print Assumptions C06_roundtrip_partial.

Example C06_case :
  ucs2_2_utf8 [8364; 65] 9 = ([226; 130; 172; 65], [], CvtOk)
  /\ utf8_2_ucs2 [226; 130; 172; 65] 1 = Val ([8364], [65]).
Proof. repeat split. Qed.

(** C07. Both byte orders; one call writes the units that fit. *)
Theorem C07_writes_utf16 : forall be input room, in_range 0 65536 input ->
  exists n, (n = length input \/ (n < length input)%nat /\ (room <= 2 * n + 2)%nat)
  /\ ucs2_2_utf16 be input room =
     (utf16 be (firstn n input), skipn n input,
      match skipn n input with [] => CvtOk | _ => CvtPartial end).
Proof. intros. apply ucs2_2_utf16_spec. assumption. Qed.
Print Assumptions C07_writes_utf16.

Theorem C07_several_buffers : forall be caps input, in_range 0 65536 input ->
  exists done rest, input = done ++ rest /\
    enc_calls (ucs2_2_utf16 be) caps input = (utf16 be done, rest).
Proof. exact enc_calls_utf16. Qed.
Print Assumptions C07_several_buffers.

Theorem C07_reads_back : forall be s cap, in_range 0 65536 s ->
  utf16_2_ucs2 be (utf16 be s) cap = (firstn cap s, utf16 be (skipn cap s)).
Proof. intros. apply utf16_2_ucs2_spec. assumption. Qed.
Print Assumptions C07_reads_back.

Example C07_case :
  ucs2_2_utf16 true [8364; 65] 5 = ([32; 172; 0; 65], [], CvtOk)
  /\ ucs2_2_utf16 false [8364; 65] 4 = ([172; 32], [65], CvtPartial).
Proof. repeat split. Qed.

(** C08. The Latin-1 decoder reads past a truncated sequence. *)
Theorem C08_latin1_in_bounds_refuted : exists input, utf8_2_iso88591 input 10 = UB.
Proof. exists [195]. reflexivity. Qed.
Print Assumptions C08_latin1_in_bounds_refuted.

(** On complete, well-formed UTF-8 it stays inside. *)
Theorem C08_latin1_in_bounds_partial : forall s cap, in_range 0 65536 s ->
  utf8_2_iso88591 (utf8 s) cap <> UB.
Proof. intros s cap H E. rewrite utf8_2_iso88591_utf8 in E by assumption. discriminate. Qed.
Print Assumptions C08_latin1_in_bounds_partial.

(** The UCS-2 decoder stays inside on every byte string; it leaves an incomplete
    tail unread and never writes more than it was given room for. *)
Theorem C08_ucs2_in_bounds : forall input cap,
  exists o rest used, utf8_2_ucs2 input cap = Val (o, rest) /\ input = used ++ rest
    /\ (length o <= length used)%nat /\ (length o <= cap)%nat.
Proof. exact utf8_2_ucs2_safe. Qed.
Print Assumptions C08_ucs2_in_bounds.

Example C08_case : utf8_2_ucs2 [65; 226; 130] 9 = Val ([65], [226; 130]).
Proof. reflexivity. Qed.

(** C09. A continuation byte where a character should start hangs the query. *)
Theorem C09_terminates_refuted :
  exists input max, forall fuel, utf8_length_loop fuel input 0 max 0 = None.
Proof. exists [128], 1%nat. intros. apply utf8_length_stuck. Qed.
Print Assumptions C09_terminates_refuted.

Theorem C09_utf8_in_range : forall fuel input max n,
  utf8_length_loop fuel input 0 max 0 = Some n -> (n <= length input)%nat.
Proof. intros fuel input max n H. apply utf8_length_bound in H. exact H. Qed.
Print Assumptions C09_utf8_in_range.

(** On the UTF-8 form of Latin-1 text it terminates between two characters and
    counts at most the characters asked for. *)
Theorem C09_latin1_partial : forall s max, in_range 0 256 s ->
  exists k, utf8_length_loop (S (length (utf8 s))) (utf8 s) 0 max 0
            = Some (length (utf8 (firstn k s))) /\ (k <= max)%nat.
Proof. exact utf8_length_latin1. Qed.
Print Assumptions C09_latin1_partial.

(** ... but it stops short of a final two-byte character that is all there, and
    cuts a three-byte character in two. *)
Theorem C09_counts_everything_refuted :
  utf8_length_loop 9 (utf8 [65; 233]) 0 9 0 = Some 1%nat
  /\ utf8_length_loop 9 (utf8 [8364; 65]) 0 1 0 = Some 2%nat.
Proof. repeat split. Qed.
Print Assumptions C09_counts_everything_refuted.

(** The rot13 and UTF-16 facets answer with the larger of the two numbers. *)
Theorem C09_in_range_refuted :
  exists input max, rot13_length input max > Z.of_nat (length input)
                    /\ utf16_length input max > Z.of_nat (length input).
Proof. exists [65], 10. split; reflexivity. Qed.
Print Assumptions C09_in_range_refuted.

(** The wide-to-UTF-8 facets stay within the input and overshoot the maximum by
    at most two bytes. *)
Theorem C09_wide_in_range : forall input max, in_range 0 65536 input -> 0 <= max ->
  let (n, k) := ucs2utf8_length input 0 max in
  (n <= length input)%nat /\ k = Z.of_nat (length (utf8 (firstn n input))) /\ k < max + 3.
Proof.
  intros input max H HM. pose proof (ucs2utf8_length_range input 0 max H) as E.
  destruct (ucs2utf8_length input 0 max) as [n k]. destruct E as (E1 & E2 & E3).
  split; [exact E1|]. split; [exact E2|]. apply E3. lia.
Qed.
Print Assumptions C09_wide_in_range.

Example C09_case : ucs2utf8_length [2048; 65] 0 1 = (1%nat, 3)
  /\ utf8_length_loop 9 (utf8 [65; 233; 66]) 0 2 0 = Some 3%nat.
Proof. repeat split. Qed.
