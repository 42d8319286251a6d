(** Model of the character converters in src/convert. No proofs here. *)
From Verif.Model Require Import Base.

(** * rot13 *)

(** The table of src/convert/rot13codecvt.cpp:14. *)
Definition rot13_table : list Z :=
  [0;1;2;3;4;5;6;7;8;9;10;11;12;13;14;15;16;17;18;19;20;21;22;23;24;25;26;27;28;29;
   30;31;32;33;34;35;36;37;38;39;40;41;42;43;44;45;46;47;48;49;50;51;52;53;54;55;56;
   57;58;59;60;61;62;63;64;78;79;80;81;82;83;84;85;86;87;88;89;90;65;66;67;68;69;70;
   71;72;73;74;75;76;77;91;92;93;94;95;96;110;111;112;113;114;115;116;117;118;119;
   120;121;122;97;98;99;100;101;102;103;104;105;106;107;108;109;123;124;125;126;127;
   128;129;130;131;132;133;134;135;136;137;138;139;140;141;142;143;144;145;146;147;
   148;149;150;151;152;153;154;155;156;157;158;159;160;161;162;163;164;165;166;167;
   168;169;170;171;172;173;174;175;176;177;178;179;180;181;182;183;184;185;186;187;
   188;189;190;191;192;193;194;195;196;197;198;199;200;201;202;203;204;205;206;207;
   208;209;210;211;212;213;214;215;216;217;218;219;220;221;222;223;224;225;226;227;
   228;229;230;231;232;233;234;235;236;237;238;239;240;241;242;243;244;245;246;247;
   248;249;250;251;252;253;254;255].

Definition rot13_char (b : Z) : Z := nth (Z.to_nat b) rot13_table (-1).

(** rot13, rot13codecvt.cpp:16-30: output, rest, result. *)
Fixpoint rot13 (input : str) (cap : nat) : str * str * cvt_result :=
  match input with
  | [] => ([], [], CvtOk)
  | b :: r =>
      match cap with
      | O => ([], input, CvtPartial)
      | S cap' => let '(o, rest, res) := rot13 r cap' in (rot13_char b :: o, rest, res)
      end
  end.

(** rot13codecvt::do_length, :41-47. *)
Definition rot13_length (input : str) (max : Z) : Z :=
  Z.max (Z.of_nat (length input)) max.

(** utf16beucs2codecvt::do_length / utf16leucs2codecvt::do_length. *)
Definition utf16_length (input : str) (max : Z) : Z :=
  Z.max (Z.of_nat (length input)) (max / 2).

(** * The UTF-8 table *)

(** struct Tab and tab[], impl/iso88591_utf8.cpp:10-24 and impl/ucs2_utf8.cpp:13-27. The
    first file stores the masks in char, the second in unsigned char; both
    compare only values that keep the top bit, so unsigned values model both. *)
Record row := Row { char_mask : Z; char_value : Z; shift : Z; wide_mask : Z }.
Definition row1 := Row 128 0 0 127.
Definition row2 := Row 224 192 6 2047.
Definition row3 := Row 240 224 12 65535.
Definition tab : list row := [row1; row2; row3].

(** The first row whose wide_mask admits [fn] and its index t - tab. *)
Fixpoint find_wide (rows : list row) (fn : Z) (i : nat) : option (nat * row) :=
  match rows with
  | [] => None
  | t :: rows' => if wide_mask t <? fn then find_wide rows' fn (S i) else Some (i, t)
  end.

(** The bytes written for [fn] with row [t], impl/ucs2_utf8.cpp:51-57: the lead byte
    narrowed to char, then six bits at a time. *)
Fixpoint tail_bytes (fn : Z) (n : nat) : str :=
  match n with
  | O => []
  | S n' => Z.lor 128 (Z.land (Z.shiftr fn (6 * Z.of_nat n')) 63) :: tail_bytes fn n'
  end.
Definition put_char (t : row) (fn : Z) : str :=
  Z.land (Z.lor (char_value t) (Z.shiftr fn (shift t))) 255
  :: tail_bytes fn (Z.to_nat (shift t / 6)).

(** The encoding loop, impl/iso88591_utf8.cpp:34-58 and impl/ucs2_utf8.cpp:38-63 (lines
    relative to each file).  A value above every wide_mask is skipped. *)
Fixpoint wide_2_utf8 (input : str) (room : nat) : str * str * cvt_result :=
  match input with
  | [] => ([], [], CvtOk)
  | fn :: r =>
      match find_wide tab fn O with
      | None => wide_2_utf8 r room
      | Some (i, t) =>
          if Nat.leb room (i + 1) then ([], input, CvtPartial)
          else
            let bs := put_char t fn in
            let '(o, rest, res) := wide_2_utf8 r (room - length bs) in
            (bs ++ o, rest, res)
      end
  end.

(** iso88591_2_utf8, impl/iso88591_utf8.cpp:27-59; the input is unsigned char. *)
Definition iso88591_2_utf8 (input : str) (cap : nat) := wide_2_utf8 input cap.

(** ucs2_2_utf8, impl/ucs2_utf8.cpp:31-64.  The input is wchar_t converted to unsigned
    long (64 bits), so negative values become huge ones. *)
Definition ucs2_2_utf8 (input : str) (cap : nat) : str * str * cvt_result :=
  let '(o, rest, res) := wide_2_utf8 (map (fun c => c mod 2 ^ 64) input) cap in
  (o, skipn (length input - length rest) input, res).

(** The row loop of utf8_2_iso88591, impl/iso88591_utf8.cpp:72-81.  [rest] is what
    follows the byte from_next points at. *)
Fixpoint iso_rows (rows : list row) (start next : Z) (rest : str)
  : outcome (Z * str) :=
  match rows with
  | [] => Val (next, rest)
  | t :: rows' =>
      if Z.land start (char_mask t) =? char_value t
      then Val (Z.land next (wide_mask t), rest)
      else
        match rest with
        | [] => UB
        | b :: rest' =>
            iso_rows rows' start
              (Z.lor (Z.shiftl next 6) (Z.land (Z.lxor b 128) 255)) rest'
        end
  end.

(** utf8_2_iso88591, impl/iso88591_utf8.cpp:61-93. [fuel] bounds the number of turns;
    each turn consumes at least one byte, so the length of the input is enough. *)
Fixpoint utf8_2_iso88591_loop (fuel : nat) (input : str) (cap : nat)
  : outcome (str * str) :=
  match input with
  | [] => Val ([], [])
  | b :: rest =>
      match cap, fuel with
      | O, _ => Val ([], input)
      | _, O => NoFuel
      | S cap', S fuel' =>
          obind (iso_rows tab b b rest) (fun '(next, rest') =>
          obind (utf8_2_iso88591_loop fuel' rest' cap') (fun '(o, r) =>
          Val ((if next <=? 255 then next else 63) :: o, r)))
      end
  end.
Definition utf8_2_iso88591 (input : str) (cap : nat) : outcome (str * str) :=
  utf8_2_iso88591_loop (length input) input cap.

(** The row search of utf8_2_ucs2, impl/ucs2_utf8.cpp:77-82: index and wide_mask; the
    end-of-table row has index 3 and wide_mask 0. *)
Fixpoint ucs_row (rows : list row) (start : Z) (i : nat) : nat * Z :=
  match rows with
  | [] => (i, 0)
  | t :: rows' =>
      if Z.land start (char_mask t) =? char_value t then (i, wide_mask t)
      else ucs_row rows' start (S i)
  end.

(** The continuation loop, impl/ucs2_utf8.cpp:90-94. *)
Fixpoint ucs_tail (n : nat) (acc : Z) (rest : str) : outcome (Z * str) :=
  match n with
  | O => Val (acc, rest)
  | S n' =>
      match rest with
      | [] => UB
      | b :: rest' =>
          ucs_tail n' (Z.lor (Z.shiftl acc 6) (Z.land (Z.lxor b 128) 255)) rest'
      end
  end.

(** utf8_2_ucs2, impl/ucs2_utf8.cpp:66-102: output and rest. Fuel as above. *)
Fixpoint utf8_2_ucs2_loop (fuel : nat) (input : str) (cap : nat)
  : outcome (str * str) :=
  match input with
  | [] => Val ([], [])
  | b :: rest =>
      match cap, fuel with
      | O, _ => Val ([], input)
      | _, O => NoFuel
      | S cap', S fuel' =>
          let (k, wm) := ucs_row tab b O in
          if Nat.leb (length input) k then Val ([], input)
          else
            obind (ucs_tail k b rest) (fun '(v, rest') =>
            obind (utf8_2_ucs2_loop fuel' rest' cap') (fun '(o, r) =>
            Val (Z.land v wm :: o, r)))
      end
  end.
Definition utf8_2_ucs2 (input : str) (cap : nat) : outcome (str * str) :=
  utf8_2_ucs2_loop (length input) input cap.

(** * UTF-16 *)

(** utf16_2_ucs2, impl/ucs2_utf16.cpp:6-22. *)
Fixpoint utf16_2_ucs2 (be : bool) (input : str) (cap : nat) : str * str :=
  match input, cap with
  | b1 :: b2 :: r, S cap' =>
      let u := if be then Z.shiftl b1 8 + b2 else Z.shiftl b2 8 + b1 in
      let (o, rest) := utf16_2_ucs2 be r cap' in (u :: o, rest)
  | _, _ => ([], input)
  end.

(** ucs2_2_utf16, impl/ucs2_utf16.cpp:24-55. *)
Fixpoint ucs2_2_utf16 (be : bool) (input : str) (room : nat) : str * str * cvt_result :=
  match input with
  | [] => ([], [], CvtOk)
  | ch :: r =>
      if Nat.leb room 2 then ([], input, CvtPartial)
      else
        let lb := Z.land ch 255 in
        let hb := Z.land (Z.shiftr ch 8) 255 in
        let '(o, rest, res) := ucs2_2_utf16 be r (room - 2) in
        ((if be then [hb; lb] else [lb; hb]) ++ o, rest, res)
  end.

(** Repeated calls with fresh buffers, as a stream does. *)
Fixpoint enc_calls (conv : str -> nat -> str * str * cvt_result)
    (caps : list nat) (input : str) : str * str :=
  match caps with
  | [] => ([], input)
  | c :: caps' =>
      let '(o, r, _) := conv input c in
      let (o2, r2) := enc_calls conv caps' r in (o ++ o2, r2)
  end.
Fixpoint dec_calls (conv : str -> nat -> outcome (str * str))
    (caps : list nat) (input : str) : outcome (str * str) :=
  match caps with
  | [] => Val ([], input)
  | c :: caps' =>
      obind (conv input c) (fun '(o, r) =>
      obind (dec_calls conv caps' r) (fun '(o2, r2) => Val (o ++ o2, r2)))
  end.

(** * do_length *)

(** utf8iso88591codecvt::do_length, utf8iso88591codecvt.cpp:42-80, and the
    identical utf8ucs2codecvt::do_length, utf8ucs2codecvt.cpp:43-81.  [left] is
    what lies between from_next and end.  None: the fuel ran out. *)
Fixpoint utf8_length_loop (fuel : nat) (left : str) (count max done : nat) : option nat :=
  match fuel with
  | O => None
  | S fuel' =>
      match left with
      | [] => Some done
      | b :: r =>
          if Nat.leb max count then Some done
          else if Z.land b 128 =? 0 then utf8_length_loop fuel' r (S count) max (S done)
          else if Z.land b 192 =? 192 then
            if Nat.ltb 2 (length left)
            then utf8_length_loop fuel' (skipn 2 left) (S count) max (done + 2)
            else Some done
          else if Z.land b 224 =? 224 then
            if Nat.ltb 3 (length left)
            then utf8_length_loop fuel' (skipn 3 left) (S count) max (done + 3)
            else Some done
          else utf8_length_loop fuel' left count max done
      end
  end.

(** ucs2utf8codecvt::do_length, ucs2utf8codecvt.cpp:44-62 and
    utf16utf8codecvt.cpp:43-62: wide characters consumed, UTF-8 bytes they need. *)
Fixpoint ucs2utf8_length (input : str) (count max : Z) : nat * Z :=
  match input with
  | [] => (O, count)
  | c :: r =>
      if max <=? count then (O, count)
      else
        let count' := count + (if 2047 <? c then 1 else 0)
                            + (if 127 <? c then 1 else 0) + 1 in
        let (n, k) := ucs2utf8_length r count' max in (S n, k)
  end.

(** iso88591utf8codecvt::do_length, iso88591utf8codecvt.cpp do_length. *)
Fixpoint iso88591utf8_length (input : str) (count max : Z) : nat * Z :=
  match input with
  | [] => (O, count)
  | c :: r =>
      if max <=? count then (O, count)
      else
        let count' := count + (if Z.land c 128 =? 0 then 0 else 1) + 1 in
        let (n, k) := iso88591utf8_length r count' max in (S n, k)
  end.
