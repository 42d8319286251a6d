(** Model of src/convert/base64codecvt.cpp. No proofs here. *)
From Verif.Model Require Import Base.

(** base64_charset, base64codecvt.cpp:9. *)
Definition charset : str :=
  [65;66;67;68;69;70;71;72;73;74;75;76;77;78;79;80;81;82;83;84;85;86;87;88;89;90;
   97;98;99;100;101;102;103;104;105;106;107;108;109;110;111;112;113;114;115;116;
   117;118;119;120;121;122;48;49;50;51;52;53;54;55;56;57;43;47].

(** base64_charset[i]. The code always masks the index to 0..63, so the default
    is never reached for the indices do_out computes. *)
Definition charset_at (i : Z) : Z := nth (Z.to_nat i) charset (-1).

(** base64_charset.find(b), base64codecvt.cpp:88. *)
Fixpoint find_from (b : Z) (cs : str) (i : Z) : option Z :=
  match cs with
  | [] => None
  | c :: cs' => if c =? b then Some i else find_from b cs' (i + 1)
  end.
Definition charset_find (b : Z) : option Z := find_from b charset 0.

Definition pad : Z := 61. (* '=' *)

(** The conversion state kept in mbstate_t: quad position (getState, :169-172)
    and previous character (getPreviousChar, :193-196).  The two live in
    different bytes of one int; the model keeps them as a pair.  Characters are
    0..255 (the code sign-extends char, then masks every use). *)
Record st64 := St { pos : Z; prev : Z }.

Definition st64_init : st64 := St 0 0.

(** nextState, :174-183. *)
Definition next_pos (p : Z) : Z := if p + 1 =? 4 then 0 else p + 1.

(** getCurrentOutChar() == NO_MORE, :185-191. *)
Definition no_more (input : str) : bool :=
  match input with [] => true | _ => false end.

(** char c = getCurrentOutChar(), :34; NO_MORE (256) narrows to char 0. *)
Definition cur (input : str) : Z :=
  match input with [] => 0 | c :: _ => c end.

(** consumeOutChar, :208-217: returns the new previous char and the rest. *)
Definition consume (input : str) : Z * str :=
  match input with [] => (0, []) | c :: r => (c, r) end.

(** One turn of the quad loop, :34-56: emitted character, state, rest. *)
Definition quad_step (s : st64) (input : str) : Z * st64 * str :=
  let c := cur input in
  if pos s =? 0 then
    let (p, r) := consume input in
    (charset_at (Z.land (Z.shiftr c 2) 63), St (next_pos (pos s)) p, r)
  else if pos s =? 1 then
    let (p, r) := consume input in
    (charset_at (Z.shiftl (Z.land (prev s) 3) 4 + Z.land (Z.shiftr c 4) 15),
     St (next_pos (pos s)) p, r)
  else if pos s =? 2 then
    (charset_at (Z.shiftl (Z.land (prev s) 15) 2 + Z.land (Z.shiftr c 6) 3),
     St (next_pos (pos s)) 0, input)
  else
    let (_, r) := consume input in
    (charset_at (Z.land c 63), St (next_pos (pos s)) 0, r).

(** The quad loop, :32-60.  [cap] is the room left in the output buffer; each
    turn writes one character.  Result: output, room left, state, rest. *)
Fixpoint quad_loop (cap : nat) (s : st64) (input : str) : str * nat * st64 * str :=
  match cap with
  | O => ([], O, s, input)
  | S cap' =>
      if no_more input && (prev s =? 0) then ([], cap, s, input)
      else
        let '(ch, s', r) := quad_step s input in
        if (pos s' =? 0) && no_more r && (prev s' =? 0) then ([ch], cap', s', r)
        else
          let '(o, c2, s2, r2) := quad_loop cap' s' r in (ch :: o, c2, s2, r2)
  end.

(** The padding loop, :63-67. *)
Fixpoint pad_loop (cap : nat) (s : st64) : str * st64 :=
  match cap with
  | O => ([], s)
  | S cap' =>
      if pos s =? 0 then ([], s)
      else let (o, s') := pad_loop cap' (St (next_pos (pos s)) (prev s)) in
           (pad :: o, s')
  end.

(** do_out, :14-70, for an output buffer of [cap] characters. *)
Definition do_out (s : st64) (input : str) (cap : nat)
  : str * st64 * str * cvt_result :=
  let '(o1, cap1, s1, r) := quad_loop cap s input in
  let (o2, s2) := pad_loop cap1 s1 in
  (o1 ++ o2, s2, r,
   if (pos s2 =? 0) && no_more r && (prev s2 =? 0) then CvtOk else CvtPartial).

(** One turn of the decoding loop, :87-113: bytes written (at most one), state.
    The written byte is the int expression narrowed to char. *)
Definition in_step (s : st64) (b : Z) : str * st64 :=
  match charset_find b with
  | None => ([], if b =? pad then St (next_pos (pos s)) (prev s) else s)
  | Some c =>
      let p := prev s in
      let out :=
        if pos s =? 0 then []
        else if pos s =? 1 then [Z.land (Z.lor (Z.shiftl p 2) (Z.shiftr c 4)) 255]
        else if pos s =? 2 then [Z.land (Z.lor (Z.shiftl p 4) (Z.shiftr c 2)) 255]
        else [Z.land (Z.lor (Z.shiftl p 6) c) 255] in
      (out, St (next_pos (pos s)) c)
  end.

(** do_in, :72-117, for an output buffer of [cap] bytes: output, state, rest. *)
Fixpoint in_loop (input : str) (s : st64) (cap : nat) : str * st64 * str :=
  match input with
  | [] => ([], s, [])
  | b :: r =>
      match cap with
      | O => ([], s, input)
      | S _ =>
          let (o, s') := in_step s b in
          let '(o2, s2, r2) := in_loop r s' (cap - length o) in
          (o ++ o2, s2, r2)
      end
  end.
Definition do_in (s : st64) (input : str) (cap : nat)
  : str * st64 * str * cvt_result :=
  let '(o, s', r) := in_loop input s cap in
  (o, s', r, if no_more r then CvtOk else CvtPartial).

(** do_out called repeatedly, as basic_filebuf does: each call gets the input
    the previous one left and a fresh buffer of the next size. *)
Fixpoint out_calls (caps : list nat) (s : st64) (input : str) : str * st64 * str :=
  match caps with
  | [] => ([], s, input)
  | c :: caps' =>
      let '(o, s1, r, _) := do_out s input c in
      let '(o2, s2, r2) := out_calls caps' s1 r in (o ++ o2, s2, r2)
  end.

(** do_in called once per piece of input, each time with room for all it can
    produce (one byte per character). *)
Fixpoint in_calls (pieces : list str) (s : st64) : str * st64 :=
  match pieces with
  | [] => ([], s)
  | p :: ps =>
      let '(o, s1, _, _) := do_in s p (S (length p)) in
      let (o2, s2) := in_calls ps s1 in (o ++ o2, s2)
  end.

(** Encoding a whole string into a buffer that is large enough: do_out emits at
    most 4 characters per started group of 3 bytes. *)
Definition encode (input : str) : str :=
  let '(o, _, _, _) := do_out st64_init input (2 * length input + 4) in o.
Definition decode (input : str) : str :=
  let '(o, _, _, _) := do_in st64_init input (S (length input)) in o.
