(** UTF-8 as in RFC 3629, for code points below 65536, by arithmetic. *)
From Coq Require Import List ZArith.
Import ListNotations.
Open Scope Z_scope.

Definition utf8_char (c : Z) : list Z :=
  if c <? 128 then [c]
  else if c <? 2048 then [192 + c / 64; 128 + c mod 64]
  else [224 + c / 4096; 128 + c / 64 mod 64; 128 + c mod 64].

Definition utf8 (s : list Z) : list Z := flat_map utf8_char s.

Definition in_range (lo hi : Z) (s : list Z) : Prop := Forall (fun c => lo <= c < hi) s.

(** UTF-16, one 16-bit unit as two bytes. *)
Definition utf16_unit (be : bool) (c : Z) : list Z :=
  if be then [c / 256; c mod 256] else [c mod 256; c / 256].
Definition utf16 (be : bool) (s : list Z) : list Z := flat_map (utf16_unit be) s.

(** ROT13: letters move 13 places in their own alphabet. *)
Definition upper (c : Z) : bool := (65 <=? c) && (c <=? 90).
Definition lower (c : Z) : bool := (97 <=? c) && (c <=? 122).
Definition rot13_letter (c : Z) : Z :=
  if upper c then 65 + (c - 65 + 13) mod 26
  else if lower c then 97 + (c - 97 + 13) mod 26
  else c.
