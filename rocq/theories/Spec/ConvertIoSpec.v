(** What converting streams should do, told without their buffers.  A converter is
    described by the texts it relates; a stream being read is a place in a text. *)
From Coq Require Import List ZArith.
Import ListNotations.
Open Scope Z_scope.
From Verif.Model Require Import Base ConvertIo.
From Verif.Spec Require Import Utf8Spec.

(** [D s bytes text s']: from state [s] the bytes are, all of them, the outside form
    of the text.  A converter follows [D] when, given the first part [inp] of such
    bytes and some room, it
    - gives the first part of the text and leaves bytes that stand for the rest of it;
    - takes no bytes unless it gives something for them;
    - stops short of the end of [inp] only because the room is full or because less
      than one character (fewer than 16 bytes) is left of it;
    - says so: it answers that it is done exactly when it left nothing. *)
Record decodes {S} (c : codec S) (D : S -> str -> str -> S -> Prop) : Prop := {
  no_bytes : forall s text s', D s [] text s' -> text = [];
  no_longer : forall s bytes text s', D s bytes text s' -> (length text <= length bytes)%nat;
  one_call : forall s inp more text s' room, D s (inp ++ more) text s' ->
    exists used rest first others s1,
      cvt_in c s inp room = Val (first, s1, rest, by_rest rest)
      /\ inp = used ++ rest /\ text = first ++ others
      /\ D s1 (rest ++ more) others s'
      /\ (length first <= room)%nat /\ (first = [] -> used = [])
      /\ ((length first < room)%nat -> (length rest < 16)%nat /\ (more = [] -> rest = [])) }.

(** [enc text]: the outside form of a text whose characters are all [ok].  A
    converter follows [enc] when, given more room than the longest character takes,
    it writes the form of a first part of the text, which is not empty unless the
    text is, and says whether that was all. *)
Record encodes {S} (c : codec S) (ok : Z -> Prop) (enc : str -> str) : Prop := {
  in_parts : forall a b, enc (a ++ b) = enc a ++ enc b;
  one_write : forall s inp room, Forall ok inp -> (max_length c < room)%nat ->
    exists used rest s1,
      cvt_out c s inp room = Val (enc used, s1, rest, by_rest rest)
      /\ inp = used ++ rest /\ (inp <> [] -> used <> []) }.

(** * Reading is moving a place in a text *)

(** What lies behind the place, nearest first, and what lies ahead of it. *)
Definition place := (str * str)%type.

(** The number beside the place is how many steps back are certain: one more with
    each character taken, up to four.  Beyond that a step back may be refused; it
    never gives a wrong character. *)
Inductive moves : place -> nat -> reading -> option Z -> place -> nat -> Prop :=
| gets_one : forall b c a n, moves (b, c :: a) n Get (Some c) (c :: b, a) (Nat.min 4 (n + 1))
| gets_none : forall b n, moves (b, []) n Get None (b, []) n
| peeks_one : forall b c a n, moves (b, c :: a) n Peek (Some c) (b, c :: a) n
| peeks_none : forall b n, moves (b, []) n Peek None (b, []) n
| back : forall c b a n, moves (c :: b, a) n Unget (Some c) (b, c :: a) (n - 1)
| puts_back : forall c d b a n, moves (c :: b, a) n (Putback d) (Some d) (b, d :: a) (n - 1)
| refuses : forall p op, op = Unget \/ (exists d, op = Putback d) -> moves p 0 op None p 0.

Inductive travels : place -> nat -> list reading -> list (option Z) -> place -> Prop :=
| stays : forall p n, travels p n [] [] p
| goes_on : forall p n op a p1 n1 ops l p2,
    moves p n op a p1 n1 -> travels p1 n1 ops l p2 -> travels p n (op :: ops) (a :: l) p2.

(** The calls that go forward only. *)
Definition forward (op : reading) : Prop := op = Get \/ op = Peek.

(** What a text holds, then the end. *)
Definition to_the_end (text : str) : list (option Z) := map Some text ++ [None].

(** * Some converters *)

Definition rot13_form (_ : unit) (bytes text : str) (_ : unit) : Prop :=
  in_range 0 256 bytes /\ text = map rot13_letter bytes.
Definition utf8_form (_ : unit) (bytes text : str) (_ : unit) : Prop :=
  in_range 0 65536 text /\ bytes = utf8 text.
Definition utf16_form (be : bool) (_ : unit) (bytes text : str) (_ : unit) : Prop :=
  in_range 0 65536 text /\ bytes = utf16 be text.

Definition wide (c : Z) : Prop := 0 <= c < 65536.
Definition byte (c : Z) : Prop := 0 <= c < 256.

(** * Writing *)

(** The characters put. *)
Fixpoint put_text (ops : list writing) : str :=
  match ops with
  | [] => []
  | Put c :: ops' => c :: put_text ops'
  | Flush :: ops' => put_text ops'
  end.
Fixpoint flushes (ops : list writing) : nat :=
  match ops with
  | [] => O
  | Put _ :: ops' => flushes ops'
  | Flush :: ops' => S (flushes ops')
  end.
