(** XPath's string functions, include/XPath/impl/xpath_function.hpp:360-560. *)
From Verif.Model Require Import Base Text Uri.
From Verif.Model Require Export XNumber.

(** StartsWithFn, 380-407: the loop reads both strings; past the end of the first it is UB. *)
Fixpoint same_start (i s : str) {struct s} : outcome bool :=
  match s, i with
  | [], _ => Val true
  | _ :: _, [] => UB
  | y :: s', x :: i' => if negb (x =? y) then Val false else same_start i' s'
  end.
Definition starts_with (value start : str) : outcome bool :=
  if Nat.ltb (length value) (length start) then Val false else same_start value start.
(** ContainsFn, 409-425. *)
Definition contains (value what : str) : bool := match find_sub what value O with Some _ => true | None => false end.
(** SubstringBeforeFn, 427-449. *)
Definition substring_before (value split : str) : str := match find_sub split value O with None => [] | Some at_ => firstn at_ value end.
(** SubstringAfterFn, 451-474. *)
Definition substring_after (value split : str) : str :=
  match find_sub split value O with
  | None => []
  | Some at_ => if Nat.leb (length value) (at_ + length split) then [] else skipn (at_ + length split) value
  end.

(** SubstringFn, 456-487.  [Throws] is std::out_of_range, which no XPath code catches;
    [Undefined] a conversion to int of a number that no int holds. *)
Inductive result := Text (s : str) | Throws | Undefined.
Definition to_int (v : spec_float) : option Z :=
  match v with
  | S754_zero _ => Some 0
  | S754_finite s m e => let z := truncate s m e in if (-2147483648 <=? z) && (z <? 2147483648) then Some z else None
  | _ => None
  end.
(** std::string::substr: a negative int becomes a count beyond any length. *)
Definition substr (value : str) (from count : Z) : result :=
  if Z.of_nat (length value) <? from then Throws
  else Text (let rest := skipn (Z.to_nat from) value in if count <? 0 then rest else firstn (Z.to_nat count) rest).
Definition substring (value : str) (a : spec_float) (b : option spec_float) : result :=
  match value with
  | [] => Text []
  | _ =>
      let len := of_Z (Z.of_nat (length value)) in
      let start := fsub (round_number a) one in
      let stop := fadd (round_number (match b with Some n => n | None => S754_infinity false end)) start in
      if SFltb stop zero || SFltb stop start || is_nan stop then Text []
      else
        let start := if SFltb start zero then zero else start in
        let stop := if is_infinite stop || SFltb len stop then len else stop in
        match to_int start, to_int (fsub stop start) with
        | Some from, Some count => substr value from count
        | _, _ => Undefined
        end
  end.

(** TranslateFn, 525-556: the string is rewritten in place, read at [i] and written at [p]. *)
Fixpoint translate_loop (n : nat) (v : str) (i p : nat) (from to : str) : outcome (str * nat) :=
  match n with
  | O => Val (v, p)
  | S n' =>
      obind (get_nth i v) (fun c =>
      match find_char c from with
      | None => translate_loop n' v (S i) (S p) from to
      | Some r =>
          match nth_error to r with
          | None => translate_loop n' v (S i) p from to
          | Some d => obind (set_nth p d v) (fun v' => translate_loop n' v' (S i) (S p) from to)
          end
      end)
  end.
Definition translate (s from to : str) : outcome str :=
  obind (translate_loop (length s) s O O from to) (fun '(v, p) =>
  if Nat.eqb p (length v) then Val (firstn p v) else obind (set_nth p 0 v) (fun v' => Val (firstn p v'))).

(** ConcatFn, 362-378, and StringLengthFn, 489-504. *)
Definition concat_strings (l : list str) : str := fold_left (fun s a => s ++ a) l [].
Definition string_length (s : str) : spec_float := of_Z (Z.of_nat (length s)).
