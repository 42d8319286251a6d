(** XPath arithmetic: include/XPath/impl/xpath_arithmetic.hpp and roundNumber,
    xpath_object.hpp:405-417.  Doubles are SpecFloat's IEEE 754 binary64 numbers: SFadd and the
    others round to nearest, ties to even. *)
From Coq Require Export SpecFloat.
From Verif.Model Require Import Base.

Definition fadd : spec_float -> spec_float -> spec_float := SFadd 53 1024.
Definition fsub : spec_float -> spec_float -> spec_float := SFsub 53 1024.
Definition fmul : spec_float -> spec_float -> spec_float := SFmul 53 1024.
Definition fdiv : spec_float -> spec_float -> spec_float := SFdiv 53 1024.
(** The conversion of an integer to double. *)
Definition of_Z (z : Z) : spec_float := binary_normalize 53 1024 z 0 false.
Definition is_nan (n : spec_float) : bool := match n with S754_nan => true | _ => false end.
Definition is_infinite (n : spec_float) : bool := match n with S754_infinity _ => true | _ => false end.
Definition one : spec_float := S754_finite false 4503599627370496 (-52).
Definition half : spec_float := S754_finite false 4503599627370496 (-53).
Definition zero : spec_float := S754_zero false.

(** The integer part, towards zero, of a finite number. *)
Definition magnitude (m : positive) (e : Z) : Z := if 0 <=? e then Z.pos m * 2 ^ e else Z.pos m / 2 ^ (- e).
Definition truncate (s : bool) (m : positive) (e : Z) : Z := if s then - magnitude m e else magnitude m e.
(** std::floor and std::ceil: exact; a zero result has the sign of the argument. *)
Definition with_sign (s : bool) (z : Z) : spec_float := if z =? 0 then S754_zero s else of_Z z.
Definition floor (v : spec_float) : spec_float :=
  match v with S754_finite s m e => if 0 <=? e then v else with_sign s ((if s then - Z.pos m else Z.pos m) / 2 ^ (- e)) | _ => v end.
Definition ceil (v : spec_float) : spec_float :=
  match v with S754_finite s m e => if 0 <=? e then v else with_sign s (- ((if s then Z.pos m else - Z.pos m) / 2 ^ (- e))) | _ => v end.

(** NaN_aware_modulus, xpath_arithmetic.hpp:65-73.  None is undefined behaviour: a conversion to
    long (of 64 bits) out of its range, a division by zero, or the least long by -1. *)
Definition to_long (v : spec_float) : option Z :=
  match v with
  | S754_zero _ => Some 0
  | S754_finite s m e => let z := truncate s m e in if (-9223372036854775808 <=? z) && (z <? 9223372036854775808) then Some z else None
  | _ => None
  end.
Definition modulus (a b : spec_float) : option spec_float :=
  if is_nan a || is_nan b then Some S754_nan
  else match to_long a, to_long b with
       | Some x, Some y => if (y =? 0) || ((x =? -9223372036854775808) && (y =? -1)) then None else Some (of_Z (Z.rem x y))
       | _, _ => None
       end.
(** roundNumber, xpath_object.hpp:405-417.  -0.0 is negative zero; fabs(value) == 0 is being a
    zero. *)
Definition round_number (v : spec_float) : spec_float :=
  if negb (is_nan v || is_infinite v || SFeqb (SFabs v) zero) then
    if SFltb v zero && SFltb (SFopp half) v then S754_zero true
    else floor (fadd v half)
  else v.
