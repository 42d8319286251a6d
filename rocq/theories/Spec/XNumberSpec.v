(** What XPath 1.0, sections 3.5 and 4.4, says of numbers, in integers: a finite number is the
    fraction [numerator] / [denominator]. *)
From Coq Require Import SpecFloat.
From Verif.Model Require Import Base.

Definition numerator (v : spec_float) : Z :=
  match v with
  | S754_finite s m e => (if s then -1 else 1) * Z.pos m * (if 0 <=? e then 2 ^ e else 1)
  | _ => 0
  end.
Definition denominator (v : spec_float) : Z := match v with S754_finite _ _ e => if 0 <=? e then 1 else 2 ^ (- e) | _ => 1 end.
Definition finite (v : spec_float) : Prop := match v with S754_finite _ _ _ | S754_zero _ => True | _ => False end.
(** The double is one that the machine has. *)
Definition double (v : spec_float) : Prop := valid_binary 53 1024 v = true.
(** The number is the integer k. *)
Definition is_integer (v : spec_float) (k : Z) : Prop := finite v /\ numerator v = k * denominator v.
(** k is an integer closest to v, the greater if there are two. *)
Definition rounds_to (v : spec_float) (k : Z) : Prop :=
  (2 * k - 1) * denominator v <= 2 * numerator v < (2 * k + 1) * denominator v.
(** The remainder of dividing towards zero, of fractions: x = q * y + r with q an integer, r less
    than y in magnitude and of the sign of x. *)
Definition remainder (x y r : spec_float) : Prop := finite r /\
  exists q, numerator x * denominator y * denominator r = q * numerator y * denominator x * denominator r + numerator r * denominator x * denominator y /\
    Z.abs (numerator r) * denominator y < Z.abs (numerator y) * denominator r /\ 0 <= numerator r * numerator x.
(** The numbers that rounding by adding a half gets wrong: the double below 0.5, and the odd
    integers between 2^52 and 2^53. *)
Definition unlucky (v : spec_float) : Prop :=
  v = S754_finite false 9007199254740991 (-54) \/ exists k, is_integer v k /\ Z.odd k = true /\ 2 ^ 52 < Z.abs k < 2 ^ 53.
