From Coq Require Import SpecFloat.
From Verif.Model Require Import Base XNumber.
From Verif.Spec Require Import XNumberSpec.
From Verif.Proof Require Import XNumberProof.
Open Scope Z_scope.

(** round gives the closest integer, the greater of two.  Partial: not for the double just below
    0.5 and the odd integers between 2^52 and 2^53. *)
Theorem C42_round_partial : forall v, double v -> finite v -> ~ unlucky v -> exists k, rounds_to v k /\ is_integer (round_number v) k.
Proof. intros v D F NU. destruct (round_lemma_all v D F NU) as (k & R & W & _). exists k. split; assumption. Qed.
Print Assumptions C42_round_partial.
(** There is one such integer. *)
Theorem C42_one_closest : forall v k l, 0 < denominator v -> rounds_to v k -> rounds_to v l -> k = l.
Proof. intros v k l D A B. unfold rounds_to in *. nia. Qed.
Print Assumptions C42_one_closest.
(** 2.5, -2.5 and the greatest double. *)
Example C42_some_rounds : let a := S754_finite false 5629499534213120 (-51) in let b := S754_finite true 5629499534213120 (-51) in let c := S754_finite false 9007199254740991 971 in
  double a /\ ~ unlucky a /\ is_integer (round_number a) 3 /\ double b /\ is_integer (round_number b) (-2) /\ double c /\ round_number c = c.
Proof.
  cbv zeta. split; [reflexivity|]. split; [|vm_compute; repeat split]. intros [E|(k & (_ & E) & _)]; [discriminate|]. unfold numerator, denominator in E. change (1 * 5629499534213120 * 1 = k * 2251799813685248) in E. lia.
Qed.
(** NaN, the infinities and the zeros stay as they are; between -0.5 and 0 it is negative zero. *)
Theorem C42_round_others : forall s, round_number S754_nan = S754_nan /\ round_number (S754_infinity s) = S754_infinity s /\ round_number (S754_zero s) = S754_zero s.
Proof. intros [|]; repeat split. Qed.
Print Assumptions C42_round_others.
Theorem C42_negative_zero_partial : forall v, rounds_to v 0 -> 2 * numerator v <> - denominator v -> numerator v < 0 -> finite v -> double v -> round_number v = S754_zero true.
Proof. exact negative_zero. Qed.
Print Assumptions C42_negative_zero_partial.
(** -0.25 *)
Example C42_some_negative_zero : let v := S754_finite true 4503599627370496 (-54) in rounds_to v 0 /\ 2 * numerator v <> - denominator v /\ numerator v < 0 /\ double v.
Proof. vm_compute. intuition congruence. Qed.

(** The double just below 0.5 rounds to 1. *)
Theorem C42_round_below_half_refuted : let v := S754_finite false 9007199254740991 (-54) in double v /\ rounds_to v 0 /\ is_integer (round_number v) 1.
Proof. vm_compute. intuition congruence. Qed.
Print Assumptions C42_round_below_half_refuted.
(** 4503599627370497 is an integer, and rounds to the next one. *)
Theorem C42_round_odd_refuted : let v := S754_finite false 4503599627370497 0 in double v /\ is_integer v 4503599627370497 /\ is_integer (round_number v) 4503599627370498.
Proof. vm_compute. intuition congruence. Qed.
Print Assumptions C42_round_odd_refuted.
(** -0.5 rounds to positive zero; XPath says negative zero. *)
Theorem C42_round_minus_half_refuted : round_number (SFopp half) = S754_zero false.
Proof. reflexivity. Qed.
Print Assumptions C42_round_minus_half_refuted.

(** mod of integers is the remainder of the division towards zero.  Partial: integers that fit a
    long, the divisor at most 2^53. *)
Theorem C42_mod_partial : forall a b x y, is_integer a x -> is_integer b y -> -9223372036854775808 <= x < 9223372036854775808 -> 0 < Z.abs y <= 2 ^ 53 -> ~ (x = -9223372036854775808 /\ y = -1) ->
  exists r, modulus a b = Some r /\ is_integer r (Z.rem x y) /\ remainder a b r.
Proof. exact modulus_lemma. Qed.
Print Assumptions C42_mod_partial.
(** -5 mod 2 *)
Example C42_some_mod : is_integer (of_Z (-5)) (-5) /\ is_integer (of_Z 2) 2 /\ exists r, modulus (of_Z (-5)) (of_Z 2) = Some r /\ is_integer r (-1).
Proof. split; [vm_compute; split; trivial|]. split; [vm_compute; split; trivial|]. exists (of_Z (-1)). vm_compute. repeat split. Qed.
Theorem C42_mod_nan : forall a, modulus a S754_nan = Some S754_nan /\ modulus S754_nan a = Some S754_nan.
Proof. intros a. unfold modulus. cbn [is_nan orb]. destruct (is_nan a); split; reflexivity. Qed.
Print Assumptions C42_mod_nan.

(** By zero, or by any fraction less than one, it is undefined behaviour. *)
Theorem C42_mod_undefined_refuted : forall a b, is_nan a = false -> finite b -> Z.abs (numerator b) < denominator b -> modulus a b = None.
Proof. exact modulus_undefined. Qed.
Print Assumptions C42_mod_undefined_refuted.
Example C42_some_undefined : is_nan one = false /\ finite half /\ Z.abs (numerator half) < denominator half.
Proof. vm_compute. repeat split. Qed.
(** So are 1 mod infinity, and infinity mod 1. *)
Theorem C42_mod_infinity_refuted : forall s, modulus one (S754_infinity s) = None /\ modulus (S754_infinity s) one = None.
Proof. intros [|]; split; reflexivity. Qed.
Print Assumptions C42_mod_infinity_refuted.
(** 5.5 mod 2 is 1, not 1.5; 6 mod 2.5 is 0, not 1. *)
Theorem C42_mod_fraction_refuted : let a := S754_finite false 6192449487634432 (-50) in let b := S754_finite false 5629499534213120 (-51) in
  numerator a * 2 = 11 * denominator a /\ numerator b * 2 = 5 * denominator b /\
  (exists r, modulus a (of_Z 2) = Some r /\ is_integer r 1 /\ ~ remainder a (of_Z 2) r) /\ (exists r, modulus (of_Z 6) b = Some r /\ is_integer r 0 /\ ~ remainder (of_Z 6) b r).
Proof.
  cbv zeta. split; [reflexivity|]. split; [reflexivity|]. split.
  - exists (of_Z 1). split; [reflexivity|]. split; [vm_compute; split; trivial|]. intros (_ & q & E & _). change (6192449487634432 * 2251799813685248 * 4503599627370496 = q * 4503599627370496 * 1125899906842624 * 4503599627370496 + 4503599627370496 * 1125899906842624 * 2251799813685248) in E. lia.
  - exists (of_Z 0). split; [reflexivity|]. split; [vm_compute; split; trivial|]. intros (_ & q & E & _). change (6755399441055744 * 2251799813685248 * 1 = q * 5629499534213120 * 1125899906842624 * 1 + 0) in E. lia.
Qed.
Print Assumptions C42_mod_fraction_refuted.
(** -4 mod 2 is positive zero; the remainder with the sign of the dividend is negative zero. *)
Theorem C42_mod_zero_sign_refuted : modulus (of_Z (-4)) (of_Z 2) = Some (S754_zero false).
Proof. reflexivity. Qed.
Print Assumptions C42_mod_zero_sign_refuted.
