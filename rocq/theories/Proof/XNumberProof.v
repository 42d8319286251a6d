From Coq Require Import SpecFloat Zpower.
From Verif.Model Require Import Base XNumber.
From Verif.Spec Require Import XNumberSpec.
From Verif.Proof Require Import Tac.

(** * Rounding *)
Fixpoint iterate {A} (n : nat) (f : A -> A) (x : A) : A := match n with O => x | S k => f (iterate k f x) end.
Lemma iterate_add : forall {A} (f : A -> A) n m x, iterate (n + m) f x = iterate n f (iterate m f x).
Proof. intros A f n m x. induction n as [|n IH]; [reflexivity|]. cbn. rewrite IH. reflexivity. Qed.
Lemma iter_nat : forall {A} (f : A -> A) p x, SpecFloat.iter_pos f p x = iterate (Pos.to_nat p) f x.
Proof.
  intros A f p. induction p as [p IH|p IH|]; intros x; cbn [SpecFloat.iter_pos]; [rewrite !IH, Pos2Nat.inj_xI|rewrite !IH, Pos2Nat.inj_xO|reflexivity].
  - replace (S (2 * Pos.to_nat p))%nat with (Pos.to_nat p + (Pos.to_nat p + 1))%nat by lia. rewrite !iterate_add. reflexivity.
  - replace (2 * Pos.to_nat p)%nat with (Pos.to_nat p + Pos.to_nat p)%nat by lia. rewrite iterate_add. reflexivity.
Qed.
Lemma digits_pos : forall p, 2 ^ (Z.pos (digits2_pos p) - 1) <= Z.pos p < 2 ^ Z.pos (digits2_pos p).
Proof.
  induction p as [p IH|p IH|]; cbn [digits2_pos]; [| |lia].
  - replace (Z.pos (Pos.succ (digits2_pos p)) - 1) with (Z.pos (digits2_pos p)) by lia. replace (Z.pos (Pos.succ (digits2_pos p))) with (Z.pos (digits2_pos p) + 1) by lia. rewrite Z.pow_add_r by lia. replace (2 ^ Z.pos (digits2_pos p)) with (2 * 2 ^ (Z.pos (digits2_pos p) - 1)) in * by (rewrite <- Z.pow_succ_r by lia; f_equal; lia). lia.
  - replace (Z.pos (Pos.succ (digits2_pos p)) - 1) with (Z.pos (digits2_pos p)) by lia. replace (Z.pos (Pos.succ (digits2_pos p))) with (Z.pos (digits2_pos p) + 1) by lia. rewrite Z.pow_add_r by lia. replace (2 ^ Z.pos (digits2_pos p)) with (2 * 2 ^ (Z.pos (digits2_pos p) - 1)) in * by (rewrite <- Z.pow_succ_r by lia; f_equal; lia). lia.
Qed.
Lemma digits_unique : forall p d, 0 < d -> 2 ^ (d - 1) <= Z.pos p < 2 ^ d -> Z.pos (digits2_pos p) = d.
Proof.
  intros p d D H. pose proof (digits_pos p) as P. destruct (Z.lt_trichotomy (Z.pos (digits2_pos p)) d) as [L|[E|L]]; [|exact E|]; exfalso.
  - assert (2 ^ Z.pos (digits2_pos p) <= 2 ^ (d - 1)) by (apply Z.pow_le_mono_r; lia). lia.
  - assert (2 ^ d <= 2 ^ (Z.pos (digits2_pos p) - 1)) by (apply Z.pow_le_mono_r; lia). lia.
Qed.
Lemma shift_val : forall d m, Z.pos (shift_pos d m) = Z.pos m * 2 ^ Z.pos d.
Proof. intros d m. rewrite shift_pos_correct, Zpower_pos_nat, Zpower_nat_Z, positive_nat_Z. lia. Qed.
Lemma digits_shift : forall d m, Z.pos (digits2_pos (shift_pos d m)) = Z.pos (digits2_pos m) + Z.pos d.
Proof.
  intros d m. apply digits_unique; [lia|]. rewrite shift_val. pose proof (digits_pos m) as P. replace (Z.pos (digits2_pos m) + Z.pos d - 1) with ((Z.pos (digits2_pos m) - 1) + Z.pos d) by lia. rewrite !Z.pow_add_r by lia. assert (0 < 2 ^ Z.pos d) by (apply Z.pow_pos_nonneg; lia). nia.
Qed.
(** The shifts to the right keep the quotient and where the remainder lies. *)
Definition rep (m : Z) (k : nat) (r : shr_record) : Prop :=
  exists rest, 0 <= shr_m r /\ 0 <= rest /\ match k with
  | O => m = shr_m r /\ rest = 0 /\ shr_r r = false /\ shr_s r = false
  | S j => m = shr_m r * 2 ^ Z.of_nat k + (if shr_r r then 2 ^ Z.of_nat j else 0) + rest /\ rest < 2 ^ Z.of_nat j /\ (shr_s r = true <-> rest <> 0)
  end.
Lemma shr_step : forall m k r, rep m k r -> rep m (S k) (shr_1 r).
Proof.
  intros m k [q hb sb] (rest & Q & R & H). cbn [shr_m shr_r shr_s] in *.
  assert (S : exists rest', 0 <= rest' < 2 ^ Z.of_nat k /\ m = q * 2 ^ Z.of_nat k + rest' /\ (orb hb sb = true <-> rest' <> 0)).
  { destruct k as [|j].
    - destruct H as (-> & -> & -> & ->). exists 0. cbn. split; [lia|]. split; [lia|]. split; [discriminate|lia].
    - destruct H as (E & L & SB). exists ((if hb then 2 ^ Z.of_nat j else 0) + rest). assert (P : 0 < 2 ^ Z.of_nat j) by (apply Z.pow_pos_nonneg; lia). replace (2 ^ Z.of_nat (S j)) with (2 * 2 ^ Z.of_nat j) in * by (rewrite Nat2Z.inj_succ, Z.pow_succ_r by lia; reflexivity). split; [destruct hb; lia|]. split; [lia|]. destruct hb; cbn; [split; [lia|reflexivity]|]. rewrite SB. lia. }
  destruct S as (rest' & R' & E & SB). assert (PW : 2 ^ Z.of_nat (S k) = 2 * 2 ^ Z.of_nat k) by (rewrite Nat2Z.inj_succ, Z.pow_succ_r by lia; reflexivity).
  exists rest'. unfold shr_1. destruct q as [|[p|p|]|]; cbn [shr_m shr_r shr_s]; try lia; (split; [lia|]); (split; [lia|]); rewrite PW; (split; [|split; [lia|exact SB]]); rewrite E.
  - lia.
  - rewrite (Pos2Z.inj_xI p). ring.
  - rewrite (Pos2Z.inj_xO p). ring.
  - ring.
Qed.
Lemma shr_rep : forall m k, 0 <= m -> rep m k (iterate k shr_1 (Build_shr_record m false false)).
Proof. intros m k M. induction k as [|k IH]; [exists 0; cbn; repeat split; lia|]. cbn [iterate]. apply shr_step, IH. Qed.
(** Round to nearest, ties to even. *)
Definition rne (m k : Z) : Z :=
  let q := m / 2 ^ k in let r := m mod 2 ^ k in
  match Z.compare (2 * r) (2 ^ k) with Lt => q | Gt => q + 1 | Eq => if Z.even q then q else q + 1 end.
Lemma rep_rne : forall m k r, rep m (S k) r -> round_nearest_even (shr_m r) (loc_of_shr_record r) = rne m (Z.of_nat (S k)).
Proof.
  intros m k [q hb sb] (rest & Q & R & E & L & SB). cbn [shr_m shr_r shr_s] in *. set (h := 2 ^ Z.of_nat k) in *. assert (P : 0 < h) by (apply Z.pow_pos_nonneg; lia). assert (PW : 2 ^ Z.of_nat (S k) = 2 * h) by (unfold h; rewrite Nat2Z.inj_succ, Z.pow_succ_r by lia; reflexivity).
  unfold rne. rewrite PW in *. assert (D : m / (2 * h) = q) by (symmetry; apply (Z.div_unique m (2 * h) q ((if hb then h else 0) + rest)); [left; destruct hb; lia|lia]). assert (M : m mod (2 * h) = (if hb then h else 0) + rest) by (symmetry; apply (Z.mod_unique m (2 * h) q); [left; destruct hb; lia|lia]). rewrite D, M.
  destruct hb, sb; cbn [loc_of_shr_record round_nearest_even].
  - assert (rest <> 0) by (apply SB; reflexivity). destruct (Z.compare_spec (2 * (h + rest)) (2 * h)); try lia; try reflexivity.
  - assert (rest = 0) by (destruct (Z.eq_dec rest 0); [assumption|]; apply SB in n; discriminate). destruct (Z.compare_spec (2 * (h + rest)) (2 * h)); try lia; try reflexivity.
  - destruct (Z.compare_spec (2 * (0 + rest)) (2 * h)); try lia; try reflexivity.
  - destruct (Z.compare_spec (2 * (0 + rest)) (2 * h)); try lia; try reflexivity.
Qed.

Definition target (m : positive) (e : Z) : Z := fexp 53 1024 (Z.pos (digits2_pos m) + e).
Lemma target_eq : forall m e, target m e = Z.max (Z.pos (digits2_pos m) + e - 53) (-1074). Proof. reflexivity. Qed.
(** A number that fits is not changed. *)
Lemma aux_exact : forall s m e, target m e <= e -> e <= 971 -> binary_round_aux 53 1024 s (Z.pos m) e loc_Exact = S754_finite s m e.
Proof.
  intros s m e T E. unfold target in T. unfold binary_round_aux, shr_fexp. cbn [Zdigits2 shr_record_of_loc]. unfold shr. destruct (fexp 53 1024 (Z.pos (digits2_pos m) + e) - e) eqn:D; [| lia |]; cbn [shr_m loc_of_shr_record round_nearest_even Zdigits2]; rewrite D; cbn [shr_m]; (destruct (Z.leb_spec e (1024 - 53)); [reflexivity|lia]).
Qed.
Lemma exact_lemma : forall s m e, target m e <= e -> target m e <= 971 -> exists m', binary_round 53 1024 s m e = S754_finite s m' (target m e) /\ Z.pos m' = Z.pos m * 2 ^ (e - target m e).
Proof.
  intros s m e T L. unfold binary_round, shl_align. fold (target m e). destruct (target m e - e) as [|p|p] eqn:D; [|lia|].
  - assert (E : target m e = e) by lia. rewrite E in *. exists m. split; [apply aux_exact; lia|]. rewrite Z.sub_diag. cbn. lia.
  - exists (shift_pos p m). split; [|rewrite shift_val; do 2 f_equal; lia]. apply aux_exact; [|exact L]. rewrite (target_eq (shift_pos p m)), digits_shift. rewrite !(target_eq m e) in *. lia.
Qed.
(** A number that does not fit is rounded, and brought back if rounding up made it longer. *)
Lemma rne_bounds : forall m k, 0 <= k -> m / 2 ^ k <= rne m k <= m / 2 ^ k + 1.
Proof. intros m k K. unfold rne. destruct (Z.compare (2 * (m mod 2 ^ k)) (2 ^ k)); [destruct (Z.even (m / 2 ^ k))| |]; lia. Qed.
Lemma shr_digits : forall m e k, 0 < k -> e + k = target m e -> e + k > -1074 -> 2 ^ 52 <= Z.pos m / 2 ^ k < 2 ^ 53.
Proof.
  intros m e k K T G. rewrite target_eq in T. assert (D : Z.pos (digits2_pos m) = 53 + k) by lia. pose proof (digits_pos m) as P. rewrite D in P. replace (53 + k - 1) with (52 + k) in P by lia. rewrite !Z.pow_add_r in P by lia. assert (Q : 0 < 2 ^ k) by (apply Z.pow_pos_nonneg; lia). split; [apply Z.div_le_lower_bound; lia|apply Z.div_lt_upper_bound; lia].
Qed.
Lemma round_lemma : forall s m e, e < target m e -> target m e <= 971 -> (rne (Z.pos m) (target m e - e) = 2 ^ 53 -> target m e <= 970) -> -1074 < target m e ->
  exists m' e', binary_round 53 1024 s m e = S754_finite s m' e' /\
    ((e' = target m e /\ Z.pos m' = rne (Z.pos m) (target m e - e) /\ Z.pos m' < 2 ^ 53) \/ (e' = target m e + 1 /\ Z.pos m' = 2 ^ 52 /\ rne (Z.pos m) (target m e - e) = 2 ^ 53)).
Proof.
  intros s m e T L L' G. unfold binary_round, shl_align. fold (target m e). destruct (target m e - e) as [|p|p] eqn:D; try lia. unfold binary_round_aux. unfold shr_fexp at 1. cbn [Zdigits2]. fold (target m e). rewrite D. cbn [shr shr_record_of_loc]. rewrite iter_nat.
  destruct (Pos.to_nat p) as [|k] eqn:PK; [lia|]. pose proof (shr_rep (Z.pos m) (S k) ltac:(lia)) as R. rewrite (rep_rne _ _ _ R). replace (e + Z.pos p) with (target m e) by lia. replace (Z.of_nat (S k)) with (Z.pos p) by lia. set (q := rne (Z.pos m) (Z.pos p)).
  pose proof (rne_bounds (Z.pos m) (Z.pos p) ltac:(lia)) as B. pose proof (shr_digits m e (Z.pos p) ltac:(lia) ltac:(lia) ltac:(lia)) as S. fold q in B. destruct (Z.eq_dec q (2 ^ 53)) as [E|E].
  - specialize (L' E). rewrite E. unfold shr_fexp. cbn [Zdigits2]. change (2 ^ 53) with (Z.pos 9007199254740992). cbn [Zdigits2]. change (Z.pos (digits2_pos 9007199254740992)) with 54. unfold fexp, emin. replace (Z.max (54 + target m e - 53) (3 - 1024 - 53) - target m e) with 1 by lia. cbn [shr shr_record_of_loc SpecFloat.iter_pos shr_1 shr_m].
    exists 4503599627370496%positive, (target m e + 1). split; [|right; repeat split]. destruct (Z.leb_spec (target m e + 1) (1024 - 53)); [reflexivity|lia].
  - assert (Q : 2 ^ 52 <= q < 2 ^ 53) by lia. destruct q as [|q'|q'] eqn:EQ; try lia. assert (DQ : Z.pos (digits2_pos q') = 53) by (apply digits_unique; [lia|exact Q]). unfold shr_fexp. cbn [Zdigits2]. rewrite DQ. unfold fexp, emin. replace (Z.max (53 + target m e - 53) (3 - 1024 - 53) - target m e) with 0 by lia. cbn [shr shr_record_of_loc shr_m].
    exists q', (target m e). split; [|left; split; [reflexivity|split; [reflexivity|lia]]]. destruct (Z.leb_spec (target m e) (1024 - 53)); [reflexivity|lia].
Qed.

(** * Integers *)
Lemma of_Z_int : forall z, Z.abs z <= 2 ^ 53 -> is_integer (of_Z z) z /\ is_nan (of_Z z) = false.
Proof.
  assert (P : forall s p, Z.pos p <= 2 ^ 53 -> exists m' e', binary_round 53 1024 s p 0 = S754_finite s m' e' /\ -52 <= e' <= 1 /\ (if 0 <=? e' then Z.pos m' * 2 ^ e' = Z.pos p else Z.pos m' = Z.pos p * 2 ^ (- e'))).
  { intros s p H. destruct (Z.eq_dec (Z.pos p) (2 ^ 53)) as [E|E].
    - assert (p = 9007199254740992%positive) by lia. subst p. exists 4503599627370496%positive, 1. destruct s; vm_compute; intuition discriminate.
    - assert (D : Z.pos (digits2_pos p) <= 53).
      { destruct (Z.le_gt_cases (Z.pos (digits2_pos p)) 53) as [L|L]; [exact L|]. pose proof (digits_pos p). assert (2 ^ 53 <= 2 ^ (Z.pos (digits2_pos p) - 1)) by (apply Z.pow_le_mono_r; lia). lia. }
      destruct (exact_lemma s p 0) as (m' & E' & V); [rewrite target_eq; lia|rewrite target_eq; lia|]. exists m', (target p 0). split; [exact E'|]. rewrite target_eq in *. split; [lia|]. destruct (Z.leb_spec 0 (Z.max (Z.pos (digits2_pos p) + 0 - 53) (-1074))) as [L|L].
      + replace (Z.max (Z.pos (digits2_pos p) + 0 - 53) (-1074)) with 0 in * by lia. cbn in *. lia.
      + rewrite V. f_equal. }
  intros [|p|p] H.
  - split; [split; [exact Logic.I|reflexivity]|reflexivity].
  - destruct (P false p ltac:(lia)) as (m' & e' & E & B & V). unfold of_Z. cbn [binary_normalize]. rewrite E. split; [|reflexivity]. split; [exact Logic.I|]. cbn [numerator denominator]. destruct (0 <=? e'); lia.
  - destruct (P true p ltac:(lia)) as (m' & e' & E & B & V). unfold of_Z. cbn [binary_normalize]. rewrite E. split; [|reflexivity]. split; [exact Logic.I|]. cbn [numerator denominator]. destruct (0 <=? e'); lia.
Qed.

(** * Rounding to integers *)
Definition up (e : Z) : Z := if 0 <=? e then 2 ^ e else 1.
Definition down (e : Z) : Z := if 0 <=? e then 1 else 2 ^ (- e).
Lemma up_down : forall a b, 0 <= b -> a + b >= 0 -> up a * 2 ^ b = 2 ^ (a + b) * down a.
Proof.
  intros a b B H. unfold up, down. destruct (Z.leb_spec 0 a) as [L|L]; [rewrite Z.pow_add_r by lia; lia|]. rewrite Z.mul_1_l, <- Z.pow_add_r by lia. f_equal. lia.
Qed.
Definition rounded (n : positive) (ez : Z) : Z := if target n ez <=? ez then Z.pos n else rne (Z.pos n) (target n ez - ez) * 2 ^ (target n ez - ez).
Lemma normal_form : forall s n ez, ez < 0 -> -1074 < target n ez <= 971 -> (rne (Z.pos n) (target n ez - ez) = 2 ^ 53 -> target n ez <= 970) ->
  exists m e, binary_round 53 1024 s n ez = S754_finite s m e /\ Z.pos m < 2 ^ 53 /\ Z.pos m * up e * 2 ^ (- ez) = rounded n ez * down e.
Proof.
  intros s n ez Z0 T L. unfold rounded. destruct (Z.leb_spec (target n ez) ez) as [C|C].
  - destruct (exact_lemma s n ez C ltac:(lia)) as (m & E & V). exists m, (target n ez). split; [exact E|]. split.
    + rewrite V. pose proof (digits_pos n) as [_ P]. pose proof (target_eq n ez) as TE. assert (2 ^ Z.pos (digits2_pos n) * 2 ^ (ez - target n ez) = 2 ^ (Z.pos (digits2_pos n) + (ez - target n ez))) by (rewrite Z.pow_add_r; lia). assert (2 ^ (Z.pos (digits2_pos n) + (ez - target n ez)) <= 2 ^ 53) by (apply Z.pow_le_mono_r; lia). assert (0 < 2 ^ (ez - target n ez)) by (apply Z.pow_pos_nonneg; lia). nia.
    + rewrite V. unfold up, down. destruct (Z.leb_spec 0 (target n ez)); [lia|]. rewrite Z.mul_1_r, <- Z.mul_assoc, <- Z.pow_add_r by lia. do 2 f_equal. lia.
  - pose proof (shr_digits n ez (target n ez - ez) ltac:(lia) ltac:(lia) ltac:(lia)) as S. pose proof (rne_bounds (Z.pos n) (target n ez - ez) ltac:(lia)) as B. destruct (round_lemma s n ez C ltac:(lia) L ltac:(lia)) as (m & e & E & [(-> & V & LT)|(-> & V & R)]).
    + exists m, (target n ez). split; [exact E|]. split.
      * exact LT.
      * rewrite V, <- !Z.mul_assoc. f_equal. apply (up_down (target n ez) (- ez)); lia.
    + exists m, (target n ez + 1). split; [exact E|]. split; [rewrite V; reflexivity|]. rewrite V, R. rewrite <- !Z.mul_assoc. rewrite (up_down (target n ez + 1) (- ez)) by lia. change (2 ^ 53) with (2 ^ 52 * 2). replace (target n ez + 1 + - ez) with (1 + (target n ez - ez)) by lia. rewrite (Z.pow_add_r 2 1) by lia. ring.
Qed.
Definition valid (m : positive) (e : Z) : Prop := target m e = e /\ e <= 971.
Lemma valid_bounds : forall m e, valid m e -> Z.pos m < 2 ^ 53 /\ -1074 <= e <= 971 /\ (e <> -1074 -> 2 ^ 52 <= Z.pos m).
Proof.
  intros m e (T & L). rewrite target_eq in T. pose proof (digits_pos m) as P. split; [|split; [lia|]].
  - assert (2 ^ Z.pos (digits2_pos m) <= 2 ^ 53) by (apply Z.pow_le_mono_r; lia). lia.
  - intros N. assert (E : Z.pos (digits2_pos m) = 53) by lia. rewrite E in P. exact (proj1 P).
Qed.
Lemma normal_valid : forall s n ez, -1074 < target n ez <= 971 -> (rne (Z.pos n) (target n ez - ez) = 2 ^ 53 -> target n ez <= 970) ->
  exists m e, binary_round 53 1024 s n ez = S754_finite s m e /\ valid m e.
Proof.
  intros s n ez T L. destruct (Z.le_gt_cases (target n ez) ez) as [C|C].
  - destruct (exact_lemma s n ez C ltac:(lia)) as (m & E & V). exists m, (target n ez). split; [exact E|]. split; [|lia]. pose proof (digits_pos n) as P. assert (D : Z.pos (digits2_pos m) = Z.pos (digits2_pos n) + (ez - target n ez)).
    { apply digits_unique; [lia|]. rewrite V. replace (Z.pos (digits2_pos n) + (ez - target n ez) - 1) with ((Z.pos (digits2_pos n) - 1) + (ez - target n ez)) by lia. rewrite !Z.pow_add_r by lia. assert (0 < 2 ^ (ez - target n ez)) by (apply Z.pow_pos_nonneg; lia). nia. }
    rewrite (target_eq m), D. pose proof (target_eq n ez). lia.
  - pose proof (shr_digits n ez (target n ez - ez) ltac:(lia) ltac:(lia) ltac:(lia)) as S. pose proof (rne_bounds (Z.pos n) (target n ez - ez) ltac:(lia)) as B. destruct (round_lemma s n ez C ltac:(lia) L ltac:(lia)) as (m & e & E & [(-> & V & LT)|(-> & V & R)]).
    + exists m, (target n ez). split; [exact E|]. split; [|lia]. rewrite (target_eq m), (digits_unique m 53); [lia|lia|]. change (53 - 1) with 52. lia.
    + exists m, (target n ez + 1). split; [exact E|]. specialize (L R). split; [|lia]. rewrite (target_eq m), (digits_unique m 53); [lia|lia|]. rewrite V. change (53 - 1) with 52. lia.
Qed.
Lemma valid_double : forall s m e, valid m e <-> double (S754_finite s m e).
Proof.
  intros s m e. unfold double. cbn [valid_binary]. unfold bounded, canonical_mantissa. rewrite Bool.andb_true_iff, <- Zeq_is_eq_bool. unfold valid. rewrite target_eq. unfold fexp, emin. split; intros (A & B); (split; lia).
Qed.

(** * Integers that are doubles *)
Lemma scale : forall n e z, -1074 <= e -> (n * up e = z * down e <-> n * 2 ^ (e + 1074) = z * 2 ^ 1074).
Proof.
  intros n e z E. pose proof (up_down e 1074 ltac:(lia) ltac:(lia)) as U. assert (PD : 0 < down e) by (unfold down; destruct (0 <=? e) eqn:L; [lia|apply Z.pow_pos_nonneg; lia]). assert (P : 0 < 2 ^ 1074) by (apply Z.pow_pos_nonneg; lia). set (w := 2 ^ 1074) in *. clearbody w. set (x := 2 ^ (e + 1074)) in *. set (d := down e) in *. set (u := up e) in *. clearbody x d u. split; intros H.
  - apply (Z.mul_cancel_r _ _ d); [lia|]. rewrite <- Z.mul_assoc, <- U, Z.mul_assoc, H. ring.
  - apply (Z.mul_cancel_r _ _ w); [lia|]. rewrite <- Z.mul_assoc, U, Z.mul_assoc, H. ring.
Qed.
Definition sg (s : bool) : Z := if s then -1 else 1.
Lemma normalize_int : forall n ez z, -1074 <= ez -> n * up ez = z * down ez -> z <> 0 -> Z.abs z <= 2 ^ 53 ->
  exists m e, binary_normalize 53 1024 n ez false = S754_finite (z <? 0) m e /\ valid m e /\ Z.pos m * up e = Z.abs z * down e.
Proof.
  intros n ez z EZ H NZ B. assert (PD : 0 < down ez) by (unfold down; destruct (0 <=? ez) eqn:L; [lia|apply Z.pow_pos_nonneg; lia]). assert (PU : 0 < up ez) by (unfold up; destruct (0 <=? ez) eqn:L; [apply Z.pow_pos_nonneg; lia|lia]).
  assert (N : exists p, n = sg (z <? 0) * Z.pos p) by (destruct (Z.ltb_spec z 0); unfold sg; destruct n as [|p|p]; try nia; exists p; lia). destruct N as (p & N). assert (HP : Z.pos p * up ez = Z.abs z * down ez) by (subst n; destruct (Z.ltb_spec z 0); unfold sg in H; lia).
  replace (binary_normalize 53 1024 n ez false) with (binary_round 53 1024 (z <? 0) p ez) by (subst n; destruct (z <? 0); reflexivity). set (s := z <? 0). clearbody s. clear n H N.
  assert (AZ : exists q, Z.abs z = Z.pos q) by (destruct z as [|q|q]; [lia|exists q; reflexivity|exists q; reflexivity]). destruct AZ as (q & AZ). rewrite AZ in *. clear z NZ AZ PD PU.
  pose proof (proj1 (scale (Z.pos p) ez (Z.pos q) EZ) HP) as V. pose proof (digits_pos p) as DP. pose proof (digits_pos q) as DQ. set (d := Z.pos (digits2_pos p)) in *. set (dq := Z.pos (digits2_pos q)) in *.
  assert (DD : d + ez = dq).
  { assert (X : 2 ^ (d - 1) * 2 ^ (ez + 1074) <= Z.pos q * 2 ^ 1074 < 2 ^ d * 2 ^ (ez + 1074)) by (rewrite <- V; assert (0 < 2 ^ (ez + 1074)) by (apply Z.pow_pos_nonneg; lia); nia). assert (Y : 2 ^ (dq - 1) * 2 ^ 1074 <= Z.pos q * 2 ^ 1074 < 2 ^ dq * 2 ^ 1074) by (assert (0 < 2 ^ 1074) by (apply Z.pow_pos_nonneg; lia); set (w := 2 ^ 1074) in *; clearbody w; nia).
    rewrite <- !Z.pow_add_r in X by lia. rewrite <- !Z.pow_add_r in Y by lia. set (w := Z.pos q * 2 ^ 1074) in *. clearbody w. destruct (Z.lt_trichotomy (d + ez) dq) as [L|[L|L]]; [exfalso|exact L|exfalso].
    - assert (2 ^ (d + (ez + 1074)) <= 2 ^ (dq - 1 + 1074)) by (apply Z.pow_le_mono_r; lia). lia.
    - assert (2 ^ (dq + 1074) <= 2 ^ (d - 1 + (ez + 1074))) by (apply Z.pow_le_mono_r; lia). lia. }
  assert (DQ54 : dq <= 54). { destruct (Z.le_gt_cases dq 54) as [L|L]; [exact L|exfalso]. assert (2 ^ 54 <= 2 ^ (dq - 1)) by (apply Z.pow_le_mono_r; lia). lia. }
  assert (T : target p ez = dq - 53) by (rewrite target_eq; fold d; lia). assert (DQ1 : 1 <= dq) by (unfold dq; lia). clearbody dq d.
  destruct (Z.le_gt_cases (dq - 53) ez) as [C|C].
  - destruct (exact_lemma s p ez ltac:(lia) ltac:(lia)) as (m & E & W). destruct (normal_valid s p ez) as (m' & e' & E' & V'); [lia|rewrite T; intros; lia|]. rewrite E in E'. injection E' as <- <-. exists m, (target p ez). split; [exact E|]. split; [exact V'|]. apply scale; [lia|]. rewrite <- V, W, <- Z.mul_assoc, <- Z.pow_add_r by lia. do 2 f_equal. lia.
  - set (k := dq - 53 - ez) in *. assert (DIV : exists r, Z.pos p = r * 2 ^ k).
    { destruct (Z.le_gt_cases dq 53) as [L|L].
      - exists (Z.pos q * 2 ^ (53 - dq)). apply (scale (Z.pos p) ez (Z.pos q) EZ) in V. unfold up, down in V. destruct (Z.leb_spec 0 ez); [lia|]. rewrite Z.mul_1_r in V. rewrite V, <- Z.mul_assoc, <- Z.pow_add_r by lia. do 2 f_equal. lia.
      - assert (E54 : dq = 54) by lia. clear DD. unfold k. clear k. subst dq. change (54 - 1) with 53 in DQ. assert (QE : Z.pos q = 2 ^ 53) by lia. exists (2 ^ 52). rewrite QE, <- Z.pow_add_r in V by lia. rewrite <- Z.pow_add_r by lia. apply (Z.mul_cancel_r _ _ (2 ^ (ez + 1074))); [apply Z.pow_nonzero; lia|]. rewrite V, <- Z.pow_add_r by lia. f_equal. lia. }
    destruct DIV as (r & DIV). assert (PK : 0 < 2 ^ k) by (apply Z.pow_pos_nonneg; lia). assert (RV : rne (Z.pos p) k = r).
    { unfold rne. rewrite DIV. rewrite Z.div_mul, Z.mod_mul by lia. destruct (Z.compare_spec (2 * 0) (2 ^ k)); [lia|reflexivity|lia]. }
    pose proof (shr_digits p ez k ltac:(lia) ltac:(lia) ltac:(lia)) as SD. rewrite DIV, Z.div_mul in SD by lia. assert (TK : target p ez - ez = k) by lia.
    destruct (normal_valid s p ez) as (m' & e' & E' & V'); [lia|lia|]. destruct (round_lemma s p ez) as (m & e & E & [(-> & W & LT)|(-> & W & R)]); [lia|lia|lia|lia| |rewrite TK in R; lia]. rewrite E in E'. injection E' as <- <-. exists m, (target p ez). split; [exact E|]. split; [exact V'|]. apply scale; [lia|]. rewrite <- V, W, TK, RV, DIV, <- Z.mul_assoc, <- Z.pow_add_r by lia. do 2 f_equal. lia.
Qed.
Lemma of_Z_finite : forall z, z <> 0 -> Z.abs z <= 2 ^ 53 -> exists m e, of_Z z = S754_finite (z <? 0) m e /\ valid m e /\ Z.pos m * up e = Z.abs z * down e.
Proof. intros z NZ B. apply normalize_int; [lia|reflexivity|exact NZ|exact B]. Qed.
Lemma value_lt : forall m e m' e', valid m e -> valid m' e' -> e < e' \/ (e = e' /\ Z.pos m < Z.pos m') -> Z.pos m * 2 ^ (e + 1074) < Z.pos m' * 2 ^ (e' + 1074).
Proof.
  intros m e m' e' V V' H. destruct (valid_bounds m e V) as (M & B & _). destruct (valid_bounds m' e' V') as (M' & B' & L). assert (P : 0 < 2 ^ (e + 1074)) by (apply Z.pow_pos_nonneg; lia). destruct H as [H|(-> & H)]; [|apply Z.mul_lt_mono_pos_r; assumption]. specialize (L ltac:(lia)).
  assert (2 * 2 ^ (e + 1074) <= 2 ^ (e' + 1074)) by (rewrite <- Z.pow_succ_r by lia; apply Z.pow_le_mono_r; lia). nia.
Qed.
Lemma value_unique : forall m e m' e', valid m e -> valid m' e' -> Z.pos m * 2 ^ (e + 1074) = Z.pos m' * 2 ^ (e' + 1074) -> m = m' /\ e = e'.
Proof.
  intros m e m' e' V V' H. destruct (Z.lt_trichotomy e e') as [L|[L|L]].
  - pose proof (value_lt m e m' e' V V' (or_introl L)). lia.
  - split; [|exact L]. destruct (Z.lt_trichotomy (Z.pos m) (Z.pos m')) as [K|[K|K]]; [|congruence|].
    + pose proof (value_lt m e m' e' V V' (or_intror (conj L K))). lia.
    + pose proof (value_lt m' e' m e V' V (or_intror (conj (eq_sym L) K))). lia.
  - pose proof (value_lt m' e' m e V' V (or_introl L)). lia.
Qed.
Definition whole (v : spec_float) (k : Z) : Prop := is_integer v k /\ double v.
Lemma of_Z_double : forall z, Z.abs z <= 2 ^ 53 -> double (of_Z z).
Proof.
  intros z B. destruct (Z.eq_dec z 0) as [->|N]; [reflexivity|]. destruct (of_Z_finite z N B) as (m & e & -> & V & _). apply valid_double. exact V.
Qed.
Lemma floor_spec : forall s m e K, Z.pos m < 2 ^ 53 -> K * down e <= sg s * (Z.pos m * up e) < (K + 1) * down e -> is_integer (XNumber.floor (S754_finite s m e)) K.
Proof.
  intros s m e K M H. unfold XNumber.floor, up, down in *. destruct (Z.leb_spec 0 e) as [L|L].
  - split; [exact Logic.I|]. cbn [numerator denominator]. destruct (Z.leb_spec 0 e); [|lia]. unfold sg in H. destruct s; lia.
  - assert (P : 0 < 2 ^ (- e)) by (apply Z.pow_pos_nonneg; lia). assert (Q : (if s then - Z.pos m else Z.pos m) / 2 ^ (- e) = K) by (symmetry; apply (Z.div_unique _ _ K ((if s then - Z.pos m else Z.pos m) - K * 2 ^ (- e))); [left; unfold sg in H; destruct s; lia|lia]). rewrite Q. unfold with_sign.
    destruct (Z.eqb_spec K 0) as [->|N]; [split; [exact Logic.I|reflexivity]|]. apply of_Z_int. unfold sg in H. rewrite Z.mul_1_r in H. destruct s; [|nia]. assert (-2 ^ 53 <= K); [|nia]. nia.
Qed.
Lemma floor_whole : forall s m e K, valid m e -> K * down e <= sg s * (Z.pos m * up e) < (K + 1) * down e -> whole (XNumber.floor (S754_finite s m e)) K.
Proof.
  intros s m e K V H. destruct (valid_bounds m e V) as (M & _). split; [apply floor_spec; assumption|]. unfold XNumber.floor, up, down in *. destruct (Z.leb_spec 0 e) as [L|L]; [apply valid_double; exact V|].
  assert (P : 0 < 2 ^ (- e)) by (apply Z.pow_pos_nonneg; lia). assert (Q : (if s then - Z.pos m else Z.pos m) / 2 ^ (- e) = K) by (symmetry; apply (Z.div_unique _ _ K ((if s then - Z.pos m else Z.pos m) - K * 2 ^ (- e))); [left; unfold sg in H; destruct s; lia|lia]). rewrite Q. unfold with_sign.
  destruct (Z.eqb_spec K 0) as [->|N]; [reflexivity|]. apply of_Z_double. unfold sg in H. rewrite Z.mul_1_r in H. destruct s; [|nia]. assert (-2 ^ 53 <= K); [|nia]. nia.
Qed.
Lemma half_units : forall m e, let ez := Z.min e (-53) in
  forall s, fadd (S754_finite s m e) half = binary_normalize 53 1024 (sg s * (Z.pos m * 2 ^ (e - ez)) + 2 ^ (-1 - ez)) ez false.
Proof.
  intros m e ez s. unfold fadd, half. cbn [SFadd]. fold ez. assert (SH : forall m e, ez <= e -> Z.pos (fst (shl_align m e ez)) = Z.pos m * 2 ^ (e - ez)).
  { intros m0 e0 H. unfold shl_align. destruct (ez - e0) as [|p|p] eqn:D; [|lia|]; cbn [fst]; [replace (e0 - ez) with 0 by lia; lia|]. rewrite shift_val. do 2 f_equal. lia. }
  rewrite !SH by lia. f_equal. unfold sg, cond_Zopp. change (Z.pos 4503599627370496) with (2 ^ 52). rewrite <- Z.pow_add_r by lia. replace (52 + (-53 - ez)) with (-1 - ez) by lia. destruct s; lia.
Qed.
Lemma rounds_units : forall s m e K, let ez := Z.min e (-53) in
  K * 2 ^ (- ez) <= sg s * (Z.pos m * 2 ^ (e - ez)) + 2 ^ (-1 - ez) < (K + 1) * 2 ^ (- ez) <-> rounds_to (S754_finite s m e) K.
Proof.
  intros s m e K ez. unfold rounds_to. cbn [numerator denominator]. fold (sg s). fold (up e). fold (down e). assert (U : up e * 2 ^ (- ez) = 2 ^ (e - ez) * down e) by (rewrite up_down by lia; do 2 f_equal; lia). assert (PD : 0 < down e) by (unfold down; destruct (0 <=? e) eqn:L; [lia|apply Z.pow_pos_nonneg; lia]). assert (PE : 0 < 2 ^ (-1 - ez)) by (apply Z.pow_pos_nonneg; lia). assert (H2 : 2 ^ (- ez) = 2 * 2 ^ (-1 - ez)) by (rewrite <- Z.pow_succ_r by lia; f_equal; lia).
  rewrite H2 in *. set (h := 2 ^ (-1 - ez)) in *. set (x := 2 ^ (e - ez)) in *. set (u := up e) in *. set (d := down e) in *. set (g := sg s). set (mm := Z.pos m). clearbody h x u d g mm. clear H2.
  assert (E : g * (mm * x) * d = g * mm * u * (2 * h)) by (replace (g * (mm * x) * d) with (g * mm * (x * d)) by ring; rewrite <- U; ring). set (w := g * (mm * x)) in *. set (y := g * mm * u) in *. clearbody w y.
  assert (L1 : (2 * K - 1) * h <= w <-> (2 * K - 1) * d <= 2 * y).
  { rewrite (Z.mul_le_mono_pos_r _ w d PD), (Z.mul_le_mono_pos_r _ (2 * y) h PE). rewrite E. replace ((2 * K - 1) * d * h) with ((2 * K - 1) * h * d) by ring. replace (2 * y * h) with (y * (2 * h)) by ring. reflexivity. }
  assert (L2 : w < (2 * K + 1) * h <-> 2 * y < (2 * K + 1) * d).
  { rewrite (Z.mul_lt_mono_pos_r d w _ PD), (Z.mul_lt_mono_pos_r h (2 * y) _ PE). rewrite E. replace ((2 * K + 1) * d * h) with ((2 * K + 1) * h * d) by ring. replace (2 * y * h) with (y * (2 * h)) by ring. reflexivity. }
  rewrite <- L1, <- L2. lia.
Qed.
Lemma finish : forall s m e s' n K, let ez := Z.min e (-53) in
  sg s * (Z.pos m * 2 ^ (e - ez)) + 2 ^ (-1 - ez) = sg s' * Z.pos n -> -1074 < target n ez <= 971 ->
  (rne (Z.pos n) (target n ez - ez) = 2 ^ 53 -> target n ez <= 970) ->
  K * 2 ^ (- ez) <= sg s' * rounded n ez < (K + 1) * 2 ^ (- ez) -> whole (XNumber.floor (fadd (S754_finite s m e) half)) K.
Proof.
  intros s m e s' n K ez E T L H. rewrite half_units. fold ez. rewrite E. replace (binary_normalize 53 1024 (sg s' * Z.pos n) ez false) with (binary_round 53 1024 s' n ez) by (destruct s'; reflexivity).
  destruct (normal_form s' n ez ltac:(lia) T L) as (m' & e' & EM & M & V). destruct (normal_valid s' n ez T L) as (m2 & e2 & EM2 & VA). rewrite EM in *. injection EM2 as <- <-. apply floor_whole; [exact VA|]. assert (P : 0 < 2 ^ (- ez)) by (apply Z.pow_pos_nonneg; lia). assert (PD : 0 < down e') by (unfold down; destruct (0 <=? e') eqn:L2; [lia|apply Z.pow_pos_nonneg; lia]).
  set (x := Z.pos m' * up e') in *. set (h := 2 ^ (- ez)) in *. set (d := down e') in *. set (R := rounded n ez) in *. clearbody x h d R. assert (V' : sg s' * x * h = sg s' * R * d) by (rewrite <- !Z.mul_assoc; f_equal; exact V). set (y := sg s' * x) in *. set (Q := sg s' * R) in *. clearbody y Q.
  destruct H as (A & B). split.
  - apply (Z.mul_le_mono_pos_r _ _ h P). rewrite V'. replace (K * d * h) with (K * h * d) by ring. apply Z.mul_le_mono_pos_r; assumption.
  - apply (Z.mul_lt_mono_pos_r h _ _ P). rewrite V'. replace ((K + 1) * d * h) with ((K + 1) * h * d) by ring. apply Z.mul_lt_mono_pos_r; assumption.
Qed.
Lemma rne_val : forall q r k, 0 <= r < 2 ^ k -> rne (q * 2 ^ k + r) k = match Z.compare (2 * r) (2 ^ k) with Lt => q | Gt => q + 1 | Eq => if Z.even q then q else q + 1 end.
Proof.
  intros q r k R. unfold rne. assert (D : (q * 2 ^ k + r) / 2 ^ k = q) by (symmetry; apply (Z.div_unique _ _ q r); [left; exact R|ring]). assert (M : (q * 2 ^ k + r) mod 2 ^ k = r) by (symmetry; apply (Z.mod_unique _ _ q r); [left; exact R|ring]). rewrite D, M. reflexivity.
Qed.
Lemma target_at : forall n ez d, 0 < d -> 2 ^ (d - 1) <= Z.pos n < 2 ^ d -> target n ez = Z.max (d + ez - 53) (-1074).
Proof. intros n ez d D H. rewrite target_eq, (digits_unique n d D H). reflexivity. Qed.
(** The sum with a half is positive. *)
Lemma pos_big : forall m e, valid m e -> 0 <= e -> (e = 0 -> Z.even (Z.pos m) = true) -> whole (XNumber.floor (fadd (S754_finite false m e) half)) (Z.pos m * 2 ^ e).
Proof.
  intros m e V E EV. destruct (valid_bounds m e V) as (M & B & M2). specialize (M2 ltac:(lia)). assert (Z53 : Z.min e (-53) = -53) by lia. assert (P : 0 < 2 ^ e) by (apply Z.pow_pos_nonneg; lia).
  assert (N : exists n, Z.pos n = Z.pos m * 2 ^ (e + 53) + 2 ^ 52) by (assert (0 < Z.pos m * 2 ^ (e + 53) + 2 ^ 52) by (rewrite Z.pow_add_r by lia; lia); destruct (Z.pos m * 2 ^ (e + 53) + 2 ^ 52) as [|n|n] eqn:EQ; [lia|exists n; reflexivity|lia]). destruct N as (n & N).
  assert (T : target n (-53) = e).
  { rewrite (target_at n (-53) (106 + e)); [lia|lia|]. rewrite N. replace (106 + e - 1) with (52 + (e + 53)) by lia. replace (106 + e) with (53 + (e + 53)) by lia. rewrite !(Z.pow_add_r 2 _ (e + 53)) by lia. assert (2 ^ 53 <= 2 ^ (e + 53)) by (apply Z.pow_le_mono_r; lia). split; nia. }
  assert (R : rne (Z.pos n) (e - -53) = Z.pos m).
  { rewrite N. replace (e - -53) with (e + 53) by lia. assert (G : 2 ^ (e + 53) = 2 ^ e * 2 ^ 53) by (apply Z.pow_add_r; lia). rewrite rne_val by lia. destruct (Z.eq_dec e 0) as [->|NE].
    - change (2 * 2 ^ 52 ?= 2 ^ (0 + 53)) with Eq. cbv iota. rewrite EV by reflexivity. reflexivity.
    - assert (2 <= 2 ^ e) by (change 2 with (2 ^ 1) at 1; apply Z.pow_le_mono_r; lia). assert (C : (2 * 2 ^ 52 ?= 2 ^ (e + 53)) = Lt) by (apply Z.compare_lt_iff; lia). rewrite C. reflexivity. }
  apply (finish false m e false n); rewrite Z53.
  - rewrite N. unfold sg. replace (e - -53) with (e + 53) by lia. change (-1 - -53) with 52. lia.
  - lia.
  - rewrite T, R. lia.
  - unfold rounded. rewrite T. destruct (Z.leb_spec e (-53)); [lia|]. rewrite R. unfold sg. replace (e - -53) with (e + 53) by lia. rewrite Z.pow_add_r by lia. change (- -53) with 53. nia.
Qed.
Lemma pow_split : forall a b c, 0 <= a -> 0 <= b -> c = a + b -> 2 ^ c = 2 ^ a * 2 ^ b.
Proof. intros a b c A B ->. apply Z.pow_add_r; assumption. Qed.
Lemma rne_up : forall n k, 0 <= k -> rne n k = n / 2 ^ k \/ (rne n k = n / 2 ^ k + 1 /\ 2 ^ k <= 2 * (n mod 2 ^ k)).
Proof.
  intros n k K. unfold rne. destruct (Z.compare_spec (2 * (n mod 2 ^ k)) (2 ^ k)); [destruct (Z.even (n / 2 ^ k)); [left; reflexivity|right; split; [reflexivity|lia]]|left; reflexivity|right; split; [reflexivity|lia]].
Qed.
Lemma crossing : forall K x q p n, 0 < p -> n < (K + 1) * (x * p) -> q * p <= n -> (K + 1) * (x * p) <= (q + 1) * p -> q + 1 = (K + 1) * x.
Proof.
  intros K x q p n P A B C. assert (D : (K + 1) * x <= q + 1) by (apply (Z.mul_le_mono_pos_r _ _ p P); rewrite <- Z.mul_assoc; exact C). assert (E : q < (K + 1) * x) by (apply (Z.mul_lt_mono_pos_r p _ _ P); rewrite <- Z.mul_assoc; lia). lia.
Qed.
Lemma multiple : forall u y, 0 < u -> 0 < u * y -> u <= u * y.
Proof. intros u y U H. assert (0 < y) by nia. nia. Qed.
Lemma pos_mid : forall m e, valid m e -> -53 <= e <= -1 -> exists K, rounds_to (S754_finite false m e) K /\ whole (XNumber.floor (fadd (S754_finite false m e) half)) K.
Proof.
  intros m e V E. destruct (valid_bounds m e V) as (M & B & M2). specialize (M2 ltac:(lia)). assert (EZ : Z.min e (-53) = -53) by lia. set (ez := -53) in *. change (Z.min e (-53) = ez) in EZ.
  set (u := 2 ^ (e - ez)). assert (U : 0 < u) by (apply Z.pow_pos_nonneg; lia). set (h := 2 ^ (-1 - ez)). assert (PH : 0 < h) by (apply Z.pow_pos_nonneg; lia). set (w := 2 ^ (- ez)). assert (W : w = 2 * h) by (unfold w, h; rewrite <- Z.pow_succ_r by lia; f_equal; lia).
  assert (HU : h = u * 2 ^ (-1 - e)) by (apply pow_split; unfold ez in *; lia). assert (HB : u * 2 ^ 53 = 2 ^ (53 + e) * w) by (unfold u, w; rewrite <- !Z.pow_add_r by lia; f_equal; lia). assert (PB : 0 < 2 ^ (53 + e)) by (apply Z.pow_pos_nonneg; lia).
  assert (N : exists n, Z.pos n = Z.pos m * u + h) by (destruct (Z.pos m * u + h) as [|n|n] eqn:EQ; [lia|exists n; reflexivity|lia]). destruct N as (n & N). set (K := Z.pos n / w).
  assert (KB : K * w <= Z.pos n < (K + 1) * w) by (pose proof (Z.mul_div_le (Z.pos n) w ltac:(lia)); pose proof (Z.mul_succ_div_gt (Z.pos n) w ltac:(lia)); unfold K; lia).
  exists K. split; [apply (rounds_units false m e K); rewrite EZ; fold u h w; unfold sg; lia|].
  assert (UH : u <= h) by (rewrite HU; assert (0 < 2 ^ (-1 - e)) by (apply Z.pow_pos_nonneg; lia); nia).
  pose proof (digits_pos n) as DN. set (d := Z.pos (digits2_pos n)) in *.
  assert (DL : d <= 54 + (e - ez)).
  { destruct (Z.le_gt_cases d (54 + (e - ez))) as [L|L]; [exact L|exfalso]. assert (2 ^ (54 + (e - ez)) <= 2 ^ (d - 1)) by (apply Z.pow_le_mono_r; lia). rewrite Z.pow_add_r in H by (unfold ez; lia). fold u in H. assert (u * 2 ^ 53 + h <= u * 2 ^ 54) by nia. nia. }
  assert (DG : - ez <= d).
  { destruct (Z.le_gt_cases (- ez) d) as [L|L]; [exact L|exfalso]. assert (2 ^ d <= h) by (apply Z.pow_le_mono_r; lia). lia. }
  assert (T : target n ez = d + ez - 53) by (rewrite target_eq; fold d; lia).
  assert (RB : K * w <= rounded n ez < (K + 1) * w).
  { unfold rounded. destruct (Z.leb_spec (target n ez) ez) as [C|C]; [exact KB|]. set (k := target n ez - ez) in *. assert (PK : 0 < 2 ^ k) by (apply Z.pow_pos_nonneg; lia). set (q := Z.pos n / 2 ^ k).
    assert (QB : q * 2 ^ k <= Z.pos n < (q + 1) * 2 ^ k) by (pose proof (Z.mul_div_le (Z.pos n) (2 ^ k) ltac:(lia)); pose proof (Z.mul_succ_div_gt (Z.pos n) (2 ^ k) ltac:(lia)); unfold q; lia).
    assert (WK : w = 2 ^ (- target n ez) * 2 ^ k) by (apply pow_split; unfold k, ez in *; lia). assert (PT : 0 < 2 ^ (- target n ez)) by (apply Z.pow_pos_nonneg; lia). set (x := 2 ^ (- target n ez)) in *.
    assert (LO : K * x <= q) by (apply Z.div_le_lower_bound; [exact PK|]; replace (2 ^ k * (K * x)) with (K * (x * 2 ^ k)) by ring; rewrite <- WK; lia). pose proof (rne_bounds (Z.pos n) k ltac:(lia)) as RN. fold q in RN. split; [rewrite WK, Z.mul_assoc; apply Z.mul_le_mono_nonneg_r; lia|].
    destruct (rne_up (Z.pos n) k ltac:(lia)) as [->|(-> & UP)]; fold q; [lia|]. destruct (Z.lt_ge_cases ((q + 1) * 2 ^ k) ((K + 1) * w)) as [OK|BAD]; [exact OK|exfalso].
    assert (Q1 : q + 1 = (K + 1) * x) by (apply (crossing K x q (2 ^ k) (Z.pos n)); [exact PK|rewrite <- WK; lia|lia|rewrite <- WK; exact BAD]). assert (MOD : Z.pos n mod 2 ^ k = Z.pos n - q * 2 ^ k) by (unfold q; rewrite Z.mod_eq by lia; ring). rewrite MOD in UP.
    assert (X1 : 2 * ((K + 1) * w - Z.pos n) <= 2 ^ k) by (rewrite WK; replace ((K + 1) * (x * 2 ^ k)) with ((q + 1) * 2 ^ k) by (rewrite Q1; ring); lia).
    assert (WU : w = u * (2 * 2 ^ (-1 - e))) by lia. assert (X2 : u <= (K + 1) * w - Z.pos n).
    { assert (F : (K + 1) * w - Z.pos n = u * ((K + 1) * (2 * 2 ^ (-1 - e)) - Z.pos m - 2 ^ (-1 - e))) by (rewrite N, HU, WU; ring). rewrite F. apply multiple; [exact U|rewrite <- F; lia]. }
    assert (KE : k = 1 + (e - ez)).
    { assert (2 * u <= 2 ^ k) by lia. assert (2 * u = 2 ^ (1 + (e - ez))) by (rewrite Z.pow_add_r by lia; reflexivity). destruct (Z.lt_ge_cases k (1 + (e - ez))) as [L|L]; [|lia]. assert (2 ^ k < 2 ^ (1 + (e - ez))) by (apply Z.pow_lt_mono_r; lia). lia. }
    assert (DD : d = 54 + (e - ez)) by lia. rewrite DD in DN. replace (54 + (e - ez) - 1) with (53 + (e - ez)) in DN by lia. rewrite (Z.pow_add_r 2 53) in DN by lia. fold u in DN. assert (2 ^ k = 2 * u) by (rewrite KE, Z.pow_add_r by lia; reflexivity).
    assert (KG : 2 ^ (53 + e) < K + 1) by (apply (Z.mul_lt_mono_pos_r w); [lia|]; rewrite <- HB; lia).
    assert (KW : (2 ^ (53 + e) + 1) * w <= (K + 1) * w) by (apply Z.mul_le_mono_nonneg_r; lia). assert (MU : Z.pos m * u <= (2 ^ 53 - 1) * u) by (apply Z.mul_le_mono_nonneg_r; lia). lia. }
  assert (RN : rne (Z.pos n) (target n ez - ez) = 2 ^ 53 -> target n ez <= 970) by lia.
  apply (finish false m e false n K); rewrite EZ; [|lia|exact RN|]; unfold sg; fold u h w; lia.
Qed.
Lemma pos_low : forall m e, valid m e -> e <= -54 -> (e = -54 -> Z.pos m <> 2 ^ 53 - 1) ->
  rounds_to (S754_finite false m e) 0 /\ whole (XNumber.floor (fadd (S754_finite false m e) half)) 0.
Proof.
  intros m e V E X. destruct (valid_bounds m e V) as (M & B & _). assert (EZ : Z.min e (-53) = e) by lia. set (h := 2 ^ (-1 - e)). assert (W : 2 ^ (- e) = 2 * h) by (unfold h; rewrite <- Z.pow_succ_r by lia; f_equal; lia).
  assert (PH : 2 ^ 53 <= h) by (apply Z.pow_le_mono_r; lia). assert (N : exists n, Z.pos n = Z.pos m + h) by (destruct (Z.pos m + h) as [|n|n] eqn:EQ; [lia|exists n; reflexivity|lia]). destruct N as (n & N).
  split; [apply (rounds_units false m e 0); rewrite EZ, Z.sub_diag; fold h; rewrite W; unfold sg; cbn [Z.pow]; lia|].
  assert (T : target n e = -53). { rewrite (target_at n e (- e)); [lia|lia|]. replace (- e - 1) with (-1 - e) by lia. fold h. lia. }
  set (k := -53 - e). assert (HK : h = 2 ^ 52 * 2 ^ k) by (apply pow_split; unfold k; lia). assert (PK : 2 <= 2 ^ k) by (change 2 with (2 ^ 1) at 1; apply Z.pow_le_mono_r; unfold k; lia).
  assert (R : 0 <= rne (Z.pos n) k < 2 ^ 53).
  { pose proof (Z.div_mod (Z.pos m) (2 ^ k) ltac:(lia)) as DM. pose proof (Z.mod_pos_bound (Z.pos m) (2 ^ k) ltac:(lia)) as MB. set (q := Z.pos m / 2 ^ k) in *. set (r := Z.pos m mod 2 ^ k) in *. assert (EN : Z.pos n = (2 ^ 52 + q) * 2 ^ k + r) by (rewrite N, HK; lia). rewrite EN, rne_val by exact MB.
    assert (Q0 : 0 <= q) by (apply Z.div_pos; lia). assert (Q : q < 2 ^ 52 /\ (q = 2 ^ 52 - 1 -> k = 1)).
    { split; [apply Z.div_lt_upper_bound; lia|]. intros E1. destruct (Z.le_gt_cases k 1) as [L|L]; [unfold k in *; lia|exfalso]. assert (2 ^ 2 <= 2 ^ k) by (apply Z.pow_le_mono_r; lia). nia. }
    destruct Q as (Q & QK). assert (UP : 2 ^ k <= 2 * r -> q + 1 < 2 ^ 52).
    { intros R2. destruct (Z.eq_dec q (2 ^ 52 - 1)) as [E1|E1]; [exfalso|lia]. specialize (QK E1). rewrite QK in *. change (2 ^ 1) with 2 in *. apply X; [unfold k in QK; lia|lia]. }
    destruct (Z.compare_spec (2 * r) (2 ^ k)) as [C|C|C]; [destruct (Z.even (2 ^ 52 + q))| |]; lia. }
  apply (finish false m e false n 0); rewrite EZ.
  - rewrite Z.sub_diag. fold h. unfold sg. cbn [Z.pow]. lia.
  - lia.
  - lia.
  - unfold rounded. rewrite T. destruct (Z.leb_spec (-53) e); [lia|]. fold k. rewrite W, HK. unfold sg. nia.
Qed.
(** The sum with a half is negative. *)
Lemma neg_big : forall m e, valid m e -> 0 <= e -> (e = 0 -> Z.even (Z.pos m) = true) -> whole (XNumber.floor (fadd (S754_finite true m e) half)) (- (Z.pos m * 2 ^ e)).
Proof.
  intros m e V E EV. destruct (valid_bounds m e V) as (M & B & M2). specialize (M2 ltac:(lia)). assert (Z53 : Z.min e (-53) = -53) by lia. assert (P : 0 < 2 ^ e) by (apply Z.pow_pos_nonneg; lia). assert (G : 2 ^ (e + 53) = 2 ^ e * 2 ^ 53) by (apply Z.pow_add_r; lia). assert (G2 : 2 ^ (e + 52) = 2 ^ e * 2 ^ 52) by (apply Z.pow_add_r; lia).
  assert (N : exists n, Z.pos n = Z.pos m * 2 ^ (e + 53) - 2 ^ 52) by (assert (0 < Z.pos m * 2 ^ (e + 53) - 2 ^ 52) by nia; destruct (Z.pos m * 2 ^ (e + 53) - 2 ^ 52) as [|n|n] eqn:EQ; [lia|exists n; reflexivity|lia]). destruct N as (n & N).
  assert (A : sg true * (Z.pos m * 2 ^ (e - -53)) + 2 ^ (-1 - -53) = sg true * Z.pos n) by (rewrite N; unfold sg; replace (e - -53) with (e + 53) by lia; change (-1 - -53) with 52; lia).
  destruct (Z.eq_dec (Z.pos m) (2 ^ 52)) as [E2|E2].
  - assert (T : target n (-53) = e - 1).
    { rewrite (target_at n (-53) (105 + e)); [lia|lia|]. rewrite N, E2. replace (105 + e - 1) with (51 + (e + 53)) by lia. replace (105 + e) with (52 + (e + 53)) by lia. rewrite !(Z.pow_add_r 2 _ (e + 53)) by lia. lia. }
    assert (R : (if e =? 0 then 2 ^ 53 - 1 else 2 ^ 53) = rne (Z.pos n) (e - 1 - -53)).
    { replace (Z.pos n) with ((2 ^ 53 - 1) * 2 ^ (e + 52) + (2 ^ (e + 52) - 2 ^ 52)) by (rewrite N, E2; lia). replace (e - 1 - -53) with (e + 52) by lia. rewrite rne_val by lia. destruct (Z.eqb_spec e 0) as [->|NE]; [reflexivity|]. assert (2 <= 2 ^ e) by (change 2 with (2 ^ 1) at 1; apply Z.pow_le_mono_r; lia).
      destruct (Z.compare_spec (2 * (2 ^ (e + 52) - 2 ^ 52)) (2 ^ (e + 52))) as [C|C|C]; [reflexivity|lia|lia]. }
    apply (finish true m e true n); rewrite Z53.
    + exact A.
    + lia.
    + lia.
    + unfold rounded. rewrite T. destruct (Z.leb_spec (e - 1) (-53)); [lia|]. rewrite <- R. replace (e - 1 - -53) with (e + 52) by lia. change (- -53) with 53. unfold sg. destruct (Z.eqb_spec e 0) as [->|NE]; lia.
  - assert (T : target n (-53) = e).
    { rewrite (target_at n (-53) (106 + e)); [lia|lia|]. rewrite N. replace (106 + e - 1) with (52 + (e + 53)) by lia. replace (106 + e) with (53 + (e + 53)) by lia. rewrite !(Z.pow_add_r 2 _ (e + 53)) by lia. assert (2 ^ 53 <= 2 ^ (e + 53)) by (apply Z.pow_le_mono_r; lia). split; nia. }
    assert (R : rne (Z.pos n) (e - -53) = Z.pos m).
    { replace (Z.pos n) with ((Z.pos m - 1) * 2 ^ (e + 53) + (2 ^ (e + 53) - 2 ^ 52)) by (rewrite N; lia). replace (e - -53) with (e + 53) by lia. rewrite rne_val by lia. destruct (Z.eq_dec e 0) as [->|NE].
      - change (2 * (2 ^ (0 + 53) - 2 ^ 52) ?= 2 ^ (0 + 53)) with Eq. cbv iota. specialize (EV eq_refl). rewrite Z.even_sub, EV. cbn [Z.even Bool.eqb]. lia.
      - assert (2 <= 2 ^ e) by (change 2 with (2 ^ 1) at 1; apply Z.pow_le_mono_r; lia). assert (C : (2 * (2 ^ (e + 53) - 2 ^ 52) ?= 2 ^ (e + 53)) = Gt) by (apply Z.compare_gt_iff; lia). rewrite C. lia. }
    apply (finish true m e true n); rewrite Z53.
    + exact A.
    + lia.
    + rewrite T, R. lia.
    + unfold rounded. rewrite T. destruct (Z.leb_spec e (-53)); [lia|]. rewrite R. unfold sg. replace (e - -53) with (e + 53) by lia. change (- -53) with 53. nia.
Qed.
Lemma rounded_exact : forall n ez u, (u | Z.pos n) -> u = 2 ^ (Z.max 0 (target n ez - ez)) -> rounded n ez = Z.pos n.
Proof.
  intros n ez u (q & D) U. unfold rounded. destruct (Z.leb_spec (target n ez) ez) as [C|C]; [reflexivity|]. replace (Z.max 0 (target n ez - ez)) with (target n ez - ez) in U by lia. assert (P : 0 < u) by (rewrite U; apply Z.pow_pos_nonneg; lia). rewrite D. replace (q * u) with (q * 2 ^ (target n ez - ez) + 0) by (rewrite <- U; ring). rewrite rne_val by lia. destruct (Z.compare_spec (2 * 0) (2 ^ (target n ez - ez))); [lia|lia|lia].
Qed.
Lemma neg_mid : forall m e, valid m e -> -53 <= e <= -1 -> (e = -53 -> Z.pos m <> 2 ^ 52) -> exists K, rounds_to (S754_finite true m e) K /\ whole (XNumber.floor (fadd (S754_finite true m e) half)) K.
Proof.
  intros m e V E X. destruct (valid_bounds m e V) as (M & B & M2). specialize (M2 ltac:(lia)). assert (EZ : Z.min e (-53) = -53) by lia. set (u := 2 ^ (e + 53)). assert (U : 0 < u) by (apply Z.pow_pos_nonneg; lia). assert (HU : 2 ^ 52 = 2 ^ (-1 - e) * u) by (apply pow_split; lia).
  assert (MM : 2 ^ (-1 - e) < Z.pos m). { assert (2 ^ (-1 - e) <= 2 ^ 52) by (apply Z.pow_le_mono_r; lia). destruct (Z.eq_dec e (-53)) as [->|NE]; [specialize (X eq_refl); change (2 ^ (-1 - -53)) with (2 ^ 52); lia|]. assert (2 ^ (-1 - e) < 2 ^ 52) by (apply Z.pow_lt_mono_r; lia). lia. }
  assert (N : exists n, Z.pos n = (Z.pos m - 2 ^ (-1 - e)) * u) by (destruct ((Z.pos m - 2 ^ (-1 - e)) * u) as [|n|n] eqn:EQ; [nia|exists n; reflexivity|nia]). destruct N as (n & N). set (K := (- Z.pos n) / 2 ^ 53).
  assert (KB : K * 2 ^ 53 <= - Z.pos n < (K + 1) * 2 ^ 53) by (pose proof (Z.mul_div_le (- Z.pos n) (2 ^ 53) ltac:(lia)); pose proof (Z.mul_succ_div_gt (- Z.pos n) (2 ^ 53) ltac:(lia)); unfold K; lia). clearbody K.
  assert (A : sg true * (Z.pos m * 2 ^ (e - -53)) + 2 ^ (-1 - -53) = sg true * Z.pos n) by (rewrite N; unfold sg; replace (e - -53) with (e + 53) by lia; change (-1 - -53) with 52; fold u; lia).
  exists K. split; [apply (rounds_units true m e K); rewrite EZ, A; unfold sg; change (- -53) with 53; lia|].
  pose proof (digits_pos n) as DN. assert (DL : Z.pos (digits2_pos n) <= 53 + (e + 53)).
  { destruct (Z.le_gt_cases (Z.pos (digits2_pos n)) (53 + (e + 53))) as [L|L]; [exact L|exfalso]. assert (PW : 2 ^ (53 + (e + 53)) <= 2 ^ (Z.pos (digits2_pos n) - 1)) by (apply Z.pow_le_mono_r; lia). rewrite Z.pow_add_r in PW by lia. fold u in PW. assert (0 < 2 ^ (-1 - e)) by (apply Z.pow_pos_nonneg; lia). nia. }
  assert (T : target n (-53) = Z.pos (digits2_pos n) - 106) by (rewrite target_eq; lia).
  assert (R : rounded n (-53) = Z.pos n).
  { eapply rounded_exact; [|reflexivity]. rewrite T. rewrite N. apply Z.divide_mul_r. unfold u. exists (2 ^ (e + 53 - Z.max 0 (Z.pos (digits2_pos n) - 106 - -53))). apply pow_split; lia. }
  apply (finish true m e true n K); rewrite EZ; [exact A|lia|lia|]. rewrite R. unfold sg. change (- -53) with 53. lia.
Qed.
(** All of them. *)
Lemma int_rounds : forall s m e, 0 <= e -> rounds_to (S754_finite s m e) (sg s * (Z.pos m * 2 ^ e)).
Proof. intros s m e E. unfold rounds_to. cbn [numerator denominator]. destruct (Z.leb_spec 0 e); [|lia]. unfold sg. destruct s; lia. Qed.
Lemma lt_half : forall m e, SFltb (SFopp half) (S754_finite true m e) = match Z.compare (-53) e with Lt => false | Gt => true | Eq => Pos.ltb m 4503599627370496 end.
Proof.
  intros m e. unfold SFltb. cbn [half SFopp SFcompare negb]. destruct (-53 ?= e); [|reflexivity|reflexivity]. change (Pos.compare_cont Eq 4503599627370496 m) with (Pos.compare 4503599627370496 m). rewrite (Pos.compare_antisym m). unfold Pos.ltb. destruct (m ?= 4503599627370496)%positive; reflexivity.
Qed.
Lemma round_lemma_all : forall v, double v -> finite v -> ~ unlucky v -> exists k, rounds_to v k /\ whole (round_number v) k.
Proof.
  intros [s| | |s m e] D F NU; cbn [finite] in F; try contradiction.
  - exists 0. split; [unfold rounds_to; cbn [numerator denominator]; lia|]. destruct s; (split; [split; [exact Logic.I|reflexivity]|reflexivity]).
  - assert (V : valid m e).
    { unfold double in D. cbn [valid_binary] in D. unfold bounded, canonical_mantissa in D. apply Bool.andb_true_iff in D. destruct D as (D1 & D2). apply Zeq_bool_eq in D1. split; [rewrite target_eq; unfold fexp, emin in D1; lia|lia]. }
    destruct (valid_bounds m e V) as (M & B & M2).
    assert (OD : e = 0 -> Z.even (Z.pos m) = true).
    { intros ->. destruct (Z.even (Z.pos m)) eqn:EV; [reflexivity|exfalso]. apply NU. right. specialize (M2 ltac:(lia)). exists (sg s * Z.pos m). split; [split; [exact Logic.I|cbn [numerator denominator Z.leb Z.compare]; unfold sg; cbn [Z.pow]; destruct s; lia]|]. assert (O : Z.odd (Z.pos m) = true) by (rewrite <- Z.negb_even, EV; reflexivity).
      assert (Z.pos m <> 2 ^ 52) by (intros EQ; rewrite EQ in EV; discriminate). destruct s; unfold sg; [|rewrite Z.mul_1_l; split; [exact O|lia]]. rewrite Z.odd_mul, O. split; [reflexivity|lia]. }
    destruct s.
    + assert (R : round_number (S754_finite true m e) = if SFltb (SFopp half) (S754_finite true m e) then S754_zero true else XNumber.floor (fadd (S754_finite true m e) half)) by reflexivity. rewrite R, lt_half. clear R.
      destruct (Z.compare_spec (-53) e) as [C|C|C].
      * subst e. specialize (M2 ltac:(lia)). assert (C2 : (4503599627370496 <= m)%positive) by (clear - M2; change (2 ^ 52) with 4503599627370496 in M2; lia). apply Pos.ltb_ge in C2. rewrite C2. clear C2. destruct (Z.eq_dec (Z.pos m) (2 ^ 52)) as [E2|E2].
        -- assert (m = 4503599627370496%positive) by lia. subst m. exists 0. split; [split; vm_compute; congruence|split; [split; [exact Logic.I|reflexivity]|reflexivity]].
        -- apply neg_mid; [exact V|lia|intros _; exact E2].
      * destruct (Z.le_gt_cases 0 e) as [P|P]; [|apply neg_mid; [exact V|lia|lia]]. exists (- (Z.pos m * 2 ^ e)). split; [|apply neg_big; assumption]. replace (- (Z.pos m * 2 ^ e)) with (sg true * (Z.pos m * 2 ^ e)) by (unfold sg; lia). apply int_rounds; exact P.
      * exists 0. split; [|split; [split; [exact Logic.I|reflexivity]|reflexivity]]. unfold rounds_to. cbn [numerator denominator]. destruct (Z.leb_spec 0 e); [lia|]. assert (2 ^ 54 <= 2 ^ (- e)) by (apply Z.pow_le_mono_r; lia). lia.
    + change (round_number (S754_finite false m e)) with (XNumber.floor (fadd (S754_finite false m e) half)). destruct (Z.le_gt_cases 0 e) as [P|P].
      * exists (Z.pos m * 2 ^ e). split; [|apply pos_big; assumption]. replace (Z.pos m * 2 ^ e) with (sg false * (Z.pos m * 2 ^ e)) by (unfold sg; lia). apply int_rounds; exact P.
      * destruct (Z.le_gt_cases (-53) e) as [P2|P2]; [apply pos_mid; [exact V|lia]|]. exists 0. apply pos_low; [exact V|lia|]. intros E EQ. apply NU. left. f_equal; [lia|lia].
Qed.
(** * The remainder *)
Lemma is_integer_long : forall v k, is_integer v k -> -9223372036854775808 <= k < 9223372036854775808 -> to_long v = Some k /\ is_nan v = false.
Proof.
  intros [s| | |s m e] k (F & E) B; cbn [finite] in F; try contradiction; cbn [numerator denominator] in E.
  - split; [cbn [to_long]; f_equal; lia|reflexivity].
  - split; [|reflexivity]. cbn [to_long]. assert (T : truncate s m e = k).
    { unfold truncate, magnitude. destruct (Z.leb_spec 0 e) as [L|L]; [destruct s; lia|]. assert (P : 0 < 2 ^ (- e)) by (apply Z.pow_pos_nonneg; lia). destruct s.
      - replace (Z.pos m) with ((- k) * 2 ^ (- e)) by lia. rewrite Z.div_mul by lia. lia.
      - replace (Z.pos m) with (k * 2 ^ (- e)) by lia. rewrite Z.div_mul by lia. reflexivity. }
    rewrite T. destruct (Z.leb_spec (-9223372036854775808) k); [|lia]. destruct (Z.ltb_spec k 9223372036854775808); [reflexivity|lia].
Qed.
Lemma den_pos : forall v, 0 < denominator v.
Proof. intros [s| | |s m e]; cbn [denominator]; try lia. destruct (Z.leb_spec 0 e); [lia|apply Z.pow_pos_nonneg; lia]. Qed.
Lemma modulus_lemma : forall a b x y, is_integer a x -> is_integer b y -> -9223372036854775808 <= x < 9223372036854775808 -> 0 < Z.abs y <= 2 ^ 53 -> ~ (x = -9223372036854775808 /\ y = -1) ->
  exists r, modulus a b = Some r /\ is_integer r (Z.rem x y) /\ remainder a b r.
Proof.
  intros a b x y IA IB BX BY NX. destruct (is_integer_long a x IA BX) as (LA & NA). destruct (is_integer_long b y IB ltac:(lia)) as (LB & NB). unfold modulus. rewrite NA, NB, LA, LB. cbn [orb].
  destruct (Z.eqb_spec y 0); [lia|]. assert (C : (x =? -9223372036854775808) && (y =? -1) = false) by (destruct (Z.eqb_spec x (-9223372036854775808)); [destruct (Z.eqb_spec y (-1)); [lia|reflexivity]|reflexivity]). rewrite C. cbn [orb].
  assert (RB : Z.abs (Z.rem x y) < Z.abs y) by (apply Z.rem_bound_abs; assumption). assert (RS : 0 <= Z.rem x y * x) by (apply Z.rem_sign_mul; assumption). assert (QR : x = y * Z.quot x y + Z.rem x y) by apply Z.quot_rem'.
  exists (of_Z (Z.rem x y)). split; [reflexivity|]. destruct (of_Z_int (Z.rem x y) ltac:(lia)) as (IR & _). split; [exact IR|]. destruct IA as (FA & EA), IB as (FB & EB), IR as (FR & ER). set (r := of_Z (Z.rem x y)) in *. clearbody r. split; [exact FR|]. exists (Z.quot x y).
  pose proof (den_pos a) as PA. pose proof (den_pos b) as PB. pose proof (den_pos r) as PR. rewrite EA, EB, ER. set (da := denominator a) in *. set (db := denominator b) in *. set (dr := denominator r) in *. clearbody da db dr. set (q := Z.quot x y) in *. set (t := Z.rem x y) in *. clearbody q t. split; [subst x; ring|]. split.
  - rewrite !Z.abs_mul, (Z.abs_eq dr), (Z.abs_eq db) by lia. replace (Z.abs t * dr * db) with (Z.abs t * (dr * db)) by ring. replace (Z.abs y * db * dr) with (Z.abs y * (dr * db)) by ring. apply Z.mul_lt_mono_pos_r; [nia|exact RB].
  - replace (t * dr * (x * da)) with (t * x * (dr * da)) by ring. nia.
Qed.
Lemma modulus_undefined : forall a b, is_nan a = false -> finite b -> Z.abs (numerator b) < denominator b -> modulus a b = None.
Proof.
  intros a b NA F H. unfold modulus. rewrite NA. assert (NB : is_nan b = false) by (destruct b; [reflexivity|reflexivity|contradiction|reflexivity]). rewrite NB. cbn [orb]. assert (LB : to_long b = Some 0).
  { destruct b as [s| | |s m e]; cbn [finite] in F; try contradiction; [reflexivity|]. cbn [numerator denominator] in H. cbn [to_long]. assert (T : truncate s m e = 0).
    { unfold truncate, magnitude. destruct (Z.leb_spec 0 e) as [L|L]; [assert (0 < 2 ^ e) by (apply Z.pow_pos_nonneg; lia); destruct s; nia|]. rewrite Z.div_small by (destruct s; lia). destruct s; reflexivity. }
    rewrite T. reflexivity. }
  rewrite LB. destruct (to_long a); reflexivity.
Qed.
Lemma negative_zero : forall v, rounds_to v 0 -> 2 * numerator v <> - denominator v -> numerator v < 0 -> finite v -> double v -> round_number v = S754_zero true.
Proof.
  intros [s| | |s m e] R NE NG F D; cbn [finite] in F; try contradiction; [cbn [numerator] in NG; lia|]. destruct s; [|cbn [numerator] in NG; destruct (0 <=? e) eqn:L; [assert (0 < 2 ^ e) by (apply Z.pow_pos_nonneg; lia)|]; nia].
  change (round_number (S754_finite true m e)) with (if SFltb (SFopp half) (S754_finite true m e) then S754_zero true else XNumber.floor (fadd (S754_finite true m e) half)). rewrite lt_half. unfold rounds_to in R. cbn [numerator denominator] in *.
  assert (V : valid m e).
  { unfold double in D. cbn [valid_binary] in D. unfold bounded, canonical_mantissa in D. apply Bool.andb_true_iff in D. destruct D as (D1 & D2). apply Zeq_bool_eq in D1. split; [rewrite target_eq; unfold fexp, emin in D1; lia|lia]. }
  destruct (valid_bounds m e V) as (M & B & M2). destruct (Z.leb_spec 0 e) as [L|L]; [assert (0 < 2 ^ e) by (apply Z.pow_pos_nonneg; lia); nia|]. destruct (Z.compare_spec (-53) e) as [C|C|C]; [| |reflexivity].
  - subst e. change (2 ^ (- -53)) with (2 ^ 53) in *. specialize (M2 ltac:(lia)). lia.
  - specialize (M2 ltac:(lia)). assert (2 ^ (- e) <= 2 ^ 52) by (apply Z.pow_le_mono_r; lia). lia.
Qed.
