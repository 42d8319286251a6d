(** Integers up to 2^53 as doubles: their sums, differences and comparisons are exact. *)
From Verif.Model Require Import Base XNumber.
From Verif.Spec Require Import XNumberSpec.
From Verif.Proof Require Import XNumberProof.

Definition small_int (z : Z) : Prop := Z.abs z <= 2 ^ 53.
Lemma align : forall m e ez, ez <= e -> Z.pos (fst (shl_align m e ez)) = Z.pos m * 2 ^ (e - ez).
Proof.
  intros m e ez H. unfold shl_align. destruct (ez - e) as [|p|p] eqn:D; [|lia|]; cbn [fst]; [replace (e - ez) with 0 by lia; lia|]. rewrite shift_val. do 2 f_equal. lia.
Qed.
Lemma normal_of_Z : forall n ez z, -1074 <= ez -> n * 2 ^ (ez + 1074) = z * 2 ^ 1074 -> small_int z -> binary_normalize 53 1024 n ez false = of_Z z.
Proof.
  intros n ez z EZ H B. destruct (Z.eq_dec z 0) as [->|NZ].
  - assert (n = 0) as -> by (assert (0 < 2 ^ (ez + 1074)) by (apply Z.pow_pos_nonneg; lia); nia). reflexivity.
  - destruct (normalize_int n ez z EZ (proj2 (scale n ez z EZ) H) NZ B) as (m & e & -> & V & W). destruct (of_Z_finite z NZ B) as (m' & e' & -> & V' & W').
    destruct (valid_bounds m e V) as (_ & BE & _). destruct (valid_bounds m' e' V') as (_ & BE' & _). apply scale in W, W'; [|lia|lia]. destruct (value_unique m e m' e' V V') as (-> & ->); [congruence|reflexivity].
Qed.
Lemma signed : forall z m e, of_Z z = S754_finite (z <? 0) m e -> -1074 <= e -> Z.pos m * up e = Z.abs z * down e -> forall ez, -1074 <= ez <= e -> cond_Zopp (z <? 0) (Z.pos (fst (shl_align m e ez))) * 2 ^ (ez + 1074) = z * 2 ^ 1074.
Proof.
  intros z m e _ E W ez H. rewrite align by lia. apply scale in W; [|exact E]. assert (X : Z.pos m * 2 ^ (e - ez) * 2 ^ (ez + 1074) = Z.abs z * 2 ^ 1074) by (rewrite <- W, <- Z.mul_assoc, <- Z.pow_add_r by lia; do 2 f_equal; lia).
  unfold cond_Zopp. set (w := 2 ^ 1074) in *. clearbody w. destruct (Z.ltb_spec z 0).
  - rewrite Z.abs_neq in X by lia. rewrite Z.mul_opp_l, X. ring.
  - rewrite Z.abs_eq in X by lia. exact X.
Qed.
Lemma add_int : forall x y, small_int x -> small_int y -> small_int (x + y) -> fadd (of_Z x) (of_Z y) = of_Z (x + y).
Proof.
  intros x y X Y S. destruct (Z.eq_dec x 0) as [->|NX]; [destruct (Z.eq_dec y 0) as [->|NY]; [reflexivity|destruct (of_Z_finite y NY Y) as (m & e & E & _); cbn [Z.add]; change (of_Z 0) with (S754_zero false); rewrite E; reflexivity]|].
  destruct (of_Z_finite x NX X) as (m & e & E & V & W). destruct (Z.eq_dec y 0) as [->|NY]; [rewrite Z.add_0_r, E; reflexivity|]. destruct (of_Z_finite y NY Y) as (m' & e' & E' & V' & W'). destruct (valid_bounds m e V) as (_ & BE & _). destruct (valid_bounds m' e' V') as (_ & BE' & _).
  rewrite E, E'. unfold fadd. cbn [SFadd]. apply normal_of_Z; [lia| |exact S]. rewrite !Z.mul_add_distr_r. f_equal; apply signed; (assumption || lia).
Qed.
Lemma sub_int : forall x y, small_int x -> small_int y -> small_int (x - y) -> fsub (of_Z x) (of_Z y) = of_Z (x - y).
Proof.
  intros x y X Y S. destruct (Z.eq_dec y 0) as [->|NY]; [rewrite Z.sub_0_r; destruct (Z.eq_dec x 0) as [->|NX]; [reflexivity|destruct (of_Z_finite x NX X) as (m & e & E & _); rewrite E; reflexivity]|].
  destruct (of_Z_finite y NY Y) as (m' & e' & E' & V' & W'). destruct (valid_bounds m' e' V') as (_ & BE' & _). destruct (Z.eq_dec x 0) as [->|NX].
  - change (of_Z 0) with (S754_zero false). rewrite E'. unfold fsub. cbn [SFsub]. destruct (of_Z_finite (0 - y) ltac:(lia) S) as (m & e & E & V & W). destruct (valid_bounds m e V) as (_ & BE & _). rewrite E. apply scale in W, W'; [|lia|lia]. destruct (value_unique m e m' e' V V') as (-> & ->); [rewrite W, W'; f_equal; lia|]. f_equal. destruct (Z.ltb_spec y 0), (Z.ltb_spec (0 - y) 0); (reflexivity || lia).
  - destruct (of_Z_finite x NX X) as (m & e & E & V & W). destruct (valid_bounds m e V) as (_ & BE & _). rewrite E, E'. unfold fsub. cbn [SFsub]. apply normal_of_Z; [lia| |exact S]. rewrite !Z.mul_sub_distr_r. f_equal; apply signed; (assumption || lia).
Qed.
Lemma compare_int : forall x y, small_int x -> small_int y -> SFcompare (of_Z x) (of_Z y) = Some (Z.compare x y).
Proof.
  intros x y X Y. destruct (Z.eq_dec x 0) as [->|NX].
  - change (of_Z 0) with (S754_zero false). destruct (Z.eq_dec y 0) as [->|NY]; [reflexivity|]. destruct (of_Z_finite y NY Y) as (m & e & E & _). rewrite E. cbn [SFcompare]. destruct (Z.ltb_spec y 0), (Z.compare_spec 0 y); (reflexivity || lia).
  - destruct (of_Z_finite x NX X) as (m & e & E & V & W). rewrite E. destruct (Z.eq_dec y 0) as [->|NY]; [change (of_Z 0) with (S754_zero false); cbn [SFcompare]; destruct (Z.ltb_spec x 0), (Z.compare_spec x 0); (reflexivity || lia)|].
    destruct (of_Z_finite y NY Y) as (m' & e' & E' & V' & W'). rewrite E'. cbn [SFcompare]. f_equal. change (Pcompare m m' Eq) with (Pos.compare m m'). destruct (valid_bounds m e V) as (_ & BE & _). destruct (valid_bounds m' e' V') as (_ & BE' & _). apply scale in W, W'; [|lia|lia]. pose proof (value_lt m e m' e' V V') as L1. pose proof (value_lt m' e' m e V' V) as L2. pose proof (value_unique m e m' e' V V') as U. rewrite W, W' in *.
    assert (P : 0 < 2 ^ 1074) by (apply Z.pow_pos_nonneg; lia). set (w := 2 ^ 1074) in *. clearbody w.
    assert (K : match e ?= e' with Lt => Lt | Gt => Gt | Eq => (m ?= m')%positive end = (Z.abs x ?= Z.abs y)).
    { symmetry. destruct (Z.compare_spec e e') as [C|C|C].
      - destruct (Pos.compare_spec m m') as [D|D|D].
        + subst. apply Z.compare_eq_iff. apply (Z.mul_cancel_r _ _ w); lia.
        + apply Z.compare_lt_iff. apply (Z.mul_lt_mono_pos_r w); [exact P|]. apply L1. right. split; [exact C|lia].
        + apply Z.compare_gt_iff. apply (Z.mul_lt_mono_pos_r w); [exact P|]. apply L2. right. split; [lia|lia].
      - apply Z.compare_lt_iff. apply (Z.mul_lt_mono_pos_r w); [exact P|]. apply L1. left. exact C.
      - apply Z.compare_gt_iff. apply (Z.mul_lt_mono_pos_r w); [exact P|]. apply L2. left. exact C. }
    destruct (Z.ltb_spec x 0), (Z.ltb_spec y 0).
    + replace (match e ?= e' with Lt => Gt | Gt => Lt | Eq => CompOpp (m ?= m')%positive end) with (CompOpp (match e ?= e' with Lt => Lt | Gt => Gt | Eq => (m ?= m')%positive end)) by (destruct (e ?= e'); reflexivity). rewrite K. destruct (Z.compare_spec (Z.abs x) (Z.abs y)), (Z.compare_spec x y); (reflexivity || lia).
    + symmetry. apply Z.compare_lt_iff. lia.
    + symmetry. apply Z.compare_gt_iff. lia.
    + rewrite K. rewrite !Z.abs_eq by lia. reflexivity.
Qed.
Lemma ltb_int : forall x y, small_int x -> small_int y -> SFltb (of_Z x) (of_Z y) = (x <? y).
Proof. intros x y X Y. unfold SFltb. rewrite (compare_int x y X Y). unfold Z.ltb. destruct (x ?= y); reflexivity. Qed.
Lemma leb_int : forall x y, small_int x -> small_int y -> SFleb (of_Z x) (of_Z y) = (x <=? y).
Proof. intros x y X Y. unfold SFleb. rewrite (compare_int x y X Y). unfold Z.leb. destruct (x ?= y); reflexivity. Qed.
Lemma eqb_int : forall x y, small_int x -> small_int y -> SFeqb (of_Z x) (of_Z y) = (x =? y).
Proof. intros x y X Y. unfold SFeqb. rewrite (compare_int x y X Y). rewrite Z.eqb_compare. destruct (x ?= y); reflexivity. Qed.
Lemma whole_is : forall v z, whole v z -> small_int z -> v = of_Z z \/ (z = 0 /\ v = S754_zero true).
Proof.
  intros [s| | |s m e] z ((F & E) & D) B; cbn [finite] in F; try contradiction; cbn [numerator denominator] in E.
  - assert (z = 0) by lia. subst z. destruct s; [right; split; reflexivity|left; reflexivity].
  - apply valid_double in D. destruct (valid_bounds m e D) as (_ & BE & _). fold (up e) (down e) in E. assert (PU : 0 < up e) by (unfold up; destruct (0 <=? e) eqn:L; [apply Z.pow_pos_nonneg; lia|lia]). assert (PD : 0 < down e) by (unfold down; destruct (0 <=? e) eqn:L; [lia|apply Z.pow_pos_nonneg; lia]). assert (NZ : z <> 0) by (destruct s; nia).
    destruct (of_Z_finite z NZ B) as (m' & e' & E' & V' & W'). destruct (valid_bounds m' e' V') as (_ & BE' & _). left. rewrite E'. assert (SG : s = (z <? 0)) by (destruct s, (Z.ltb_spec z 0); nia). assert (W : Z.pos m * up e = Z.abs z * down e) by (destruct s, (Z.ltb_spec z 0); try discriminate; lia). apply scale in W, W'; [|lia|lia]. destruct (value_unique m e m' e' D V') as (-> & ->); [congruence|]. rewrite SG. reflexivity.
Qed.
Lemma of_Z_whole : forall z, small_int z -> whole (of_Z z) z.
Proof. intros z B. split; [apply of_Z_int; exact B|apply of_Z_double; exact B]. Qed.
