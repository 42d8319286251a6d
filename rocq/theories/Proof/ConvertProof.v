From Verif.Model Require Import Base Convert.
From Verif.Spec Require Import Utf8Spec.
From Verif.Proof Require Import Tac.

(** * rot13 *)

Lemma rot13_char_spec b : 0 <= b < 256 -> rot13_char b = rot13_letter b.
Proof.
  intros H. apply Z.eqb_eq. revert b H.
  apply (sweep1 256 (fun b => rot13_char b =? rot13_letter b)). vm_compute. reflexivity.
Qed.

Lemma rot13_letter_range b : 0 <= b < 256 -> 0 <= rot13_letter b < 256.
Proof.
  intros H. unfold rot13_letter, upper, lower.
  destruct ((65 <=? b) && (b <=? 90)) eqn:?; [lia|].
  destruct ((97 <=? b) && (b <=? 122)) eqn:?; lia.
Qed.

Lemma rot13_letter_inv b : rot13_letter (rot13_letter b) = b.
Proof.
  unfold rot13_letter at 2. destruct (upper b) eqn:U.
  - unfold upper in U.
    assert (upper (65 + (b - 65 + 13) mod 26) = true) as E by (unfold upper; lia).
    unfold rot13_letter. rewrite E. lia.
  - destruct (lower b) eqn:L.
    + unfold lower in L.
      assert (upper (97 + (b - 97 + 13) mod 26) = false) as E by (unfold upper; lia).
      assert (lower (97 + (b - 97 + 13) mod 26) = true) as E2 by (unfold lower; lia).
      unfold rot13_letter. rewrite E, E2. lia.
    + unfold rot13_letter. rewrite U, L. reflexivity.
Qed.

Lemma rot13_calls input cap : in_range 0 256 input ->
  rot13 input cap =
  (map rot13_letter (firstn cap input), skipn cap input,
   if Nat.leb (length input) cap then CvtOk else CvtPartial).
Proof.
  intros H; revert cap; induction H as [|b r Hb HF IH]; intros cap.
  - cbn [rot13]. rewrite firstn_nil, skipn_nil. reflexivity.
  - destruct cap as [|cap]; cbn [rot13 firstn skipn map length Nat.leb]; [reflexivity|].
    rewrite IH, rot13_char_spec by assumption. reflexivity.
Qed.

Lemma rot13_twice input cap : in_range 0 256 input -> (length input <= cap)%nat ->
  exists o, rot13 input cap = (o, [], CvtOk) /\ in_range 0 256 o
            /\ rot13 o cap = (input, [], CvtOk).
Proof.
  intros H HL. exists (map rot13_letter input).
  assert (R : in_range 0 256 (map rot13_letter input)).
  { unfold in_range in *. rewrite Forall_map. eapply Forall_impl; [|exact H].
    intros a Ha. apply rot13_letter_range. exact Ha. }
  split; [|split; [exact R|]].
  - rewrite rot13_calls by assumption.
    rewrite firstn_all2, skipn_all2 by lia.
    rewrite (proj2 (Nat.leb_le _ _)) by lia. reflexivity.
  - rewrite rot13_calls by assumption.
    rewrite firstn_all2, skipn_all2 by (rewrite map_length; lia).
    rewrite (proj2 (Nat.leb_le _ _)) by (rewrite map_length; lia).
    rewrite map_map. rewrite (map_ext _ (fun x => x)) by (intros; apply rot13_letter_inv).
    rewrite map_id. reflexivity.
Qed.

(** * Encoding to UTF-8 *)

Definition enc1 (c : Z) : option (nat * str) :=
  match find_wide tab c O with None => None | Some (i, t) => Some (i, put_char t c) end.

Definition opt_str_eqb (a : option (nat * str)) (s : str) : bool :=
  match a with Some (i, b) => str_eqb b s && Nat.eqb (S i) (length s) | None => false end.

Lemma str_eqb_eq a : forall b, str_eqb a b = true <-> a = b.
Proof.
  induction a as [|x a IH]; intros [|y b]; cbn [str_eqb]; split; intros H; try discriminate;
    try reflexivity.
  - apply andb_true_iff in H. destruct H as [H1 H2]. apply Z.eqb_eq in H1.
    apply IH in H2. congruence.
  - inversion H; subst. rewrite Z.eqb_refl. cbn. apply IH. reflexivity.
Qed.

Lemma land_ones_mod x n : 0 <= n -> Z.land x (Z.ones n) = x mod 2 ^ n.
Proof. intros H. apply Z.land_ones. exact H. Qed.

Lemma lor_add a y n : 0 <= n -> 0 <= y < 2 ^ n -> Z.lor (Z.shiftl a n) y = a * 2 ^ n + y.
Proof.
  intros Hn Hy. destruct (Z.eq_dec y 0) as [->|Hy0].
  { rewrite Z.lor_0_r, Z.shiftl_mul_pow2 by lia. lia. }
  assert (L : Z.land (Z.shiftl a n) y = 0).
  { apply Z.bits_inj'. intros i Hi. rewrite Z.land_spec, Z.bits_0.
    destruct (Z.ltb_spec i n); [rewrite Z.shiftl_spec_low by lia; reflexivity|].
    rewrite (Z.bits_above_log2 y), andb_false_r; [reflexivity|lia|].
    apply Z.lt_le_trans with n; [apply Z.log2_lt_pow2; lia|lia]. }
  rewrite <- (Z.lxor_lor _ _ L), <- (Z.add_nocarry_lxor _ _ L), Z.shiftl_mul_pow2 by lia.
  reflexivity.
Qed.

Lemma lead2 x : 0 <= x < 32 ->
  Z.lor 192 x = 192 + x /\ Z.land (192 + x) 128 = 128 /\ Z.land (192 + x) 224 = 192.
Proof.
  intros H. assert (E : forallb (fun x => (Z.lor 192 x =? 192 + x)
    && (Z.land (192 + x) 128 =? 128) && (Z.land (192 + x) 224 =? 192)) (zrange 32) = true)
    by reflexivity.
  apply sweep1 with (x := x) in E; [|lia]. lia.
Qed.
Lemma lead3 x : 0 <= x < 16 ->
  Z.lor 224 x = 224 + x /\ Z.land (224 + x) 128 = 128 /\ Z.land (224 + x) 224 = 224
  /\ Z.land (224 + x) 240 = 224.
Proof.
  intros H. assert (E : forallb (fun x => (Z.lor 224 x =? 224 + x)
    && (Z.land (224 + x) 128 =? 128) && (Z.land (224 + x) 224 =? 224)
    && (Z.land (224 + x) 240 =? 224)) (zrange 16) = true)
    by reflexivity.
  apply sweep1 with (x := x) in E; [|lia]. lia.
Qed.
Lemma tail1 x : 0 <= x < 64 ->
  Z.lor 128 x = 128 + x /\ Z.land (Z.lxor (128 + x) 128) 255 = x.
Proof.
  intros H. assert (E : forallb (fun x => (Z.lor 128 x =? 128 + x)
    && (Z.land (Z.lxor (128 + x) 128) 255 =? x)) (zrange 64) = true)
    by reflexivity.
  apply sweep1 with (x := x) in E; [|lia]. lia.
Qed.

Lemma enc1_spec c : 0 <= c < 65536 ->
  exists i, enc1 c = Some (i, utf8_char c) /\ S i = length (utf8_char c).
Proof.
  intros H. unfold enc1, utf8_char, tab, row1, row2, row3. cbn [find_wide wide_mask].
  change 63 with (Z.ones 6). change 255 with (Z.ones 8).
  destruct (Z.ltb_spec c 128), (Z.ltb_spec 127 c); try lia.
  { exists O. split; [|reflexivity]. unfold put_char. cbn [char_value Convert.shift].
    change (Z.to_nat (0 / 6)) with O. cbn [tail_bytes]. rewrite Z.shiftr_0_r, Z.lor_0_l.
    change 255 with (Z.ones 8). rewrite land_ones_mod, Z.mod_small by lia. reflexivity. }
  destruct (Z.ltb_spec c 2048), (Z.ltb_spec 2047 c); try lia.
  { exists 1%nat. split; [|reflexivity]. unfold put_char. cbn [char_value Convert.shift].
    change (Z.to_nat (6 / 6)) with 1%nat. cbn [tail_bytes].
    change (6 * Z.of_nat 0) with 0. rewrite Z.shiftr_0_r, Z.shiftr_div_pow2 by lia.
    change (2 ^ 6) with 64. change 63 with (Z.ones 6). change 255 with (Z.ones 8).
    rewrite !land_ones_mod by lia. change (2 ^ 6) with 64.
    rewrite (proj1 (lead2 (c / 64) ltac:(lia))), (proj1 (tail1 (c mod 64) ltac:(lia))).
    rewrite (Z.mod_small (192 + _)) by lia. reflexivity. }
  destruct (Z.ltb_spec 65535 c); try lia.
  exists 2%nat. split; [|reflexivity]. unfold put_char. cbn [char_value Convert.shift].
  change (Z.to_nat (12 / 6)) with 2%nat. cbn [tail_bytes].
  change (6 * Z.of_nat 0) with 0. change (6 * Z.of_nat 1) with 6.
  rewrite Z.shiftr_0_r, !Z.shiftr_div_pow2 by lia.
  change (2 ^ 6) with 64. change (2 ^ 12) with 4096.
  change 63 with (Z.ones 6). change 255 with (Z.ones 8).
  rewrite !land_ones_mod by lia. change (2 ^ 6) with 64.
  rewrite (proj1 (lead3 (c / 4096) ltac:(lia))), (proj1 (tail1 (c mod 64) ltac:(lia))),
    (proj1 (tail1 (c / 64 mod 64) ltac:(lia))).
  rewrite (Z.mod_small (224 + _)) by lia. reflexivity.
Qed.

(** How the table reads a lead byte back, and the value it yields. *)
Lemma utf8_char_cases c : 0 <= c < 65536 ->
  (exists b, utf8_char c = [b] /\ Z.land b 128 = 0 /\ Z.land b 127 = c) \/
  (exists b b1, utf8_char c = [b; b1] /\ Z.land b 128 <> 0 /\ Z.land b 224 = 192
    /\ Z.land (Z.lor (Z.shiftl b 6) (Z.land (Z.lxor b1 128) 255)) 2047 = c) \/
  (exists b b1 b2, utf8_char c = [b; b1; b2] /\ Z.land b 128 <> 0 /\ Z.land b 224 <> 192
    /\ Z.land b 240 = 224
    /\ Z.land (Z.lor (Z.shiftl (Z.lor (Z.shiftl b 6) (Z.land (Z.lxor b1 128) 255)) 6)
                     (Z.land (Z.lxor b2 128) 255)) 65535 = c).
Proof.
  intros H. unfold utf8_char.
  destruct (Z.ltb_spec c 128).
  { left. exists c. split; [reflexivity|]. split.
    - assert (E : forallb (fun x => Z.land x 128 =? 0) (zrange 128) = true) by reflexivity.
      apply sweep1 with (x := c) in E; [|lia]. lia.
    - change 127 with (Z.ones 7). rewrite land_ones_mod by lia. apply Z.mod_small. lia. }
  right. destruct (Z.ltb_spec c 2048).
  { left. exists (192 + c / 64), (128 + c mod 64). split; [reflexivity|].
    destruct (lead2 (c / 64) ltac:(lia)) as (_ & A & B).
    destruct (tail1 (c mod 64) ltac:(lia)) as (_ & T).
    split; [lia|]. split; [exact B|].
    rewrite T, lor_add by lia. change 2047 with (Z.ones 11). rewrite land_ones_mod by lia.
    change (2 ^ 6) with 64. change (2 ^ 11) with 2048. lia. }
  right. exists (224 + c / 4096), (128 + c / 64 mod 64), (128 + c mod 64).
  split; [reflexivity|].
  destruct (lead3 (c / 4096) ltac:(lia)) as (_ & A & B & D).
  destruct (tail1 (c mod 64) ltac:(lia)) as (_ & T).
  destruct (tail1 (c / 64 mod 64) ltac:(lia)) as (_ & T').
  split; [lia|]. split; [lia|]. split; [exact D|].
  rewrite T, T', !lor_add by lia. change 65535 with (Z.ones 16). rewrite land_ones_mod by lia.
  change (2 ^ 6) with 64. change (2 ^ 16) with 65536. lia.
Qed.

(** The prefix that fits when each character wants one spare place after it. *)
Fixpoint fits (input : str) (room : nat) : nat :=
  match input with
  | [] => O
  | c :: r => if Nat.leb room (length (utf8_char c)) then O
              else S (fits r (room - length (utf8_char c)))
  end.

Lemma wide_2_utf8_spec input : in_range 0 65536 input -> forall room,
  wide_2_utf8 input room =
  (utf8 (firstn (fits input room) input), skipn (fits input room) input,
   match skipn (fits input room) input with [] => CvtOk | _ => CvtPartial end).
Proof.
  induction 1 as [|c r Hc HF IH]; intros room; [reflexivity|].
  cbn [wide_2_utf8 fits].
  destruct (enc1_spec c Hc) as (i & E & HL). unfold enc1 in E.
  destruct (find_wide tab c 0) as [[i' t]|]; [|discriminate].
  inversion E; subst i'. rewrite H1.
  replace (i + 1)%nat with (length (utf8_char c)) by lia.
  destruct (Nat.leb room (length (utf8_char c))) eqn:R; [reflexivity|].
  rewrite IH. reflexivity.
Qed.

Lemma enc_calls_utf8 caps : forall input, in_range 0 65536 input ->
  exists done rest, input = done ++ rest /\
    enc_calls wide_2_utf8 caps input = (utf8 done, rest).
Proof.
  induction caps as [|c caps IH]; intros input H; cbn [enc_calls].
  - exists [], input. auto.
  - rewrite wide_2_utf8_spec by assumption.
    set (n := fits input c).
    assert (H2 : in_range 0 65536 (skipn n input)).
    { unfold in_range in *. rewrite <- (firstn_skipn n input) in H.
      apply Forall_app in H. apply H. }
    destruct (IH _ H2) as (d & r & E1 & E2). rewrite E2.
    exists (firstn n input ++ d), r. split.
    + rewrite <- app_assoc, <- E1. symmetry. apply firstn_skipn.
    + unfold utf8. rewrite flat_map_app. reflexivity.
Qed.

(** Every buffer of four or more places makes progress. *)
Lemma fits_progress c r cap : (4 <= cap)%nat -> (0 < fits (c :: r) cap)%nat.
Proof.
  intros H. cbn [fits].
  assert (length (utf8_char c) <= 3)%nat.
  { unfold utf8_char. destruct (c <? 128); [cbn; lia|]. destruct (c <? 2048); cbn; lia. }
  destruct (Nat.leb_spec cap (length (utf8_char c))); lia.
Qed.

Lemma fits_all input : forall cap, (length (utf8 input) < cap)%nat ->
  fits input cap = length input.
Proof.
  induction input as [|c r IH]; intros cap H; [reflexivity|].
  cbn [fits length]. cbn [utf8 flat_map] in H. rewrite app_length in H.
  destruct (Nat.leb_spec cap (length (utf8_char c))); [lia|].
  f_equal. apply IH. unfold utf8. lia.
Qed.

Lemma wide_2_utf8_all input cap : in_range 0 65536 input ->
  (length (utf8 input) < cap)%nat -> wide_2_utf8 input cap = (utf8 input, [], CvtOk).
Proof.
  intros H HL. rewrite wide_2_utf8_spec, fits_all by assumption.
  rewrite firstn_all, skipn_all. reflexivity.
Qed.

Lemma fits_room input : forall cap, (length (utf8 (firstn (fits input cap) input)) <= cap)%nat.
Proof.
  induction input as [|c r IH]; intros cap; cbn [fits]; [cbn; lia|].
  destruct (Nat.leb_spec cap (length (utf8_char c))); [cbn; lia|].
  cbn [firstn utf8 flat_map]. rewrite app_length.
  specialize (IH (cap - length (utf8_char c))%nat). unfold utf8 in IH. lia.
Qed.

Lemma fits_le input : forall cap, (fits input cap <= length input)%nat.
Proof.
  induction input as [|c r IH]; intros cap; cbn [fits length]; [lia|].
  destruct (Nat.leb_spec cap (length (utf8_char c))); [lia|].
  specialize (IH (cap - length (utf8_char c))%nat). lia.
Qed.

Lemma enc_calls_finish caps : forall input, in_range 0 65536 input ->
  Forall (fun c => (4 <= c)%nat) caps -> (length input <= length caps)%nat ->
  enc_calls wide_2_utf8 caps input = (utf8 input, []).
Proof.
  induction caps as [|c caps IH]; intros input H HC HL; cbn [enc_calls].
  - destruct input; [reflexivity|cbn in HL; lia].
  - rewrite wide_2_utf8_spec by assumption.
    inversion HC as [|? ? H4 HC']; subst.
    assert (H2 : in_range 0 65536 (skipn (fits input c) input)).
    { unfold in_range in *. rewrite <- (firstn_skipn (fits input c) input) in H.
      apply Forall_app in H. apply H. }
    rewrite IH; [|exact H2|exact HC'|].
    + f_equal. unfold utf8. rewrite <- flat_map_app, firstn_skipn. reflexivity.
    + rewrite skipn_length. destruct input as [|x r]; [cbn; lia|].
      pose proof (fits_progress x r c H4). cbn [length] in *. lia.
Qed.

(** One call: what is written is the encoding of what is consumed, it fits, and
    ok is reported exactly when everything was consumed. *)
Lemma wide_2_utf8_call input cap : in_range 0 65536 input ->
  exists done rest res, wide_2_utf8 input cap = (utf8 done, rest, res)
    /\ input = done ++ rest /\ (length (utf8 done) <= cap)%nat
    /\ (res = CvtOk <-> rest = []).
Proof.
  intros H. rewrite wide_2_utf8_spec by assumption.
  do 3 eexists. split; [reflexivity|]. split; [symmetry; apply firstn_skipn|].
  split; [apply fits_room|].
  destruct (skipn (fits input cap) input); split; intros; congruence.
Qed.

Lemma map_mod64 input : in_range 0 65536 input -> map (fun c => c mod 2 ^ 64) input = input.
Proof.
  induction 1 as [|c r Hc HF IH]; [reflexivity|]. cbn [map]. rewrite IH. f_equal.
  cbv beta in Hc. apply Z.mod_small. lia.
Qed.

Lemma ucs2_2_utf8_wide input cap : in_range 0 65536 input ->
  ucs2_2_utf8 input cap = wide_2_utf8 input cap.
Proof.
  intros H. unfold ucs2_2_utf8. rewrite map_mod64 by assumption.
  rewrite wide_2_utf8_spec by assumption. f_equal. f_equal.
  set (n := fits input cap).
  rewrite skipn_length.
  destruct (Nat.le_gt_cases n (length input)) as [L|L].
  - replace (length input - (length input - n))%nat with n by lia. reflexivity.
  - rewrite (skipn_all2 (n := n)) by lia.
    replace (length input - (length input - n))%nat with (length input) by lia.
    apply skipn_all.
Qed.

(** * Decoding UTF-8 *)

Lemma iso_rows_app rows start : forall next a b x r,
  iso_rows rows start next a = Val (x, r) ->
  iso_rows rows start next (a ++ b) = Val (x, r ++ b).
Proof.
  induction rows as [|t rows IH]; intros next a b x r H; cbn [iso_rows] in *.
  - inversion H; subst. reflexivity.
  - destruct (_ =? _); [inversion H; subst; reflexivity|].
    destruct a as [|y a]; [discriminate|]. cbn [app]. apply IH. exact H.
Qed.

Ltac eqb_true := rewrite (proj2 (Z.eqb_eq _ _)) by assumption.
Ltac eqb_false := rewrite (proj2 (Z.eqb_neq _ _)) by assumption.

Lemma iso_rows_char c rest : 0 <= c < 65536 ->
  exists b t, utf8_char c = b :: t /\ iso_rows tab b b (t ++ rest) = Val (c, rest).
Proof.
  intros H. unfold tab, row1, row2, row3.
  destruct (utf8_char_cases c H) as [(b & E & A & V)|[(b & b1 & E & A & B & V)
    |(b & b1 & b2 & E & A & B & D & V)]]; rewrite E; do 2 eexists; (split; [reflexivity|]);
    cbn [app iso_rows char_mask char_value wide_mask].
  - eqb_true. rewrite V. reflexivity.
  - eqb_false. eqb_true. rewrite V. reflexivity.
  - do 2 eqb_false. eqb_true. rewrite V. reflexivity.
Qed.

Lemma utf8_char_nonempty c : (1 <= length (utf8_char c))%nat.
Proof. unfold utf8_char. destruct (c <? 128), (c <? 2048); cbn; lia. Qed.

Lemma utf8_length s : (length s <= length (utf8 s))%nat.
Proof.
  induction s as [|c s IH]; cbn [utf8 flat_map length]; [lia|].
  rewrite app_length. pose proof (utf8_char_nonempty c). unfold utf8 in IH. lia.
Qed.

Lemma iso_loop_char f c rest cap : 0 <= c < 65536 ->
  utf8_2_iso88591_loop (S f) (utf8_char c ++ rest) (S cap) =
  obind (utf8_2_iso88591_loop f rest cap)
        (fun '(o, r) => Val ((if c <=? 255 then c else 63) :: o, r)).
Proof.
  intros H. destruct (iso_rows_char c rest H) as (b & t & E1 & E2).
  rewrite E1. cbn [app utf8_2_iso88591_loop]. rewrite E2. reflexivity.
Qed.

Lemma iso_loop_utf8 s : in_range 0 65536 s -> forall f cap, (length (utf8 s) <= f)%nat ->
  utf8_2_iso88591_loop f (utf8 s) cap =
  Val (map (fun c => if c <=? 255 then c else 63) (firstn cap s), utf8 (skipn cap s)).
Proof.
  induction 1 as [|c s Hc HF IH]; intros f cap HL.
  - destruct f, cap; reflexivity.
  - cbn [utf8 flat_map] in *. rewrite app_length in HL.
    pose proof (utf8_char_nonempty c).
    destruct f as [|f]; [lia|].
    destruct cap as [|cap].
    + cbn [firstn skipn map]. change (utf8 (c :: s)) with (utf8_char c ++ flat_map utf8_char s).
      destruct (utf8_char c ++ flat_map utf8_char s); reflexivity.
    + rewrite iso_loop_char by assumption. unfold utf8 in IH.
      rewrite IH by lia. reflexivity.
Qed.

Lemma utf8_2_iso88591_utf8 s cap : in_range 0 65536 s ->
  utf8_2_iso88591 (utf8 s) cap =
  Val (map (fun c => if c <=? 255 then c else 63) (firstn cap s), utf8 (skipn cap s)).
Proof. intros H. apply iso_loop_utf8; [exact H|lia]. Qed.

Lemma utf8_2_iso88591_latin1 s cap : in_range 0 256 s ->
  utf8_2_iso88591 (utf8 s) cap = Val (firstn cap s, utf8 (skipn cap s)).
Proof.
  intros H. rewrite utf8_2_iso88591_utf8.
  - f_equal. f_equal. rewrite <- (map_id (firstn cap s)) at 2. apply map_ext_in.
    intros c Hc. assert (0 <= c < 256).
    { unfold in_range in H. rewrite Forall_forall in H. apply H.
      rewrite <- (firstn_skipn cap s). apply in_or_app. left. exact Hc. }
    destruct (Z.leb_spec c 255); lia.
  - unfold in_range in *. eapply Forall_impl; [|exact H]. cbv beta. intros; lia.
Qed.

Lemma ucs_tail_app n : forall acc a b x r,
  ucs_tail n acc a = Val (x, r) -> ucs_tail n acc (a ++ b) = Val (x, r ++ b).
Proof.
  induction n as [|n IH]; intros acc a b x r H; cbn [ucs_tail] in *.
  - inversion H; subst. reflexivity.
  - destruct a as [|y a]; [discriminate|]. cbn [app]. apply IH. exact H.
Qed.

Lemma ucs_char c rest : 0 <= c < 65536 ->
  exists b t wm v, utf8_char c = b :: t /\ ucs_row tab b O = (length t, wm)
    /\ ucs_tail (length t) b (t ++ rest) = Val (v, rest) /\ Z.land v wm = c.
Proof.
  intros H. unfold tab, row1, row2, row3.
  destruct (utf8_char_cases c H) as [(b & E & A & V)|[(b & b1 & E & A & B & V)
    |(b & b1 & b2 & E & A & B & D & V)]]; rewrite E;
    cbn [ucs_row char_mask char_value wide_mask].
  - exists b, [], 127, b. eqb_true. auto.
  - eexists b, [b1], 2047, _. eqb_false. eqb_true. cbn [length ucs_tail app]. eauto.
  - eexists b, [b1; b2], 65535, _. do 2 eqb_false. eqb_true. cbn [length ucs_tail app]. eauto.
Qed.

Lemma ucs_loop_utf8 s : in_range 0 65536 s -> forall f cap, (length (utf8 s) <= f)%nat ->
  utf8_2_ucs2_loop f (utf8 s) cap = Val (firstn cap s, utf8 (skipn cap s)).
Proof.
  induction 1 as [|c s Hc HF IH]; intros f cap HL.
  - destruct f, cap; reflexivity.
  - cbn [utf8 flat_map] in *. rewrite app_length in HL.
    pose proof (utf8_char_nonempty c).
    destruct f as [|f]; [lia|].
    destruct cap as [|cap].
    + cbn [firstn skipn]. change (utf8 (c :: s)) with (utf8_char c ++ flat_map utf8_char s).
      destruct (utf8_char c ++ flat_map utf8_char s); reflexivity.
    + destruct (ucs_char c (flat_map utf8_char s) Hc) as (b & t & wm & v & E1 & E2 & E3 & E4).
      rewrite E1 in *. cbn [app utf8_2_ucs2_loop]. rewrite E2.
      cbn [length] in *. rewrite app_length.
      destruct (Nat.leb_spec (S (length t + length (flat_map utf8_char s))) (length t)); [lia|].
      rewrite E3. cbn [obind]. unfold utf8 in IH. rewrite IH by lia.
      cbn [obind firstn skipn]. rewrite E4. reflexivity.
Qed.

Lemma utf8_2_ucs2_utf8 s cap : in_range 0 65536 s ->
  utf8_2_ucs2 (utf8 s) cap = Val (firstn cap s, utf8 (skipn cap s)).
Proof. intros H. apply ucs_loop_utf8; [exact H|lia]. Qed.

(** utf8_2_ucs2 stays inside its input, whatever the bytes. *)
Lemma ucs_tail_safe n : forall acc a, (n <= length a)%nat ->
  exists v r, ucs_tail n acc a = Val (v, r) /\ a = firstn n a ++ r.
Proof.
  induction n as [|n IH]; intros acc a H; cbn [ucs_tail].
  - exists acc, a. auto.
  - destruct a as [|b a]; [cbn in H; lia|]. cbn [length] in H.
    destruct (IH (Z.lor (Z.shiftl acc 6) (Z.land (Z.lxor b 128) 255)) a) as (v & r & E1 & E2);
      [lia|].
    exists v, r. rewrite E1. split; [reflexivity|]. cbn [firstn app]. congruence.
Qed.

Lemma ucs_row_some b : exists k wm, ucs_row tab b 0 = (k, wm).
Proof. destruct (ucs_row tab b 0) as [k wm]. eauto. Qed.

Lemma utf8_2_ucs2_safe_loop f : forall input cap, (length input <= f)%nat ->
  exists o rest used, utf8_2_ucs2_loop f input cap = Val (o, rest) /\ input = used ++ rest
    /\ (length o <= length used)%nat /\ (length o <= cap)%nat.
Proof.
  induction f as [|f IH]; intros input cap HL.
  - destruct input; [|cbn in HL; lia]. destruct cap; (exists [], [], []; cbn; auto with arith).
  - destruct input as [|b t]; cbn [utf8_2_ucs2_loop].
    + exists [], [], []. cbn. auto with arith.
    + destruct cap as [|cap]; [exists [], (b :: t), []; cbn; auto with arith|].
      destruct (ucs_row_some b) as (k & wm & ->).
      destruct (Nat.leb_spec (length (b :: t)) k) as [Hk|Hk].
      * exists [], (b :: t), []. cbn. auto with arith.
      * cbn [length] in *.
        destruct (ucs_tail_safe k b t) as (v & r & -> & E); [lia|]. cbn [obind].
        destruct (IH r cap) as (o & rest & used & E2 & E3 & E4 & E5).
        { rewrite E in HL. rewrite app_length in HL. lia. }
        rewrite E2. cbn [obind].
        exists (Z.land v wm :: o), rest, (b :: firstn k t ++ used). split; [reflexivity|].
        split; [|split].
        -- cbn [app]. rewrite <- app_assoc, <- E3, <- E. reflexivity.
        -- cbn [length]. rewrite app_length. lia.
        -- cbn [length]. lia.
Qed.

Lemma utf8_2_ucs2_safe input cap :
  exists o rest used, utf8_2_ucs2 input cap = Val (o, rest) /\ input = used ++ rest
    /\ (length o <= length used)%nat /\ (length o <= cap)%nat.
Proof. apply utf8_2_ucs2_safe_loop. lia. Qed.

Lemma skipn_add {A} m : forall n (s : list A), skipn n (skipn m s) = skipn (m + n) s.
Proof.
  induction m as [|m IH]; intros n s; [reflexivity|].
  destruct s as [|x s]; cbn [skipn plus]; [apply skipn_nil|apply IH].
Qed.

(** Splitting the decoding over several output buffers. *)
Lemma dec_calls_utf8 (conv : str -> nat -> outcome (str * str)) hi :
  (forall s cap, in_range 0 hi s -> conv (utf8 s) cap = Val (firstn cap s, utf8 (skipn cap s))) ->
  forall caps s, in_range 0 hi s ->
  dec_calls conv caps (utf8 s) =
  Val (firstn (list_sum caps) s, utf8 (skipn (list_sum caps) s)).
Proof.
  intros HC. induction caps as [|c caps IH]; intros s H; cbn [dec_calls].
  - reflexivity.
  - rewrite HC by assumption. cbn [obind].
    assert (H2 : in_range 0 hi (skipn c s)).
    { unfold in_range in *. rewrite <- (firstn_skipn c s) in H. apply Forall_app in H. apply H. }
    rewrite IH by assumption. cbn [obind].
    change (list_sum (c :: caps)) with (c + list_sum caps)%nat.
    f_equal. f_equal.
    + rewrite <- (firstn_skipn c s) at 3.
      rewrite firstn_app, firstn_firstn, firstn_length.
      destruct (Nat.le_gt_cases c (length s)) as [L|L].
      * rewrite (Nat.min_r (c + list_sum caps) c) by lia.
        rewrite (Nat.min_l c (length s)) by lia.
        replace (c + list_sum caps - c)%nat with (list_sum caps) by lia. reflexivity.
      * rewrite (skipn_all2 (n := c)) by lia. rewrite !firstn_nil.
        rewrite (Nat.min_r (c + list_sum caps) c) by lia. reflexivity.
    + rewrite skipn_add. reflexivity.
Qed.

(** * UTF-16 *)

Lemma utf16_units (be : bool) c : 0 <= c < 65536 ->
  (if be then [Z.land (Z.shiftr c 8) 255; Z.land c 255]
   else [Z.land c 255; Z.land (Z.shiftr c 8) 255]) = utf16_unit be c.
Proof.
  intros H. unfold utf16_unit.
  change 255 with (Z.ones 8). rewrite !Z.land_ones, Z.shiftr_div_pow2 by lia.
  change (2 ^ 8) with 256.
  rewrite (Z.mod_small (c / 256)) by lia. reflexivity.
Qed.

Lemma ucs2_2_utf16_spec be input : in_range 0 65536 input -> forall room,
  exists n, (n = length input \/ (n < length input)%nat /\ (room <= 2 * n + 2)%nat)
  /\ ucs2_2_utf16 be input room =
     (utf16 be (firstn n input), skipn n input,
      match skipn n input with [] => CvtOk | _ => CvtPartial end).
Proof.
  induction 1 as [|c r Hc HF IH]; intros room.
  - exists O. split; [left; reflexivity|reflexivity].
  - cbn [ucs2_2_utf16]. destruct (Nat.leb_spec room 2) as [R|R].
    + exists O. split; [right; cbn [length]; lia|reflexivity].
    + destruct (IH (room - 2)%nat) as (n & Hn & E). exists (S n). split.
      * cbn [length]. lia.
      * rewrite E. rewrite utf16_units by assumption. reflexivity.
Qed.

Lemma utf16_2_ucs2_spec be s : in_range 0 65536 s -> forall cap,
  utf16_2_ucs2 be (utf16 be s) cap = (firstn cap s, utf16 be (skipn cap s)).
Proof.
  induction 1 as [|c s Hc HF IH]; intros cap.
  - destruct cap; reflexivity.
  - destruct cap as [|cap].
    + cbn [firstn skipn]. destruct be; reflexivity.
    + destruct be; cbn [utf16 flat_map utf16_unit app utf16_2_ucs2 firstn skipn];
        unfold utf16 in IH; rewrite IH; rewrite Z.shiftl_mul_pow2 by lia;
        change (2 ^ 8) with 256; cbv beta in Hc; f_equal; f_equal; lia.
Qed.

Lemma enc_calls_utf16 be caps : forall input, in_range 0 65536 input ->
  exists done rest, input = done ++ rest /\
    enc_calls (ucs2_2_utf16 be) caps input = (utf16 be done, rest).
Proof.
  induction caps as [|c caps IH]; intros input H; cbn [enc_calls].
  - exists [], input. auto.
  - destruct (ucs2_2_utf16_spec be input H c) as (n & _ & ->).
    assert (H2 : in_range 0 65536 (skipn n input)).
    { unfold in_range in *. rewrite <- (firstn_skipn n input) in H.
      apply Forall_app in H. apply H. }
    destruct (IH _ H2) as (d & r & E1 & E2). rewrite E2.
    exists (firstn n input ++ d), r. split.
    + rewrite <- app_assoc, <- E1. symmetry. apply firstn_skipn.
    + unfold utf16. rewrite flat_map_app. reflexivity.
Qed.

(** * do_length *)

Lemma utf8_length_stuck max fuel : utf8_length_loop fuel [128] 0 (S max) 0 = None.
Proof. induction fuel as [|f IH]; [reflexivity|]. exact IH. Qed.

Lemma utf8_length_bound fuel : forall left count max done n,
  utf8_length_loop fuel left count max done = Some n -> (n <= done + length left)%nat.
Proof.
  induction fuel as [|f IH]; intros left count max done n H; [discriminate|].
  cbn [utf8_length_loop] in H. destruct left as [|b r]; [inversion H; cbn; lia|].
  destruct (Nat.leb max count); [inversion H; cbn; lia|].
  destruct (Z.land b 128 =? 0).
  - apply IH in H. cbn [length]. lia.
  - destruct (Z.land b 192 =? 192).
    + destruct (Nat.ltb_spec 2 (length (b :: r))) as [L|L]; [|inversion H; cbn; lia].
      apply IH in H. rewrite skipn_length in H. lia.
    + destruct (Z.land b 224 =? 224).
      * destruct (Nat.ltb_spec 3 (length (b :: r))) as [L|L]; [|inversion H; cbn; lia].
        apply IH in H. rewrite skipn_length in H. lia.
      * apply IH in H. exact H.
Qed.

(** On the UTF-8 form of Latin-1 text the query ends and stops between characters. *)
Lemma latin1_lead c : 0 <= c < 256 ->
  (exists b, utf8_char c = [b] /\ (Z.land b 128 =? 0) = true) \/
  (exists b b2, utf8_char c = [b; b2] /\ (Z.land b 128 =? 0) = false
               /\ (Z.land b 192 =? 192) = true).
Proof.
  intros H.
  assert (E : forallb (fun c => match utf8_char c with
     | [b] => Z.land b 128 =? 0
     | [b; b2] => negb (Z.land b 128 =? 0) && (Z.land b 192 =? 192)
     | _ => false end) (zrange 256) = true) by (vm_compute; reflexivity).
  apply sweep1 with (x := c) in E; [|lia]. cbv beta in E.
  destruct (utf8_char c) as [|b [|b2 [|]]]; try discriminate.
  - left. eauto.
  - right. apply andb_true_iff in E. destruct E as [E1 E2].
    apply negb_true_iff in E1. eauto.
Qed.

Lemma utf8_length_latin1_loop s : in_range 0 256 s -> forall fuel count max done,
  (length (utf8 s) < fuel)%nat ->
  exists k, utf8_length_loop fuel (utf8 s) count max done = Some (done + length (utf8 (firstn k s)))%nat
            /\ (k <= max - count)%nat.
Proof.
  induction 1 as [|c s Hc HF IH]; intros fuel count max done HL.
  - destruct fuel; [cbn in HL; lia|]. exists O. cbn. rewrite Nat.add_0_r. auto with arith.
  - destruct fuel as [|fuel]; [lia|].
    cbn [utf8 flat_map] in *. rewrite app_length in HL.
    destruct (latin1_lead c Hc) as [(b & E & E1)|(b & b2 & E & E1 & E2)];
      rewrite E in *; cbn [app utf8_length_loop].
    + destruct (Nat.leb_spec max count).
      { exists O. cbn. rewrite Nat.add_0_r. split; [reflexivity|lia]. }
      rewrite E1. destruct (IH fuel (S count) max (S done)) as (k & EK & HK).
      { cbn [length] in HL. unfold utf8. lia. }
      exists (S k). unfold utf8 in EK. rewrite EK. unfold utf8. cbn [firstn flat_map]. rewrite E.
      cbn [app length]. split; [f_equal; unfold utf8; lia|lia].
    + destruct (Nat.leb_spec max count).
      { exists O. cbn. rewrite Nat.add_0_r. split; [reflexivity|lia]. }
      rewrite E1, E2. cbn [length].
      destruct (Nat.ltb_spec 2 (S (S (length (flat_map utf8_char s))))) as [L|L].
      * cbn [skipn]. destruct (IH fuel (S count) max (done + 2)%nat) as (k & EK & HK).
        { cbn [length] in HL. unfold utf8. lia. }
        exists (S k). unfold utf8 in EK. rewrite EK. unfold utf8. cbn [firstn flat_map]. rewrite E.
        cbn [app length]. split; [f_equal; unfold utf8; lia|lia].
      * exists O. cbn. rewrite Nat.add_0_r. split; [reflexivity|lia].
Qed.

Lemma utf8_length_latin1 s max : in_range 0 256 s ->
  exists k, utf8_length_loop (S (length (utf8 s))) (utf8 s) 0 max 0
            = Some (length (utf8 (firstn k s))) /\ (k <= max)%nat.
Proof.
  intros H. destruct (utf8_length_latin1_loop s H (S (length (utf8 s))) 0 max 0) as (k & E & L);
    [lia|].
  exists k. rewrite E. split; [reflexivity|lia].
Qed.

Lemma ucs2utf8_length_range input : forall count max, in_range 0 65536 input ->
  let (n, k) := ucs2utf8_length input count max in
  (n <= length input)%nat /\ k = count + Z.of_nat (length (utf8 (firstn n input)))
  /\ (count < max + 3 -> k < max + 3).
Proof.
  induction input as [|c r IH]; intros count max H; cbn [ucs2utf8_length].
  - cbn. lia.
  - inversion H as [|? ? Hc HF]; subst.
    destruct (Z.leb_spec max count); [cbn; lia|].
    specialize (IH (count + (if 2047 <? c then 1 else 0) + (if 127 <? c then 1 else 0) + 1)
                   max HF).
    destruct (ucs2utf8_length r _ max) as [n k]. destruct IH as (I1 & I2 & I3).
    cbn [firstn utf8 flat_map length]. rewrite app_length. unfold utf8 in I2.
    assert (Z.of_nat (length (utf8_char c)) =
            (if 2047 <? c then 1 else 0) + (if 127 <? c then 1 else 0) + 1) as E.
    { unfold utf8_char. destruct (Z.ltb_spec c 128), (Z.ltb_spec c 2048),
        (Z.ltb_spec 2047 c), (Z.ltb_spec 127 c); cbn; lia. }
    rewrite Nat2Z.inj_add, E. split; [lia|]. split; [lia|]. intros _. apply I3.
    destruct (2047 <? c), (127 <? c); lia.
Qed.
