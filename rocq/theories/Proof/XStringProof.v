From Verif.Model Require Import Base Text Uri XString.
From Verif.Spec Require Import XNumberSpec XStringSpec.
From Verif.Proof Require Import TextProof XNumberProof XIntProof.

(** * starts-with, contains, substring-before, substring-after *)
Lemma same_start_ok : forall s i, (length s <= length i)%nat -> exists b, same_start i s = Val b /\ (b = true <-> exists y, i = s ++ y).
Proof.
  induction s as [|y s IH]; intros i L; cbn [same_start].
  - exists true. split; [reflexivity|]. split; [|reflexivity]. intros _. exists i. reflexivity.
  - destruct i as [|x i]; [cbn in L; lia|]. destruct (Z.eqb_spec x y) as [->|N]; cbn [negb].
    + destruct (IH i ltac:(cbn in L; lia)) as (b & -> & B). exists b. split; [reflexivity|]. rewrite B. split; intros (z & E); exists z; cbn in *; congruence.
    + exists false. split; [reflexivity|]. split; [discriminate|]. intros (z & E). cbn in E. congruence.
Qed.
Lemma starts_with_ok : forall value start, exists b, starts_with value start = Val b /\ (b = true <-> exists y, value = start ++ y).
Proof.
  intros value start. unfold starts_with. destruct (Nat.ltb_spec (length value) (length start)) as [L|L]; [|apply same_start_ok; exact L]. exists false. split; [reflexivity|]. split; [discriminate|]. intros (y & ->). rewrite app_length in L. lia.
Qed.
Lemma is_prefix_ok : forall p s, is_prefix p s = true <-> exists y, s = p ++ y.
Proof.
  induction p as [|a p IH]; intros s; cbn [is_prefix]; [split; [intros _; exists s; reflexivity|reflexivity]|]. destruct s as [|b s]; [split; [discriminate|intros (y & E); discriminate]|]. rewrite Bool.andb_true_iff, Z.eqb_eq, IH. split.
  - intros (-> & y & ->). exists y. reflexivity.
  - intros (y & E). injection E as -> ->. split; [reflexivity|]. exists y. reflexivity.
Qed.
Lemma scan_ok : forall s pat pos, match scan_sub pat s pos with
  | Some n => exists x y, n = (pos + length x)%nat /\ splits s pat x y
  | None => forall x y, s <> x ++ pat ++ y end.
Proof.
  induction s as [|c s IH]; intros pat pos; cbn [scan_sub].
  - destruct (is_prefix pat []) eqn:P.
    + apply is_prefix_ok in P. destruct P as (y & E). exists [], y. split; [cbn; lia|]. split; [exact E|cbn; lia].
    + intros x y E. symmetry in E. apply app_eq_nil in E. destruct E as (-> & E). assert (is_prefix pat [] = true) by (apply is_prefix_ok; exists y; congruence). congruence.
  - destruct (is_prefix pat (c :: s)) eqn:P.
    + apply is_prefix_ok in P. destruct P as (y & E). exists [], y. split; [cbn; lia|]. split; [exact E|cbn; lia].
    + assert (NP : forall x y, c :: s = x ++ pat ++ y -> exists x', x = c :: x' /\ s = x' ++ pat ++ y).
      { intros x y E. destruct x as [|d x]; [cbn in E; assert (is_prefix pat (c :: s) = true) by (apply is_prefix_ok; exists y; exact E); congruence|]. injection E as <- E. exists x. split; [reflexivity|exact E]. }
      specialize (IH pat (S pos)). destruct (scan_sub pat s (S pos)) as [n|].
      * destruct IH as (x & y & -> & E & M). exists (c :: x), y. split; [cbn; lia|]. split; [rewrite E; reflexivity|]. intros x' y' E'. destruct (NP x' y' E') as (x2 & -> & E2). specialize (M x2 y' E2). cbn. lia.
      * intros x y E. destruct (NP x y E) as (x2 & _ & E2). exact (IH x2 y E2).
Qed.
Lemma find_ok : forall pat s, match find_sub pat s O with
  | Some n => exists x y, n = length x /\ splits s pat x y
  | None => forall x y, s <> x ++ pat ++ y end.
Proof. intros pat s. unfold find_sub. cbn [Nat.ltb skipn]. exact (scan_ok s pat O). Qed.
Lemma contains_ok : forall value what, contains value what = true <-> exists x y, value = x ++ what ++ y.
Proof.
  intros value what. unfold contains. pose proof (find_ok what value) as F. destruct (find_sub what value 0) as [n|].
  - destruct F as (x & y & _ & E & _). split; [|reflexivity]. intros _. exists x, y. exact E.
  - split; [discriminate|]. intros (x & y & E). destruct (F x y E).
Qed.
Lemma splits_unique : forall v s x y x' y', splits v s x y -> splits v s x' y' -> x = x' /\ y = y'.
Proof.
  intros v s x y x' y' (E & M) (E' & M'). assert (L : length x = length x') by (pose proof (M x' y' E'); pose proof (M' x y E); lia). rewrite E in E'.
  assert (X : x = x') by (assert (F : firstn (length x) (x ++ s ++ y) = firstn (length x) (x' ++ s ++ y')) by congruence; rewrite L in F at 2; rewrite !firstn_app, !firstn_all, !Nat.sub_diag in F; cbn [firstn] in F; rewrite !app_nil_r in F; exact F). subst x'. split; [reflexivity|]. do 2 apply app_inv_head in E'. exact E'.
Qed.
Lemma before_ok : forall value split, (forall x y, splits value split x y -> substring_before value split = x) /\ ((forall x y, value <> x ++ split ++ y) -> substring_before value split = []).
Proof.
  intros value split. unfold substring_before. pose proof (find_ok split value) as F. destruct (find_sub split value 0) as [n|].
  - destruct F as (x & y & -> & SP). split.
    + intros x' y' SP'. destruct (splits_unique _ _ _ _ _ _ SP SP') as (-> & _). destruct SP' as (-> & _). rewrite firstn_app, firstn_all, Nat.sub_diag. cbn [firstn]. apply app_nil_r.
    + intros N. destruct SP as (E & _). destruct (N x y E).
  - split; [|reflexivity]. intros x y (E & _). destruct (F x y E).
Qed.
Lemma after_ok : forall value split, (forall x y, splits value split x y -> substring_after value split = y) /\ ((forall x y, value <> x ++ split ++ y) -> substring_after value split = []).
Proof.
  intros value split. unfold substring_after. pose proof (find_ok split value) as F. destruct (find_sub split value 0) as [n|].
  - destruct F as (x & y & -> & SP). split.
    + intros x' y' SP'. destruct (splits_unique _ _ _ _ _ _ SP SP') as (-> & ->). destruct SP' as (-> & _). destruct (Nat.leb_spec (length (x' ++ split ++ y')) (length x' + length split)) as [L|L].
      * rewrite !app_length in L. destruct y'; [reflexivity|cbn in L; lia].
      * rewrite app_assoc, skipn_app, skipn_all2 by (rewrite app_length; lia). rewrite app_length, Nat.sub_diag. reflexivity.
    + intros N. destruct SP as (E & _). destruct (N x y E).
  - split; [|reflexivity]. intros x y (E & _). destruct (F x y E).
Qed.

(** * translate *)
Lemma becomes_none : forall c from to, find_char c from = None -> becomes from to c [c].
Proof. intros c from to F. apply stays. apply find_char_none. exact F. Qed.
Lemma first_found : forall c from r, find_char c from = Some r -> nth_error from r = Some c /\ forall q, (q < r)%nat -> nth_error from q <> Some c.
Proof.
  intros c. induction from as [|d from IH]; intros r F; cbn [find_char] in F; [discriminate|]. destruct (Z.eqb_spec d c) as [->|N].
  - injection F as <-. split; [reflexivity|]. intros q Q. lia.
  - destruct (find_char c from) as [n|]; [|discriminate]. injection F as <-. destruct (IH n eq_refl) as (A & B). split; [exact A|]. intros [|q] Q; cbn [nth_error]; [congruence|]. apply B. lia.
Qed.
Lemma becomes_some : forall c from to r, find_char c from = Some r -> becomes from to c (match nth_error to r with Some d => [d] | None => [] end).
Proof. intros c from to r F. destruct (first_found c from r F) as (A & B). destruct (nth_error to r) as [d|] eqn:E; [exact (replaced from to c r d A B E)|exact (removed from to c r A B E)]. Qed.
Lemma tail_loop : forall from to rest out gap, (forall c, In c rest -> In c from) ->
  exists u v, translate_loop (length rest) (out ++ gap ++ rest) (length out + length gap) (length out) from to = Val (v, (length out + length u)%nat) /\
    translation from to rest u /\ exists gap', v = out ++ u ++ gap'.
Proof.
  intros from to. induction rest as [|c rest IH]; intros out gap H; cbn [length translate_loop].
  - exists [], (out ++ gap ++ []). split; [cbn [length]; rewrite Nat.add_0_r; reflexivity|]. split; [constructor|]. exists gap. rewrite app_nil_r. reflexivity.
  - replace (out ++ gap ++ c :: rest) with ((out ++ gap) ++ c :: rest) by (rewrite app_assoc; reflexivity). rewrite <- app_length, get_app. cbn [obind]. destruct (find_char c from) as [r|] eqn:F; [|apply find_char_none in F; destruct (F (H c (or_introl eq_refl)))].
    pose proof (becomes_some c from to r F) as BS. destruct (nth_error to r) as [d|].
    + assert (SET : exists gap', set_nth (length out) d ((out ++ gap) ++ c :: rest) = Val ((out ++ [d]) ++ gap' ++ rest) /\ length gap' = length gap).
      { destruct gap as [|g gap].
        - rewrite app_nil_r, set_app. exists []. split; [rewrite <- app_assoc; reflexivity|reflexivity].
        - exists (gap ++ [c]). split; [|rewrite app_length; cbn; lia]. rewrite <- !app_assoc. cbn [app]. rewrite set_app. reflexivity. }
      destruct SET as (gap' & -> & LG). cbn [obind]. destruct (IH (out ++ [d]) gap' (fun x X => H x (or_intror X))) as (u & v & E & T & gap2 & V). exists (d :: u), v.
      split; [|split; [exact (translation_more from to c rest [d] u BS T)|exists gap2; rewrite V, <- app_assoc; reflexivity]]. rewrite !app_length in *. cbn [length] in *. rewrite LG in E. replace (S (length out + length gap)) with (length out + 1 + length gap)%nat by lia. replace (S (length out)) with (length out + 1)%nat by lia. rewrite E. f_equal. f_equal. lia.
    + destruct (IH out (gap ++ [c]) (fun x X => H x (or_intror X))) as (u & v & E & T & gap2 & V). exists u, v. split; [|split; [exact (translation_more from to c rest [] u BS T)|exists gap2; exact V]]. rewrite <- E. rewrite !app_length. cbn [length]. f_equal; [rewrite <- !app_assoc; reflexivity|lia].
Qed.
Lemma head_loop : forall from to tail rest out, (forall c, In c rest -> In c from -> ~ becomes from to c []) -> (forall c, In c tail -> In c from) ->
  exists u v, translate_loop (length (rest ++ tail)) (out ++ rest ++ tail) (length out) (length out) from to = Val (v, (length out + length u)%nat) /\
    translation from to (rest ++ tail) u /\ exists gap', v = out ++ u ++ gap'.
Proof.
  intros from to tail. induction rest as [|c rest IH]; intros out H K.
  - destruct (tail_loop from to tail out [] K) as (u & v & E & T & G). exists u, v. split; [|split; [exact T|exact G]]. cbn [app length] in *. rewrite Nat.add_0_r in E. exact E.
  - cbn [app length translate_loop]. rewrite get_app. cbn [obind]. destruct (find_char c from) as [r|] eqn:F.
    + pose proof (becomes_some c from to r F) as BS. destruct (nth_error to r) as [d|]; [|destruct (H c (or_introl eq_refl)); [apply nth_error_In with r; apply (first_found c from r F)|exact BS]]. rewrite set_app. cbn [obind]. destruct (IH (out ++ [d]) (fun x X => H x (or_intror X)) K) as (u & v & E & T & gap2 & V). exists (d :: u), v.
      split; [|split; [exact (translation_more from to c _ [d] u BS T)|exists gap2; rewrite V, <- app_assoc; reflexivity]]. rewrite !app_length in *. cbn [length] in *. replace (S (length out)) with (length out + 1)%nat by lia. rewrite <- app_assoc in E. cbn [app] in E. rewrite E. f_equal. f_equal. lia.
    + pose proof (becomes_none c from to F) as BS. destruct (IH (out ++ [c]) (fun x X => H x (or_intror X)) K) as (u & v & E & T & gap2 & V). exists (c :: u), v.
      split; [|split; [exact (translation_more from to c _ [c] u BS T)|exists gap2; rewrite V, <- app_assoc; reflexivity]]. rewrite !app_length in *. cbn [length] in *. replace (S (length out)) with (length out + 1)%nat by lia. rewrite <- app_assoc in E. cbn [app] in E. rewrite E. f_equal. f_equal. lia.
Qed.
Lemma translate_ok : forall a b from to, (forall c, In c a -> In c from -> ~ becomes from to c []) -> (forall c, In c b -> In c from) ->
  exists u, translate (a ++ b) from to = Val u /\ translation from to (a ++ b) u.
Proof.
  intros a b from to H K. destruct (head_loop from to b a [] H K) as (u & v & E & T & gap & V). exists u. split; [|exact T]. unfold translate. cbn [app length] in *. rewrite E. cbn [obind]. cbn [Nat.add]. assert (FN : forall w, firstn (length u) (u ++ w) = u) by (intros w; rewrite firstn_app, firstn_all, Nat.sub_diag; cbn [firstn]; apply app_nil_r). subst v. destruct (Nat.eqb_spec (length u) (length (u ++ gap))) as [L|L]; [rewrite FN; reflexivity|].
  destruct gap as [|g gap]; [rewrite app_nil_r in L; lia|]. rewrite set_app. cbn [obind]. rewrite FN. reflexivity.
Qed.
Lemma translation_unique : forall from to s t u, translation from to s t -> translation from to s u -> t = u.
Proof.
  assert (B : forall from to c t u, becomes from to c t -> becomes from to c u -> t = u).
  { assert (R : forall (from : list Z) c r q, nth_error from r = Some c -> (forall x, (x < r)%nat -> nth_error from x <> Some c) -> nth_error from q = Some c -> (forall x, (x < q)%nat -> nth_error from x <> Some c) -> r = q) by (intros from c r q A B C D; destruct (Nat.lt_trichotomy r q) as [L|[L|L]]; [destruct (D r L A)|exact L|destruct (B q L C)]).
    intros from to c t u [N|r d A P E|r A P E] [N'|r' d' A' P' E'|r' A' P' E']; try reflexivity; try (exfalso; apply N; eapply nth_error_In; eassumption); try (exfalso; apply N'; eapply nth_error_In; eassumption); rewrite (R from c r r' A P A' P') in E; congruence. }
  intros from to s t u T. revert u. induction T as [|c s t u Bt _ IH]; intros w W; inversion W as [|? ? t' u' Bt' W' ]; subst; [reflexivity|]. rewrite (B _ _ _ _ _ Bt Bt'), (IH u' W'). reflexivity.
Qed.

(** * substring *)
Lemma picked_range : forall lo hi s n, picked (fun p => lo <= p < hi) n s (firstn (Z.to_nat (hi - Z.max lo n)) (skipn (Z.to_nat (lo - n)) s)).
Proof.
  intros lo hi. induction s as [|c s IH]; intros n; [rewrite skipn_nil, firstn_nil; constructor|]. specialize (IH (n + 1)). destruct (Z.lt_ge_cases n lo) as [L|L].
  - apply picked_not; [lia|]. replace (Z.max lo n) with (Z.max lo (n + 1)) by lia. replace (Z.to_nat (lo - n)) with (S (Z.to_nat (lo - (n + 1)))) by lia. exact IH.
  - replace (Z.to_nat (lo - n)) with O by lia. replace (Z.to_nat (lo - (n + 1))) with O in IH by lia. cbn [skipn] in *. destruct (Z.lt_ge_cases n hi) as [H|H].
    + replace (Z.to_nat (hi - Z.max lo n)) with (S (Z.to_nat (hi - Z.max lo (n + 1)))) by lia. cbn [firstn]. apply picked_this; [lia|exact IH].
    + replace (Z.to_nat (hi - Z.max lo n)) with O by lia. replace (Z.to_nat (hi - Z.max lo (n + 1))) with O in IH by lia. cbn [firstn] in *. apply picked_not; [lia|exact IH].
Qed.
Lemma picked_from : forall lo s n, picked (fun p => lo <= p) n s (skipn (Z.to_nat (lo - n)) s).
Proof.
  intros lo. induction s as [|c s IH]; intros n; [rewrite skipn_nil; constructor|]. specialize (IH (n + 1)). destruct (Z.lt_ge_cases n lo) as [L|L].
  - apply picked_not; [lia|]. replace (Z.to_nat (lo - n)) with (S (Z.to_nat (lo - (n + 1)))) by lia. exact IH.
  - replace (Z.to_nat (lo - n)) with O by lia. replace (Z.to_nat (lo - (n + 1))) with O in IH by lia. cbn [skipn] in *. apply picked_this; [lia|exact IH].
Qed.
Lemma picked_empty : forall (P : Z -> Prop) s n, (forall p, n <= p -> ~ P p) -> picked P n s [].
Proof. intros P. induction s as [|c s IH]; intros n H; [constructor|]. apply picked_not; [apply H; lia|]. apply IH. intros p L. apply H. lia. Qed.
Lemma to_int_ok : forall z, -2147483648 <= z < 2147483648 -> to_int (of_Z z) = Some z.
Proof.
  intros z B. assert (S : Z.abs z <= 2 ^ 53) by lia. destruct (of_Z_int z S) as (I & _). destruct (is_integer_long (of_Z z) z I ltac:(lia)) as (L & _). unfold to_long, to_int in *. destruct (of_Z z) as [s| | |s m e]; try discriminate; [exact L|]. cbv zeta in *. destruct ((-9223372036854775808 <=? truncate s m e) && (truncate s m e <? 9223372036854775808)); [|discriminate]. injection L as ->. destruct (Z.leb_spec (-2147483648) z); [|lia]. destruct (Z.ltb_spec z 2147483648); [reflexivity|lia].
Qed.
Lemma not_nan_int : forall z, Z.abs z <= 2 ^ 53 -> is_nan (of_Z z) = false /\ is_infinite (of_Z z) = false.
Proof. intros z B. destruct (of_Z_int z B) as ((F & _) & N). split; [exact N|]. destruct (of_Z z); cbn in *; (reflexivity || contradiction). Qed.
Lemma start_int : forall v k, whole v k -> Z.abs k <= 2 ^ 52 -> fsub v one = of_Z (k - 1).
Proof.
  intros v k W B. assert (S : small_int k) by (unfold small_int; lia). destruct (whole_is v k W S) as [->|(-> & ->)]; [|reflexivity]. change one with (of_Z 1). apply sub_int; unfold small_int in *; lia.
Qed.
Lemma stop_int : forall v k s, whole v k -> Z.abs k <= 2 ^ 52 -> Z.abs s <= 2 ^ 52 + 1 -> Z.abs (k + s) <= 2 ^ 53 -> fadd v (of_Z s) = of_Z (k + s).
Proof.
  intros v k s W B BS B2. assert (S : small_int k) by (unfold small_int; lia). destruct (whole_is v k W S) as [->|(-> & ->)]; [apply add_int; unfold small_int; lia|]. cbn [Z.add]. destruct (Z.eq_dec s 0) as [->|N]; [reflexivity|]. destruct (of_Z_finite s N ltac:(lia)) as (m & e & -> & _). reflexivity.
Qed.
Lemma ltb_zero : forall z, Z.abs z <= 2 ^ 53 -> SFltb (of_Z z) zero = (z <? 0).
Proof. intros z B. change zero with (of_Z 0). apply ltb_int; unfold small_int; lia. Qed.
Definition fits (value : str) : Prop := Z.of_nat (length value) < 2147483648.
Lemma substring_three : forall value a b ka kb, fits value -> whole (round_number a) ka -> whole (round_number b) kb -> Z.abs ka <= 2 ^ 52 -> Z.abs kb < 2 ^ 52 ->
  kb < 0 \/ ka - 1 <= Z.of_nat (length value) -> exists t, substring value a (Some b) = Text t /\ picked (fun p => ka <= p < ka + kb) 1 value t.
Proof.
  intros value a b ka kb FV WA WB BA BB D. unfold fits in FV. destruct value as [|c value']; [exists []; split; [reflexivity|constructor]|]. cbn [substring]. set (value := c :: value') in *. set (len := Z.of_nat (length value)) in *. assert (L1 : 0 < len) by (unfold len, value; cbn [length]; lia).
  rewrite (start_int _ ka WA BA), (stop_int _ kb (ka - 1) WB) by lia. destruct (not_nan_int (kb + (ka - 1)) ltac:(lia)) as (-> & ->). rewrite !ltb_zero by lia. rewrite !ltb_int by (unfold small_int; lia). cbn [orb]. rewrite Bool.orb_false_r.
  destruct ((kb + (ka - 1) <? 0) || (kb + (ka - 1) <? ka - 1)) eqn:E.
  - exists []. split; [reflexivity|]. apply picked_empty. intros p P. lia.
  - apply Bool.orb_false_iff in E. destruct E as (E1 & E2). apply Z.ltb_ge in E1, E2. assert (D' : ka - 1 <= len) by lia.
    replace (if ka - 1 <? 0 then zero else of_Z (ka - 1)) with (of_Z (Z.max 0 (ka - 1))) by (destruct (Z.ltb_spec (ka - 1) 0); [rewrite Z.max_l by lia; reflexivity|rewrite Z.max_r by lia; reflexivity]).
    replace (if len <? kb + (ka - 1) then of_Z len else of_Z (kb + (ka - 1))) with (of_Z (Z.min len (kb + (ka - 1)))) by (destruct (Z.ltb_spec len (kb + (ka - 1))); [rewrite Z.min_l by lia; reflexivity|rewrite Z.min_r by lia; reflexivity]).
    rewrite sub_int by (unfold small_int; lia). rewrite !to_int_ok by lia. unfold substr. fold len. destruct (Z.ltb_spec len (Z.max 0 (ka - 1))); [lia|]. destruct (Z.ltb_spec (Z.min len (kb + (ka - 1)) - Z.max 0 (ka - 1)) 0); [lia|].
    eexists. split; [reflexivity|]. pose proof (picked_range ka (ka + kb) value 1) as P. replace (Z.to_nat (Z.max 0 (ka - 1))) with (Z.to_nat (ka - 1)) by lia. assert (F : firstn (Z.to_nat (Z.min len (kb + (ka - 1)) - Z.max 0 (ka - 1))) (skipn (Z.to_nat (ka - 1)) value) = firstn (Z.to_nat (ka + kb - Z.max ka 1)) (skipn (Z.to_nat (ka - 1)) value)); [|rewrite F; exact P].
    destruct (Z.le_gt_cases (kb + (ka - 1)) len) as [C|C]; [f_equal; lia|]. rewrite !firstn_all2; [reflexivity| |]; rewrite skipn_length; fold len; unfold len in *; lia.
Qed.
Lemma substring_two : forall value a b ka, fits value -> whole (round_number a) ka -> b = None \/ b = Some (S754_infinity false) -> Z.abs ka <= 2 ^ 52 -> ka - 1 <= Z.of_nat (length value) ->
  exists t, substring value a b = Text t /\ picked (fun p => ka <= p) 1 value t.
Proof.
  intros value a b ka FV WA B BA D. unfold fits in FV. destruct value as [|c value']; [exists []; split; [destruct B; subst; reflexivity|constructor]|]. cbn [substring]. set (value := c :: value') in *. set (len := Z.of_nat (length value)) in *. assert (L1 : 0 < len) by (unfold len, value; cbn [length]; lia).
  rewrite (start_int _ ka WA BA). replace (round_number (match b with Some n => n | None => S754_infinity false end)) with (S754_infinity false) by (destruct B; subst; reflexivity). assert (ST : fadd (S754_infinity false) (of_Z (ka - 1)) = S754_infinity false) by (destruct (not_nan_int (ka - 1) ltac:(lia)) as (N & NI); destruct (of_Z (ka - 1)); cbn in *; try discriminate; reflexivity). rewrite ST.
  assert (LT : SFltb (S754_infinity false) (of_Z (ka - 1)) = false) by (destruct (not_nan_int (ka - 1) ltac:(lia)) as (N & NI); destruct (of_Z (ka - 1)); cbn in *; try discriminate; reflexivity). rewrite LT. cbn [orb]. change (SFltb (S754_infinity false) zero) with false. cbn [is_nan is_infinite orb]. rewrite ltb_zero by lia.
  replace (if ka - 1 <? 0 then zero else of_Z (ka - 1)) with (of_Z (Z.max 0 (ka - 1))) by (destruct (Z.ltb_spec (ka - 1) 0); [rewrite Z.max_l by lia; reflexivity|rewrite Z.max_r by lia; reflexivity]).
  rewrite sub_int by (unfold small_int; lia). rewrite !to_int_ok by lia. unfold substr. fold len. destruct (Z.ltb_spec len (Z.max 0 (ka - 1))); [lia|]. destruct (Z.ltb_spec (len - Z.max 0 (ka - 1)) 0); [lia|].
  eexists. split; [reflexivity|]. pose proof (picked_from ka value 1) as P. replace (Z.to_nat (Z.max 0 (ka - 1))) with (Z.to_nat (ka - 1)) by lia. rewrite firstn_all2; [exact P|]. rewrite skipn_length. unfold len in *. lia.
Qed.
Lemma rounds_unique : forall v k l, rounds_to v k -> rounds_to v l -> k = l.
Proof. intros v k l A B. pose proof (den_pos v). unfold rounds_to in *. nia. Qed.
Lemma rounds_whole : forall v k, double v -> finite v -> ~ unlucky v -> rounds_to v k -> whole (round_number v) k.
Proof. intros v k D F U R. destruct (round_lemma_all v D F U) as (k' & R' & W). rewrite (rounds_unique v k k' R R'). exact W. Qed.
(** A start past the end. *)
Lemma substring_throws : forall value a b ka kb, fits value -> whole (round_number a) ka -> whole (round_number b) kb -> Z.abs ka <= 2147483647 -> 0 <= kb < 2 ^ 52 -> value <> [] ->
  Z.of_nat (length value) < ka - 1 -> substring value a (Some b) = Throws.
Proof.
  intros value a b ka kb FV WA WB BA BB NE D. unfold fits in FV. destruct value as [|c value']; [congruence|]. cbn [substring]. set (value := c :: value') in *. set (len := Z.of_nat (length value)) in *. assert (L1 : 0 < len) by (unfold len, value; cbn [length]; lia).
  rewrite (start_int _ ka WA) by lia. rewrite (stop_int _ kb (ka - 1) WB) by lia. destruct (not_nan_int (kb + (ka - 1)) ltac:(lia)) as (-> & ->). rewrite !ltb_zero by lia. rewrite !ltb_int by (unfold small_int; lia). cbn [orb]. rewrite Bool.orb_false_r. destruct (Z.ltb_spec (kb + (ka - 1)) 0); [lia|]. destruct (Z.ltb_spec (kb + (ka - 1)) (ka - 1)); [lia|]. cbn [orb]. destruct (Z.ltb_spec (ka - 1) 0); [lia|]. destruct (Z.ltb_spec len (kb + (ka - 1))); [|lia].
  rewrite sub_int by (unfold small_int; lia). rewrite !to_int_ok by lia. unfold substr. fold len. destruct (Z.ltb_spec len (ka - 1)); [reflexivity|lia].
Qed.
