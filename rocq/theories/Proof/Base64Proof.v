From Verif.Model Require Import Base Base64.
From Verif.Spec Require Import Base64Spec.
From Verif.Proof Require Import Tac.

(** * Digits *)

Lemma charset_alphabet : charset = alphabet.
Proof. vm_compute. reflexivity. Qed.

Lemma charset_at_digit v : 0 <= v < 64 -> charset_at v = digit v.
Proof.
  intros H. unfold charset_at, digit. rewrite <- charset_alphabet.
  apply nth_indep. change (length charset) with 64%nat. lia.
Qed.

Lemma find_digit v : 0 <= v < 64 -> charset_find (digit v) = Some v.
Proof.
  intros H.
  assert (E : forallb (fun v => match charset_find (digit v) with
                                | Some w => w =? v | None => false end)
                      (zrange 64) = true) by (vm_compute; reflexivity).
  apply sweep1 with (x := v) in E; [|lia]. cbv beta in E.
  destruct (charset_find (digit v)) as [w|]; [|discriminate].
  f_equal. lia.
Qed.

Lemma find_pad : charset_find eq_sign = None.
Proof. vm_compute. reflexivity. Qed.


Lemma land63 x : Z.land x 63 = x mod 64.
Proof. change 63 with (Z.ones 6). rewrite Z.land_ones by lia. reflexivity. Qed.
Lemma land15 x : Z.land x 15 = x mod 16.
Proof. change 15 with (Z.ones 4). rewrite Z.land_ones by lia. reflexivity. Qed.
Lemma land3 x : Z.land x 3 = x mod 4.
Proof. change 3 with (Z.ones 2). rewrite Z.land_ones by lia. reflexivity. Qed.
Lemma shr x k : 0 <= k -> Z.shiftr x k = x / 2 ^ k.
Proof. intros. apply Z.shiftr_div_pow2. assumption. Qed.
Lemma shl x k : 0 <= k -> Z.shiftl x k = x * 2 ^ k.
Proof. intros. apply Z.shiftl_mul_pow2. assumption. Qed.

(** * One character at a time *)

(** The next character do_out would write, if any. *)
Definition emit (s : st64) (input : str) : option (Z * st64 * str) :=
  if no_more input && (prev s =? 0) then
    if pos s =? 0 then None else Some (pad, St (next_pos (pos s)) (prev s), input)
  else Some (quad_step s input).

Fixpoint iter (n : nat) (s : st64) (input : str) : str * st64 * str :=
  match n with
  | O => ([], s, input)
  | S n' =>
      match emit s input with
      | None => ([], s, input)
      | Some (c, s', r) =>
          let '(o, s2, r2) := iter n' s' r in (c :: o, s2, r2)
      end
  end.

Lemma iter_pad n s input :
  no_more input && (prev s =? 0) = true ->
  iter n s input = (fst (pad_loop n s), snd (pad_loop n s), input).
Proof.
  revert s; induction n as [|n IH]; intros s H; cbn [iter pad_loop]; [reflexivity|].
  unfold emit. rewrite H. destruct (pos s =? 0); [reflexivity|].
  rewrite IH by exact H. destruct (pad_loop n _); reflexivity.
Qed.

Lemma pad_loop_prev n s : prev (snd (pad_loop n s)) = prev s.
Proof.
  revert s; induction n as [|n IH]; intros s; cbn [pad_loop]; [reflexivity|].
  destruct (pos s =? 0); [reflexivity|].
  specialize (IH (St (next_pos (pos s)) (prev s))).
  destruct (pad_loop n _); exact IH.
Qed.

Lemma do_out_iter cap s input :
  do_out s input cap =
  let '(o, s', r) := iter cap s input in
  (o, s', r, match emit s' r with None => CvtOk | Some _ => CvtPartial end).
Proof.
  unfold do_out.
  assert (Q : (let '(o1, cap1, s1, r) := quad_loop cap s input in
               let (o2, s2) := pad_loop cap1 s1 in (o1 ++ o2, s2, r))
              = iter cap s input).
  { revert s input; induction cap as [|cap IH]; intros s input; cbn [quad_loop iter].
    - cbn [pad_loop]. reflexivity.
    - unfold emit. destruct (no_more input && (prev s =? 0)) eqn:E.
      + pose proof (iter_pad (S cap) s input E) as HP.
        cbn [iter] in HP. unfold emit in HP. rewrite E in HP. rewrite HP.
        destruct (pad_loop (S cap) s); reflexivity.
      + destruct (quad_step s input) as [[ch s'] r].
        destruct ((pos s' =? 0) && no_more r && (prev s' =? 0)) eqn:E2.
        * assert (iter cap s' r = ([], s', r)) as ->.
          { destruct cap; cbn [iter]; [reflexivity|]. unfold emit.
            destruct (pos s' =? 0), (no_more r), (prev s' =? 0); try discriminate.
            reflexivity. }
          assert (pos s' =? 0 = true) as Hp by (destruct (pos s' =? 0); auto).
          destruct cap; cbn [pad_loop]; [reflexivity|]. rewrite Hp. reflexivity.
        * rewrite <- IH. destruct (quad_loop cap s' r) as [[[o c2] s2] r2].
          destruct (pad_loop c2 s2). reflexivity. }
  destruct (quad_loop cap s input) as [[[o1 c1] s1] r].
  destruct (pad_loop c1 s1) as [o2 s2]. rewrite <- Q. f_equal.
  unfold emit. destruct (pos s2 =? 0), (no_more r), (prev s2 =? 0); reflexivity.
Qed.

Lemma iter_app a b s input :
  iter (a + b) s input =
  let '(o, s1, r1) := iter a s input in
  let '(o2, s2, r2) := iter b s1 r1 in (o ++ o2, s2, r2).
Proof.
  revert s input; induction a as [|a IH]; intros s input; cbn [iter Nat.add].
  - destruct (iter b s input) as [[? ?] ?]; reflexivity.
  - destruct (emit s input) as [[[c s'] r]|] eqn:E.
    + rewrite IH. destruct (iter a s' r) as [[o s1] r1].
      destruct (iter b s1 r1) as [[o2 s2] r2]. reflexivity.
    + assert (iter b s input = ([], s, input)) as ->; [|reflexivity].
      destruct b; cbn [iter]; [reflexivity|]. rewrite E. reflexivity.
Qed.

(** * Cutting the output into buffers changes nothing *)

Lemma out_calls_once caps s input :
  out_calls caps s input =
  let '(o, s', r, _) := do_out s input (list_sum caps) in (o, s', r).
Proof.
  assert (H : out_calls caps s input = iter (list_sum caps) s input).
  { revert s input; induction caps as [|c caps IH]; intros s input; cbn [out_calls].
    - reflexivity.
    - change (list_sum (c :: caps)) with (c + list_sum caps)%nat.
      rewrite iter_app, do_out_iter.
      destruct (iter c s input) as [[o s1] r1]. rewrite IH. reflexivity. }
  rewrite H, do_out_iter. destruct (iter _ _ _) as [[o s'] r]. reflexivity.
Qed.

(** * Agreement with RFC 4648 *)

Lemma quad0 a r : 0 <= a < 256 ->
  quad_step (St 0 0) (a :: r) = (digit (a / 4), St 1 a, r).
Proof.
  intros H. unfold quad_step. cbn [pos prev cur consume]. rewrite Z.eqb_refl.
  rewrite land63, shr by lia. change (2 ^ 2) with 4.
  rewrite charset_at_digit by lia.
  rewrite Z.mod_small by lia. reflexivity.
Qed.
Lemma quad1 a b r : 0 <= a < 256 -> 0 <= b < 256 ->
  quad_step (St 1 a) (b :: r) = (digit (a mod 4 * 16 + b / 16), St 2 b, r).
Proof.
  intros Ha Hb. unfold quad_step. cbn [pos prev cur consume].
  change (1 =? 0) with false. change (1 =? 1) with true. cbv iota.
  rewrite land15, land3, shr, shl by lia. change (2 ^ 4) with 16.
  rewrite charset_at_digit by lia.
  rewrite (Z.mod_small (b / 16)) by lia. reflexivity.
Qed.
Lemma quad1_end a : 0 <= a < 256 ->
  quad_step (St 1 a) [] = (digit (a mod 4 * 16), St 2 0, []).
Proof.
  intros Ha. unfold quad_step. cbn [pos prev cur consume].
  change (1 =? 0) with false. change (1 =? 1) with true. cbv iota.
  rewrite land15, land3, shr, shl by lia. change (2 ^ 4) with 16.
  rewrite charset_at_digit by lia.
  rewrite Z.div_0_l, Z.mod_0_l, Z.add_0_r by lia. reflexivity.
Qed.
Lemma quad2 b c r : 0 <= b < 256 -> 0 <= c < 256 ->
  quad_step (St 2 b) (c :: r) = (digit (b mod 16 * 4 + c / 64), St 3 0, c :: r).
Proof.
  intros Ha Hb. unfold quad_step. cbn [pos prev cur consume].
  change (2 =? 0) with false. change (2 =? 1) with false.
  change (2 =? 2) with true. cbv iota.
  rewrite land15, land3, shr, shl by lia.
  change (2 ^ 6) with 64. change (2 ^ 2) with 4.
  rewrite charset_at_digit by lia.
  rewrite (Z.mod_small (c / 64)) by lia. reflexivity.
Qed.
Lemma quad2_end b : 0 <= b < 256 ->
  quad_step (St 2 b) [] = (digit (b mod 16 * 4), St 3 0, []).
Proof.
  intros Ha. unfold quad_step. cbn [pos prev cur consume].
  change (2 =? 0) with false. change (2 =? 1) with false.
  change (2 =? 2) with true. cbv iota.
  rewrite land15, land3, shr, shl by lia.
  change (2 ^ 6) with 64. change (2 ^ 2) with 4.
  rewrite charset_at_digit by lia.
  rewrite Z.div_0_l, Z.mod_0_l, Z.add_0_r by lia. reflexivity.
Qed.
Lemma quad3 p c r : 0 <= c < 256 ->
  quad_step (St 3 p) (c :: r) = (digit (c mod 64), St 0 0, r).
Proof.
  intros Ha. unfold quad_step. cbn [pos prev cur consume].
  change (3 =? 0) with false. change (3 =? 1) with false.
  change (3 =? 2) with false. cbv iota.
  rewrite land63. rewrite charset_at_digit by lia. reflexivity.
Qed.

(** What the encoder really writes: like RFC 4648 except that a final zero byte
    of an incomplete group is dropped and replaced by padding. *)
Fixpoint actual (s : str) : str :=
  match s with
  | [] => []
  | [a] => if a =? 0 then [digit 0; eq_sign; eq_sign; eq_sign]
           else [digit (a / 4); digit (a mod 4 * 16); eq_sign; eq_sign]
  | [a; b] =>
      if b =? 0 then [digit (a / 4); digit (a mod 4 * 16); eq_sign; eq_sign]
      else [digit (a / 4); digit (a mod 4 * 16 + b / 16);
               digit (b mod 16 * 4); eq_sign]
  | a :: b :: c :: r =>
      digit (a / 4) :: digit (a mod 4 * 16 + b / 16)
      :: digit (b mod 16 * 4 + c / 64) :: digit (c mod 64) :: actual r
  end.

(** Induction in steps of three. *)
Lemma triple_ind (P : str -> Prop) :
  P [] -> (forall a, P [a]) -> (forall a b, P [a; b]) ->
  (forall a b c r, P r -> P (a :: b :: c :: r)) -> forall s, P s.
Proof.
  intros H0 H1 H2 H3.
  assert (A : forall s, P s /\ (forall a, P (a :: s)) /\ (forall a b, P (a :: b :: s))).
  { induction s as [|x s (IH1 & IH2 & IH3)]; [auto|].
    repeat split; auto. }
  intros s. apply A.
Qed.

Ltac emit_one lem :=
  cbn [iter]; unfold emit at 1; cbn [no_more prev andb]; rewrite lem by assumption;
  cbv beta iota.

Lemma iter_actual s : bytes s -> forall n,
  (length (actual s) <= n)%nat -> iter n st64_init s = (actual s, st64_init, []).
Proof.
  unfold st64_init. induction s as [|a|a b|a b c r IH] using triple_ind;
    intros HB n Hn.
  - destruct n; reflexivity.
  - apply Forall_inv in HB. cbn [actual] in *.
    destruct (Z.eqb_spec a 0) as [Ea|Ea].
    + subst a. do 4 (destruct n as [|n]; [cbn [length] in Hn; lia|]).
      emit_one quad0. cbn. destruct n; reflexivity.
    + do 4 (destruct n as [|n]; [cbn [length] in Hn; lia|]).
      emit_one quad0. cbn [iter]. unfold emit at 1. cbn [no_more prev andb].
      rewrite (proj2 (Z.eqb_neq a 0)) by lia. rewrite quad1_end by assumption.
      cbn. destruct n; reflexivity.
  - pose proof (Forall_inv HB) as Ha. pose proof (Forall_inv (Forall_inv_tail HB)) as Hb.
    cbn [actual] in *. destruct (Z.eqb_spec b 0) as [Eb|Eb].
    + subst b. do 4 (destruct n as [|n]; [cbn [length] in Hn; lia|]).
      emit_one quad0. emit_one quad1.
      change (0 / 16) with 0. rewrite Z.add_0_r. cbn. destruct n; reflexivity.
    + do 4 (destruct n as [|n]; [cbn [length] in Hn; lia|]).
      emit_one quad0. emit_one quad1.
      cbn [iter]. unfold emit at 1. cbn [no_more prev andb].
      rewrite (proj2 (Z.eqb_neq b 0)) by lia. rewrite quad2_end by assumption.
      cbn. destruct n; reflexivity.
  - pose proof (Forall_inv HB) as Ha. apply Forall_inv_tail in HB.
    pose proof (Forall_inv HB) as Hb. apply Forall_inv_tail in HB.
    pose proof (Forall_inv HB) as Hc. apply Forall_inv_tail in HB.
    cbn [actual] in *.
    do 4 (destruct n as [|n]; [cbn [length] in Hn; lia|]).
    emit_one quad0. emit_one quad1. emit_one quad2. emit_one quad3.
    rewrite IH by (try assumption; cbn [length] in Hn; lia). reflexivity.
Qed.

Lemma actual_length_rfc s : length (actual s) = length (rfc_encode s).
Proof.
  induction s as [|a|a b|a b c r IH] using triple_ind; cbn [actual rfc_encode]; auto.
  - destruct (a =? 0); reflexivity.
  - destruct (b =? 0); reflexivity.
  - cbn [length]. lia.
Qed.

Lemma rfc_length s : (length (rfc_encode s) <= 2 * length s + 2)%nat.
Proof.
  induction s as [|a|a b|a b c r IH] using triple_ind; cbn [rfc_encode length]; lia.
Qed.

Lemma do_out_actual s n : bytes s -> (length (rfc_encode s) <= n)%nat ->
  do_out st64_init s n = (actual s, st64_init, [], CvtOk).
Proof.
  intros HB Hn. rewrite <- actual_length_rfc in Hn.
  rewrite do_out_iter, iter_actual by assumption. reflexivity.
Qed.

Lemma encode_actual s : bytes s -> encode s = actual s.
Proof.
  intros HB. unfold encode. rewrite do_out_actual; [reflexivity|assumption|].
  pose proof (rfc_length s). lia.
Qed.

(** * Decoding *)

Lemma in_step_digit s v : 0 <= v < 64 -> in_step s (digit v) =
  ((if pos s =? 0 then []
    else if pos s =? 1 then [Z.land (Z.lor (Z.shiftl (prev s) 2) (Z.shiftr v 4)) 255]
    else if pos s =? 2 then [Z.land (Z.lor (Z.shiftl (prev s) 4) (Z.shiftr v 2)) 255]
    else [Z.land (Z.lor (Z.shiftl (prev s) 6) v) 255]),
   St (next_pos (pos s)) v).
Proof. intros H. unfold in_step. rewrite find_digit by assumption. reflexivity. Qed.

Lemma sextets1 u v : 0 <= u < 64 -> 0 <= v < 64 ->
  Z.land (Z.lor (Z.shiftl u 2) (Z.shiftr v 4)) 255 = u * 4 + v / 16.
Proof.
  intros Hu Hv. apply Z.eqb_eq. revert u v Hu Hv. apply (sweep2 64 64
    (fun u v => Z.land (Z.lor (Z.shiftl u 2) (Z.shiftr v 4)) 255 =? u * 4 + v / 16)).
  vm_compute. reflexivity.
Qed.
Lemma sextets2 u v : 0 <= u < 64 -> 0 <= v < 64 ->
  Z.land (Z.lor (Z.shiftl u 4) (Z.shiftr v 2)) 255 = u mod 16 * 16 + v / 4.
Proof.
  intros Hu Hv. apply Z.eqb_eq. revert u v Hu Hv. apply (sweep2 64 64
    (fun u v => Z.land (Z.lor (Z.shiftl u 4) (Z.shiftr v 2)) 255 =? u mod 16 * 16 + v / 4)).
  vm_compute. reflexivity.
Qed.
Lemma sextets3 u v : 0 <= u < 64 -> 0 <= v < 64 ->
  Z.land (Z.lor (Z.shiftl u 6) v) 255 = u mod 4 * 64 + v.
Proof.
  intros Hu Hv. apply Z.eqb_eq. revert u v Hu Hv. apply (sweep2 64 64
    (fun u v => Z.land (Z.lor (Z.shiftl u 6) v) 255 =? u mod 4 * 64 + v)).
  vm_compute. reflexivity.
Qed.

(** The decoder without output limit. *)
Fixpoint dec (input : str) (s : st64) : str * st64 :=
  match input with
  | [] => ([], s)
  | b :: r => let (o, s') := in_step s b in
              let (o2, s2) := dec r s' in (o ++ o2, s2)
  end.

Lemma in_step_length s b : (length (fst (in_step s b)) <= 1)%nat.
Proof.
  unfold in_step. destruct (charset_find b); cbn [fst]; [|cbn; lia].
  destruct (pos s =? 0); [cbn; lia|]. destruct (pos s =? 1); [cbn; lia|].
  destruct (pos s =? 2); cbn; lia.
Qed.

Lemma in_loop_dec input s cap : (length input < cap)%nat ->
  in_loop input s cap = (fst (dec input s), snd (dec input s), []).
Proof.
  revert s cap; induction input as [|b r IH]; intros s cap H; cbn [in_loop dec].
  - destruct cap; reflexivity.
  - destruct cap as [|cap]; [lia|].
    pose proof (in_step_length s b) as HL.
    destruct (in_step s b) as [o s'] eqn:E. cbn [fst] in HL.
    rewrite IH by (cbn [length] in H; lia).
    destruct (dec r s'). reflexivity.
Qed.

Lemma decode_dec s : decode s = fst (dec s st64_init).
Proof.
  unfold decode, do_in. rewrite in_loop_dec by lia. destruct (dec s st64_init); reflexivity.
Qed.

Lemma dec_app a b s :
  dec (a ++ b) s = let (o, s1) := dec a s in let (o2, s2) := dec b s1 in (o ++ o2, s2).
Proof.
  revert s; induction a as [|x a IH]; intros s; cbn [app dec].
  - destruct (dec b s); reflexivity.
  - destruct (in_step s x) as [o s']. rewrite IH. destruct (dec a s') as [o1 s1].
    destruct (dec b s1) as [o2 s2]. rewrite app_assoc. reflexivity.
Qed.

Lemma in_calls_once pieces s : in_calls pieces s = dec (concat pieces) s.
Proof.
  revert s; induction pieces as [|p ps IH]; intros s; cbn [in_calls concat]; [reflexivity|].
  rewrite dec_app. unfold do_in. rewrite in_loop_dec by lia.
  destruct (dec p s) as [o s1]. cbn [fst snd]. rewrite IH. reflexivity.
Qed.

Lemma in_calls_concat pieces :
  fst (in_calls pieces st64_init) = decode (concat pieces).
Proof. rewrite in_calls_once, decode_dec. reflexivity. Qed.

(** Interrupting the decoder because the output buffer is full and resuming. *)
Lemma in_loop_resume input s c1 c2 :
  in_loop input s (c1 + c2) =
  let '(o, s1, r1) := in_loop input s c1 in
  let '(o2, s2, r2) := in_loop r1 s1 (c1 + c2 - length o) in (o ++ o2, s2, r2).
Proof.
  revert s c1; induction input as [|b r IH]; intros s c1; cbn [in_loop].
  - reflexivity.
  - destruct c1 as [|c1].
    + cbn [length app Nat.add]. rewrite Nat.sub_0_r.
      change (match c2 with O => ([], s, b :: r)
              | S _ => let (o, s') := in_step s b in
                let '(o2, s2, r2) := in_loop r s' (c2 - length o) in (o ++ o2, s2, r2) end)
        with (in_loop (b :: r) s c2).
      destruct (in_loop (b :: r) s c2) as [[o s2] r2]. reflexivity.
    + cbn [Nat.add]. pose proof (in_step_length s b) as HL.
      destruct (in_step s b) as [o s'] eqn:E. cbn [fst] in HL.
      replace (S (c1 + c2) - length o)%nat with ((S c1 - length o) + c2)%nat by lia.
      rewrite IH. destruct (in_loop r s' (S c1 - length o)) as [[o1 s1] r1].
      rewrite app_length.
      replace (S c1 - length o + c2 - length o1)%nat
        with (S (c1 + c2) - (length o + length o1))%nat by lia.
      destruct (in_loop r1 s1 _) as [[o2 s2] r2]. rewrite app_assoc. reflexivity.
Qed.

Lemma dec_group a b c r : 0 <= a < 256 -> 0 <= b < 256 -> 0 <= c < 256 -> forall p,
  dec (digit (a / 4) :: digit (a mod 4 * 16 + b / 16)
      :: digit (b mod 16 * 4 + c / 64) :: digit (c mod 64) :: r) (St 0 p) =
  let (o, s) := dec r (St 0 (c mod 64)) in (a :: b :: c :: o, s).
Proof.
  intros Ha Hb Hc p. cbn [dec].
  rewrite !in_step_digit by lia. cbn [pos prev].
  change (next_pos 0) with 1. change (next_pos 1) with 2.
  change (next_pos 2) with 3. change (next_pos 3) with 0. cbn [Z.eqb Pos.eqb].
  rewrite sextets1, sextets2, sextets3 by lia.
  destruct (dec r (St 0 (c mod 64))) as [o s]. cbn [app].
  f_equal. f_equal; [lia|]. f_equal; [lia|]. f_equal; lia.
Qed.

Lemma in_step_pad s : in_step s eq_sign = ([], St (next_pos (pos s)) (prev s)).
Proof. unfold in_step. rewrite find_pad. reflexivity. Qed.

Lemma dec_one a p : 0 <= a < 256 ->
  fst (dec [digit (a / 4); digit (a mod 4 * 16); eq_sign; eq_sign] (St 0 p)) = [a].
Proof.
  intros Ha. cbn [dec]. rewrite !in_step_digit by lia. rewrite !in_step_pad.
  cbn [pos prev].
  change (next_pos 0) with 1. cbn [Z.eqb Pos.eqb].
  rewrite sextets1 by lia. cbn [fst app]. f_equal. lia.
Qed.
Lemma dec_two a b p : 0 <= a < 256 -> 0 <= b < 256 ->
  fst (dec [digit (a / 4); digit (a mod 4 * 16 + b / 16);
            digit (b mod 16 * 4); eq_sign] (St 0 p)) = [a; b].
Proof.
  intros Ha Hb. cbn [dec]. rewrite !in_step_digit by lia. rewrite !in_step_pad.
  cbn [pos prev].
  change (next_pos 0) with 1. change (next_pos 1) with 2. cbn [Z.eqb Pos.eqb].
  rewrite sextets1, sextets2 by lia. cbn [fst app]. f_equal; [lia|]. f_equal. lia.
Qed.

(** Decoding what RFC 4648 prescribes gives the bytes. *)
Lemma dec_rfc s : bytes s -> forall p, fst (dec (rfc_encode s) (St 0 p)) = s.
Proof.
  induction s as [|a|a b|a b c r IH] using triple_ind; intros HB p; cbn [rfc_encode].
  - reflexivity.
  - apply Forall_inv in HB. apply dec_one. assumption.
  - pose proof (Forall_inv HB). pose proof (Forall_inv (Forall_inv_tail HB)).
    apply dec_two; assumption.
  - pose proof (Forall_inv HB) as Ha. apply Forall_inv_tail in HB.
    pose proof (Forall_inv HB) as Hb. apply Forall_inv_tail in HB.
    pose proof (Forall_inv HB) as Hc. apply Forall_inv_tail in HB.
    rewrite dec_group by assumption. specialize (IH HB (c mod 64)).
    destruct (dec (rfc_encode r) (St 0 (c mod 64))) as [o s]. cbn [fst] in *.
    rewrite IH. reflexivity.
Qed.

Lemma decode_rfc s : bytes s -> decode (rfc_encode s) = s.
Proof. intros. rewrite decode_dec. apply dec_rfc. assumption. Qed.

(** * Which strings the encoder gets right *)

Definition cleanb (s : str) : bool := (Nat.modulo (length s) 3 =? 0)%nat || negb (last s 1 =? 0).

Lemma cleanb_spec s : cleanb s = true <-> ends_cleanly s.
Proof.
  unfold cleanb, ends_cleanly. rewrite orb_true_iff, Nat.eqb_eq, negb_true_iff, Z.eqb_neq.
  reflexivity.
Qed.

Lemma cleanb_step a b c r : cleanb (a :: b :: c :: r) = cleanb r.
Proof.
  unfold cleanb. cbn [length].
  replace (S (S (S (length r)))) with (length r + 1 * 3)%nat by lia.
  rewrite Nat.mod_add by lia. destruct r as [|d r]; [reflexivity|].
  reflexivity.
Qed.

Lemma actual_clean s : ends_cleanly s -> actual s = rfc_encode s.
Proof.
  intros H. apply cleanb_spec in H. revert H.
  induction s as [|a|a b|a b c r IH] using triple_ind; intros H; cbn [actual rfc_encode].
  - reflexivity.
  - unfold cleanb in H. cbn in H. destruct (a =? 0); [discriminate|reflexivity].
  - unfold cleanb in H. cbn in H. destruct (b =? 0); [discriminate|reflexivity].
  - rewrite cleanb_step in H. rewrite IH by assumption. reflexivity.
Qed.

Lemma dec_actual_dirty s : bytes s -> cleanb s = false ->
  forall p, fst (dec (actual s) (St 0 p)) = removelast s.
Proof.
  induction s as [|a|a b|a b c r IH] using triple_ind; intros HB H p; cbn [actual].
  - discriminate.
  - unfold cleanb in H. cbn in H. destruct (Z.eqb_spec a 0); [|discriminate].
    subst a. vm_compute. reflexivity.
  - unfold cleanb in H. cbn in H. destruct (Z.eqb_spec b 0); [|discriminate].
    apply Forall_inv in HB. rewrite dec_one by assumption. reflexivity.
  - pose proof (Forall_inv HB) as Ha. apply Forall_inv_tail in HB.
    pose proof (Forall_inv HB) as Hb. apply Forall_inv_tail in HB.
    pose proof (Forall_inv HB) as Hc. apply Forall_inv_tail in HB.
    rewrite cleanb_step in H. rewrite dec_group by assumption.
    specialize (IH HB H (c mod 64)).
    destruct (dec (actual r) (St 0 (c mod 64))) as [o s]. cbn [fst] in *.
    rewrite IH. destruct r; [discriminate|reflexivity].
Qed.

Lemma encode_rfc s : bytes s -> ends_cleanly s -> encode s = rfc_encode s.
Proof. intros. rewrite encode_actual, actual_clean by assumption. reflexivity. Qed.

Lemma roundtrip s : bytes s -> ends_cleanly s -> decode (encode s) = s.
Proof. intros. rewrite encode_rfc by assumption. apply decode_rfc. assumption. Qed.

Lemma dirty_loses s : bytes s -> ~ ends_cleanly s -> decode (encode s) = removelast s.
Proof.
  intros HB H. rewrite encode_actual by assumption. rewrite decode_dec.
  apply dec_actual_dirty; [assumption|].
  destruct (cleanb s) eqn:E; [|reflexivity]. apply cleanb_spec in E. contradiction.
Qed.

Lemma removelast_length {A} (s : list A) : s <> [] -> length (removelast s) <> length s.
Proof.
  intros H. destruct (exists_last H) as (l & x & ->).
  rewrite removelast_last, app_length. cbn. lia.
Qed.

Lemma roundtrip_iff s : bytes s -> (decode (encode s) = s <-> ends_cleanly s).
Proof.
  intros HB. split; [|apply roundtrip, HB].
  intros H. destruct (cleanb s) eqn:E; [apply cleanb_spec; exact E|].
  assert (~ ends_cleanly s) as HN.
  { intros C. apply cleanb_spec in C. congruence. }
  rewrite dirty_loses in H by assumption.
  exfalso. assert (s <> []) by (intros ->; discriminate).
  apply (removelast_length s); [assumption|]. rewrite H. reflexivity.
Qed.

(** * Several writes, each flushed on its own *)

Lemma dec_rfc_state s : bytes s -> forall p, pos (snd (dec (rfc_encode s) (St 0 p))) = 0.
Proof.
  induction s as [|a|a b|a b c r IH] using triple_ind; intros HB p; cbn [rfc_encode].
  - reflexivity.
  - apply Forall_inv in HB. cbv beta in HB. cbn [dec]. rewrite !in_step_digit by lia.
    rewrite !in_step_pad. cbn [pos prev]. reflexivity.
  - pose proof (Forall_inv HB) as Ha. pose proof (Forall_inv (Forall_inv_tail HB)) as Hb.
    cbv beta in Ha, Hb. cbn [dec]. rewrite !in_step_digit by lia.
    rewrite !in_step_pad. cbn [pos prev]. reflexivity.
  - pose proof (Forall_inv HB) as Ha. apply Forall_inv_tail in HB.
    pose proof (Forall_inv HB) as Hb. apply Forall_inv_tail in HB.
    pose proof (Forall_inv HB) as Hc. apply Forall_inv_tail in HB.
    rewrite dec_group by assumption. specialize (IH HB (c mod 64)).
    destruct (dec (rfc_encode r) (St 0 (c mod 64))) as [o s]. exact IH.
Qed.

Lemma writes_roundtrip ws :
  Forall (fun w => bytes w /\ ends_cleanly w) ws ->
  decode (concat (map encode ws)) = concat ws.
Proof.
  intros H. rewrite decode_dec. unfold st64_init. generalize 0 at 2 as p.
  induction H as [|w ws [HB HC] HF IH]; intros p; cbn [map concat]; [reflexivity|].
  rewrite encode_rfc by assumption. rewrite dec_app.
  pose proof (dec_rfc w HB p) as H1. pose proof (dec_rfc_state w HB p) as H2.
  destruct (dec (rfc_encode w) (St 0 p)) as [o [ps pv]]. cbn in H1, H2. subst o ps.
  specialize (IH pv). destruct (dec _ (St 0 pv)) as [o2 s2]. cbn in *. subst o2.
  reflexivity.
Qed.

(** What a call of the decoder reports. *)
Lemma in_step_one : forall s b, (length (fst (in_step s b)) <= 1)%nat.
Proof.
  intros s b. unfold in_step. destruct (charset_find b); [|cbn; lia]. cbn [fst].
  destruct (pos s =? 0); [cbn; lia|]. destruct (pos s =? 1); [cbn; lia|]. destruct (pos s =? 2); cbn; lia.
Qed.
Lemma in_loop_used : forall input s cap o s' r, in_loop input s cap = (o, s', r) ->
  (exists used, input = used ++ r) /\ (length o <= cap)%nat /\ (r <> [] -> length o = cap).
Proof.
  induction input as [|b input IH]; intros s cap o s' r H; cbn [in_loop] in H.
  - injection H as <- <- <-. split; [exists []; reflexivity|]. split; [cbn; lia|contradiction].
  - destruct cap as [|cap].
    + injection H as <- <- <-. split; [exists []; reflexivity|]. split; reflexivity.
    + pose proof (in_step_one s b) as L. destruct (in_step s b) as [o1 s1]. cbn [fst] in L.
      destruct (in_loop input s1 (S cap - length o1)) as [[o2 s2] r2] eqn:E. injection H as <- <- <-.
      destruct (IH _ _ _ _ _ E) as ((used & U) & L2 & F). split; [exists (b :: used); rewrite U; reflexivity|].
      rewrite app_length. split; [lia|]. intros N. specialize (F N). lia.
Qed.
Lemma do_in_reports : forall s input cap o s' r res, do_in s input cap = (o, s', r, res) ->
  (exists used, input = used ++ r) /\ (length o <= cap)%nat /\ (res = CvtOk <-> r = []) /\ (res = CvtPartial -> length o = cap).
Proof.
  intros s input cap o s' r res H. unfold do_in in H. destruct (in_loop input s cap) as [[o1 s1] r1] eqn:E. injection H as <- <- <- <-.
  destruct (in_loop_used _ _ _ _ _ _ E) as (U & L & F). split; [exact U|]. split; [exact L|]. destruct r1 as [|x r1]; cbn [no_more].
  - split; [split; reflexivity|discriminate].
  - split; [split; discriminate|]. intros _. apply F. discriminate.
Qed.
