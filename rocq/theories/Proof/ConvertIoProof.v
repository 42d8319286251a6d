(** Reading through the converting stream buffer. *)
From Coq Require Import Lia.
From Verif.Model Require Import Base Convert Base64 ConvertIo.
From Verif.Spec Require Import Utf8Spec ConvertIoSpec.
From Verif.Proof Require Import Tac ConvertProof.

(** * The vector *)

Lemma write_at_split p d t o : (length o <= length t)%nat ->
  write_at (p ++ d ++ t) (length p + length d) o = p ++ (d ++ o) ++ skipn (length o) t.
Proof.
  intros H. unfold write_at.
  replace (p ++ d ++ t) with ((p ++ d) ++ t) by (symmetry; apply app_assoc).
  rewrite <- app_length. rewrite firstn_app, firstn_all, Nat.sub_diag. cbn [firstn].
  rewrite app_nil_r. rewrite skipn_app. rewrite skipn_all2 by lia.
  replace (length (p ++ d) + length o - length (p ++ d))%nat with (length o) by lia.
  cbn [app]. rewrite <- !app_assoc. reflexivity.
Qed.

Lemma grow_in_length m : (0 < length m)%nat ->
  exists z, grow_in m = m ++ z /\ length (grow_in m) = (2 * length m + 4)%nat.
Proof.
  intros H. unfold grow_in. destruct (Nat.eqb_spec (length m) 0); [lia|].
  eexists. split; [reflexivity|]. rewrite app_length, repeat_length. unfold spare. lia.
Qed.

Lemma grow_in_first : length (grow_in []) = 1028%nat.
Proof. unfold grow_in. rewrite app_length, repeat_length. reflexivity. Qed.

Lemma memcpy_length m d s n m' : memcpy m d s n = Val m' -> length m' = length m.
Proof.
  unfold memcpy. destruct (Nat.eqb_spec n 0); [intros E; injection E as <-; reflexivity|].
  destruct (_ || _) eqn:B; [discriminate|].
  repeat (apply orb_false_elim in B; destruct B as [B ?]).
  destruct (d =? s); [intros E; injection E as <-; reflexivity|].
  destruct (Z.abs (d - s) <? Z.of_nat n); [discriminate|]. intros E. injection E as <-.
  rewrite !app_length, !firstn_length, !skipn_length. lia.
Qed.

Lemma memcpy_fuel m d s n : memcpy m d s n <> NoFuel.
Proof.
  unfold memcpy. destruct (Nat.eqb n 0); [discriminate|].
  destruct (_ || _); [discriminate|]. destruct (_ =? _); [discriminate|].
  destruct (_ <? _); discriminate.
Qed.

(** With one byte characters the last of what was read is kept before place 4. *)
Lemma memcpy_back junk back tail m' :
  (4 <= length junk + length back)%nat ->
  let pb := Nat.min (length back) 4 in
  memcpy (junk ++ back ++ tail) (Z.of_nat ((4 - pb) * 1))
    (Z.of_nat (length junk + length back) - Z.of_nat (pb * 1)) pb = Val m' ->
  exists pre rest, m' = pre ++ skipn (length back - pb) back ++ rest
    /\ length pre = (4 - pb)%nat.
Proof.
  intros H pb E. assert (Epb : (pb <= length back)%nat) by (unfold pb; lia).
  assert (Hpb : (pb <= 4)%nat) by (unfold pb; lia).
  set (m := junk ++ back ++ tail) in *.
  assert (Em : m = (junk ++ firstn (length back - pb) back)
                   ++ skipn (length back - pb) back ++ tail).
  { unfold m. rewrite <- (firstn_skipn (length back - pb) back) at 1.
    rewrite <- !app_assoc. reflexivity. }
  assert (L1 : length (skipn (length back - pb) back) = pb) by (rewrite skipn_length; lia).
  assert (L2 : length (junk ++ firstn (length back - pb) back)
               = (length junk + length back - pb)%nat)
    by (rewrite app_length, firstn_length; lia).
  unfold memcpy in E. destruct (Nat.eqb_spec pb 0) as [P|P].
  - injection E as <-. exists (firstn 4 m), (skipn 4 m).
    assert (length back = 0)%nat by (unfold pb in P; lia).
    destruct back; [|discriminate]. cbn [skipn]. rewrite skipn_nil. cbn [app].
    rewrite firstn_skipn. split; [reflexivity|].
    rewrite firstn_length. unfold m. rewrite !app_length. cbn [length] in *. lia.
  - destruct (_ || _) eqn:B; [discriminate|].
    repeat (apply orb_false_elim in B; destruct B as [B ?]).
    destruct (Z.eqb_spec (Z.of_nat ((4 - pb) * 1))
      (Z.of_nat (length junk + length back) - Z.of_nat (pb * 1))) as [Q|Q].
    + injection E as <-. eexists _, _. split; [exact Em|]. rewrite L2. lia.
    + match type of E with (if ?q then _ else _) = _ => destruct q; [discriminate|] end.
      injection E as <-.
      replace (Z.to_nat (Z.of_nat (length junk + length back) - Z.of_nat (pb * 1)))
        with (length junk + length back - pb)%nat by lia.
      assert (K : firstn pb (skipn (length junk + length back - pb) m)
                  = skipn (length back - pb) back).
      { rewrite <- L2, Em. rewrite skipn_app, skipn_all, Nat.sub_diag.
        cbn [skipn app]. rewrite <- L1 at 1. rewrite firstn_app, firstn_all, Nat.sub_diag.
        cbn [firstn]. apply app_nil_r. }
      rewrite K.
      eexists _, _. split; [reflexivity|]. rewrite firstn_length.
      assert (LM : (4 <= length m)%nat) by (unfold m; rewrite !app_length; lia).
      clear - Hpb LM. clearbody pb m. destruct pb as [|[|[|[|[|]]]]]; cbn [Nat.sub]; lia.
Qed.

(** * The conversion loop *)

Section Reading.
Context {T : Type} (c : codec T) (D : T -> str -> str -> T -> Prop) (L : decodes c D).

(** The converter never waits for more bytes. *)
Definition whole_bytes : Prop := forall s inp room o s1 rest v,
  cvt_in c s inp room = Val (o, s1, rest, v) -> (length o < room)%nat -> rest = [].

Lemma by_rest_more rest : rest <> [] -> by_rest rest = More.
Proof. destruct rest; [congruence|reflexivity]. Qed.

Lemma loop_lemma fuel : forall pre don tail s from next src text s',
  D s (skipn next from ++ src) text s' ->
  (next <= length from)%nat -> skipn next from <> [] -> (length from <= 1024)%nat ->
  (src <> [] -> length from = 1024%nat) ->
  length pre = 4%nat -> (4 <= length tail)%nat ->
  (2 * length text + length src + (if Nat.eqb (length tail) 4 then 1 else 0) < fuel)%nat ->
  exists tail' s1 text1 text2 src' res,
    convert_loop c fuel (pre ++ don ++ tail) s from next (length don) src
    = Val (pre ++ (don ++ text1) ++ tail', s1, length (don ++ text1), src', res, Converted)
    /\ text = text1 ++ text2 /\ D s1 src' text2 s' /\ (4 <= length tail')%nat
    /\ (length don + length tail <= length don + length text1 + length tail')%nat
    /\ (0 < res)%nat /\ text1 <> [] /\ (length src' <= length src)%nat
    /\ (whole_bytes -> src' = src).
Proof.
  induction fuel as [|fuel IH]; intros pre don tail s from next src text s' HD HN HE HF HS HP HT HM;
    [lia|].
  destruct (one_call c D L s (skipn next from) src text s' (length tail - 4) HD)
    as (used & rest & first & others & s1 & EC & EU & ET & HD1 & HR & HU & HFul).
  cbn [convert_loop].
  replace (length (pre ++ don ++ tail) - spare - (spare + length don))%nat
    with (length tail - 4)%nat by (rewrite !app_length; unfold spare; lia).
  rewrite EC. cbn [obind].
  replace (spare + length don)%nat with (length pre + length don)%nat by (unfold spare; lia).
  rewrite write_at_split by lia.
  assert (LT : length (skipn (length first) tail) = (length tail - length first)%nat)
    by apply skipn_length.
  assert (LU : (length from - next = length used + length rest)%nat).
  { rewrite <- app_length, <- EU, skipn_length. reflexivity. }
  destruct rest as [|x rest'].
  { cbn [by_rest]. exists (skipn (length first) tail), s1, first, others, src, (length from).
    rewrite app_length. split; [reflexivity|]. split; [exact ET|].
    rewrite ?app_length. cbn [app] in HD1.
    assert (first <> []).
    { intros Q. apply HU in Q. rewrite Q in EU. cbn [app] in EU. congruence. }
    repeat split; auto; try lia.
    destruct from; [rewrite skipn_nil in HE; congruence|cbn [length]; lia]. }
  rewrite by_rest_more by discriminate. set (rest := x :: rest') in *.
  assert (HRest : rest <> []) by (unfold rest; discriminate).
  assert (ER : skipn (length from - length rest) from = rest).
  { assert (E : from = (firstn next from ++ used) ++ rest)
      by (rewrite <- app_assoc, <- EU; symmetry; apply firstn_skipn).
    rewrite E at 2.
    replace (length from - length rest)%nat with (length (firstn next from ++ used)).
    - rewrite skipn_app, skipn_all, Nat.sub_diag. reflexivity.
    - rewrite app_length, firstn_length. lia. }
  destruct (Nat.eqb_spec (length first) (length tail - 4)) as [Full|Short].
  - (* the buffer is full *)
    set (m := pre ++ (don ++ first) ++ skipn (length first) tail).
    destruct (grow_in_length m) as (z & Ez & Lz).
    { unfold m. rewrite app_length. lia. }
    assert (Lm : length m = (4 + length don + length tail)%nat)
      by (unfold m; rewrite !app_length; lia).
    assert (LZ : (4 < length (skipn (length first) tail ++ z))%nat).
    { rewrite Ez in Lz. rewrite app_length in *. lia. }
    assert (Em : grow_in m = pre ++ (don ++ first) ++ (skipn (length first) tail ++ z))
      by (rewrite Ez; unfold m; rewrite <- !app_assoc; reflexivity).
    rewrite Em. rewrite <- app_length.
    destruct (IH pre (don ++ first) (skipn (length first) tail ++ z) s1 from
                (length from - length rest)%nat src others s')
      as (tail' & s2 & t1 & t2 & src' & res & E & E1 & E2 & E3 & E4 & E5 & E6 & E7 & E8).
    { rewrite ER. exact HD1. }
    { lia. } { rewrite ER. exact HRest. } { exact HF. } { exact HS. } { exact HP. } { lia. }
    { subst text. rewrite app_length in HM.
      destruct (Nat.eqb_spec (length (skipn (length first) tail ++ z)) 4); [lia|].
      destruct (Nat.eqb_spec (length tail) 4); lia. }
    exists tail', s2, (first ++ t1), t2, src', res.
    rewrite E. replace ((don ++ first) ++ t1) with (don ++ first ++ t1) by apply app_assoc.
    split; [reflexivity|]. split; [subst; rewrite <- ?app_assoc; reflexivity|].
    rewrite !app_length in *. repeat split; auto; try lia.
    destruct first; [exact E6|discriminate].
  - (* the bytes end within a character *)
    destruct HFul as [HSh HMore]; [lia|].
    assert (HSrc : src <> []) by (intros Q; apply HRest, HMore, Q).
    specialize (HS HSrc).
    destruct (Nat.eqb_spec (length from - length rest) 0); [lia|]. cbn [negb andb].
    destruct (Nat.ltb_spec (length from - length rest) (length rest)); [lia|].
    assert (Hgot : firstn (block - length rest) src <> []).
    { unfold block. destruct src; [congruence|].
      destruct (1024 - length rest)%nat eqn:Q; [lia|]. discriminate. }
    set (got := firstn (block - length rest) src) in *.
    assert (LG : (length got <= 1024 - length rest)%nat)
      by (unfold got; rewrite firstn_length; unfold block; lia).
    destruct got as [|y got'] eqn:EG; [congruence|]. rewrite <- EG in *.
    assert (ES : src = got ++ skipn (block - length rest) src)
      by (rewrite <- (firstn_skipn (block - length rest) src) at 1; rewrite EG; fold got; congruence).
    rewrite <- app_length.
    assert (LG1 : (0 < length got)%nat) by (rewrite EG; cbn [length]; lia).
    destruct (IH pre (don ++ first) (skipn (length first) tail) s1 (rest ++ got) O
                (skipn (block - length rest) src) others s')
      as (tail' & s2 & t1 & t2 & src' & res & E & E1 & E2 & E3 & E4 & E5 & E6 & E7 & E8).
    { cbn [skipn]. rewrite <- app_assoc, <- ES. exact HD1. }
    { lia. } { cbn [skipn]. destruct rest; [congruence|discriminate]. }
    { rewrite app_length. lia. }
    { intros Q. rewrite app_length.
      assert (length got = 1024 - length rest)%nat; [|lia].
      assert (Q2 : (length (skipn (block - length rest) src) <> 0)%nat)
        by (destruct (skipn (block - length rest) src); [congruence|discriminate]).
      rewrite skipn_length in Q2. rewrite EG. fold got.
      replace (length (y :: got')) with (length got) by (rewrite EG; reflexivity).
      assert (LL : length src = (length got + length (skipn (block - length rest) src))%nat)
        by (rewrite ES at 1; apply app_length).
      rewrite skipn_length in LL. unfold block in *. lia. }
    { exact HP. } { lia. }
    { subst text. rewrite app_length in HM.
      assert (LL : length src = (length got + length (skipn (block - length rest) src))%nat)
        by (rewrite ES at 1; apply app_length).
      destruct (Nat.eqb_spec (length (skipn (length first) tail)) 4); [lia|].
      destruct (Nat.eqb_spec (length tail) 4); lia. }
    exists tail', s2, (first ++ t1), t2, src', res.
    rewrite E. replace ((don ++ first) ++ t1) with (don ++ first ++ t1) by apply app_assoc.
    split; [reflexivity|]. split; [subst; rewrite <- ?app_assoc; reflexivity|].
    rewrite !app_length in *. rewrite skipn_length in E7.
    repeat split; auto; try lia.
    { destruct first; [exact E6|discriminate]. }
    intros W. exfalso. apply HRest. apply (W _ _ _ _ _ _ _ EC). lia.
Qed.

(** * readIn *)

(** What readIn does after the memcpy. *)
Definition fill (r : reader T) (m1 : list Z) (pb : nat) : outcome (reader T * nat) :=
  let from := if ended r then [] else firstn block (source r) in
  let src := if ended r then source r else skipn block (source r) in
  let eof := if ended r then true else match src with [] => true | _ => false end in
  match from with
  | [] => Val (Reader m1 (At (spare - pb) spare spare) (in_state r) eof src, O)
  | _ =>
      obind (convert_loop c (turns from src) m1 (in_state r) from O O src)
        (fun '(m2, s2, converted, src2, res, answer) =>
      match answer with
      | Failed =>
          Val (Reader m2
                 (if Nat.eqb (length m2) (length (area r)) then places r
                  else match places r with Null => Null | _ => Dangling end)
                 s2 eof src2, O)
      | _ => Val (Reader m2 (At (spare - pb) spare (spare + converted)) s2 eof src2, res)
      end)
  end.

Lemma read_in_new s src size :
  read_in c size (fresh s src) = fill (fresh s src) (grow_in []) 0.
Proof. reflexivity. Qed.

Lemma read_in_at size m e g x s fin src : m <> [] ->
  read_in c size (Reader m (At e g x) s fin src)
  = obind (memcpy m (Z.of_nat ((4 - Nat.min (g - e) 4) * size))
             (Z.of_nat g - Z.of_nat (Nat.min (g - e) 4 * size)) (Nat.min (g - e) 4))
      (fun m1 => fill (Reader m (At e g x) s fin src) m1 (Nat.min (g - e) 4)).
Proof. intros H. destruct m; [congruence|]. reflexivity. Qed.

Lemma fill_lemma r pre tail pb later s' :
  length pre = 4%nat -> (4 <= length tail)%nat ->
  D (in_state r) (source r) later s' -> (ended r = true -> source r = []) ->
  exists front tail' s1 fin src' later' n,
    fill r (pre ++ tail) pb
    = Val (Reader (pre ++ front ++ tail') (At (4 - pb) 4 (4 + length front)) s1 fin src', n)
    /\ later = front ++ later' /\ D s1 src' later' s' /\ (fin = true -> src' = [])
    /\ (4 <= length tail')%nat
    /\ (n = O -> later = []) /\ (n <> O -> front <> [])
    /\ ((length (source r) <= 1024)%nat -> src' = [])
    /\ (whole_bytes -> src' = skipn 1024 (source r)).
Proof.
  intros HP HT HD HF. unfold fill.
  destruct (ended r) eqn:EE.
  { rewrite (HF eq_refl) in *. exists [], tail, (in_state r), true, [], later, O.
    cbn [app length]. pose proof (no_bytes c D L _ _ _ HD) as ->.
    repeat split; auto; congruence. }
  destruct (source r) as [|x src0] eqn:ES.
  { cbn [firstn skipn block]. exists [], tail, (in_state r), true, [], later, O.
    cbn [app length]. pose proof (no_bytes c D L _ _ _ HD) as ->.
    repeat split; auto; try congruence. }
  rewrite <- ES in *.
  set (from := firstn block (source r)). set (src := skipn block (source r)).
  assert (ESp : source r = from ++ src) by (symmetry; apply firstn_skipn).
  assert (HFr : from <> []) by (unfold from; rewrite ES; discriminate).
  assert (LF : (length from <= 1024)%nat) by (unfold from; rewrite firstn_length; unfold block; lia).
  assert (HS : src <> [] -> length from = 1024%nat).
  { intros Q. assert (length src <> 0)%nat by (destruct src; [congruence|discriminate]).
    unfold src in H. rewrite skipn_length in H. unfold from. rewrite firstn_length.
    unfold block in *. lia. }
  rewrite ESp in HD. pose proof (no_longer c D L _ _ _ _ HD) as LL.
  rewrite app_length in LL.
  destruct (loop_lemma (turns from src) pre [] tail (in_state r) from O src later s' HD)
    as (tail' & s1 & t1 & t2 & src' & res & E & E1 & E2 & E3 & E4 & E5 & E6 & E7 & E8); auto.
  { lia. }
  { unfold turns. destruct (Nat.eqb (length tail) 4); lia. }
  cbn [app length] in E. rewrite E. cbn [obind].
  destruct from as [|y from'] eqn:EF; [congruence|].
  exists t1, tail', s1, (match src with [] => true | _ => false end), src', t2, res.
  split; [reflexivity|]. split; [exact E1|]. split; [exact E2|].
  split. { destruct src; [|discriminate]. intros _. destruct src'; [reflexivity|].
           cbn [length] in E7. lia. }
  split; [exact E3|]. split; [lia|]. split; [auto|]. split; [|exact E8].
  intros Q. assert (QS : src = []) by (apply length_zero_iff_nil; unfold src;
    rewrite skipn_length; unfold block; lia).
  rewrite QS in E7. destruct src'; [reflexivity|]. cbn [length] in E7. lia.
Qed.

(** * The reader holds the place *)

Inductive holds (size : nat) : reader T -> place -> T -> Prop :=
| holds_new : forall s src text s', D s src text s' ->
    holds size (fresh s src) ([], text) s'
| holds_at : forall junk back front tail s fin src behind later s',
    D s src later s' -> (fin = true -> src = []) -> (4 <= length tail)%nat ->
    (4 <= length junk + length back + length front)%nat ->
    (size = 1%nat -> exists older, behind = rev back ++ older) ->
    holds size
      (Reader (junk ++ back ++ front ++ tail)
         (At (length junk) (length junk + length back)
             (length junk + length back + length front)) s fin src)
      (behind, front ++ later) s'.

Lemma ready_at m e b f s fin src :
  ready (Reader m (At e b (b + f)) s fin src : reader T) = negb (Nat.eqb f 0).
Proof.
  unfold ready. cbn [places]. destruct (Nat.ltb_spec b (b + f)), (Nat.eqb_spec f 0); cbn; lia.
Qed.

Lemma holds_make size m e s fin src pre front tail' behind later s' pb :
  m = pre ++ front ++ tail' -> length pre = 4%nat -> (pb <= 4)%nat -> e = (4 - pb)%nat ->
  D s src later s' -> (fin = true -> src = []) -> (4 <= length tail')%nat ->
  (size = 1%nat -> exists older, behind = rev (skipn (4 - pb) pre) ++ older) ->
  holds size (Reader m (At e 4 (4 + length front)) s fin src) (behind, front ++ later) s'.
Proof.
  intros -> HP HB -> HD HF HT HO.
  pose proof (holds_at size (firstn (4 - pb) pre) (skipn (4 - pb) pre) front tail' s fin src
                behind later s' HD HF HT) as K.
  assert (L1 : length (firstn (4 - pb) pre) = (4 - pb)%nat) by (rewrite firstn_length; lia).
  assert (L2 : length (skipn (4 - pb) pre) = pb) by (rewrite skipn_length; lia).
  rewrite L1, L2 in K. rewrite (app_assoc (firstn _ _)), firstn_skipn in K.
  replace (4 - pb + pb)%nat with 4%nat in K by lia. apply K; [lia|exact HO].
Qed.

(** How far back one can go. *)
Definition room_back (r : reader T) : nat :=
  match places r with At e g _ => (g - e)%nat | _ => O end.

Lemma refill size r b a s' : holds size r (b, a) s' -> ready r = false ->
  read_in c size r = UB \/
  exists r' n, read_in c size r = Val (r', n) /\ holds size r' (b, a) s'
    /\ (n = O -> a = []) /\ (n <> O -> ready r' = true)
    /\ room_back r' = Nat.min (room_back r) 4.
Proof.
  intros H HR. remember (b, a) as p eqn:Ep.
  destruct H as [s src text s' HD|junk back front tail s fin src behind later s' HD HF HT H4 HO];
    injection Ep as <- <-.
  - right. rewrite read_in_new.
    destruct (fill_lemma (fresh s src) (firstn 4 (grow_in [])) (skipn 4 (grow_in [])) 0 text s')
      as (front & tail' & s1 & fin & src' & later' & n & E & E1 & E2 & E3 & E4 & E5 & E6 & E7 & E8).
    { rewrite firstn_length, grow_in_first. reflexivity. }
    { rewrite skipn_length, grow_in_first. lia. }
    { exact HD. } { discriminate. }
    rewrite firstn_skipn in E. eexists _, n. split; [exact E|].
    split. { rewrite E1. eapply holds_make with (pb := O); try reflexivity; auto; try lia.
             rewrite skipn_all2 by (rewrite firstn_length, grow_in_first; cbn; lia).
             cbn. eauto. }
    split; [exact E5|]. split; [|reflexivity]. intros Q. rewrite ready_at.
    destruct front; [exfalso; apply (E6 Q); reflexivity|reflexivity].
  - rewrite ready_at in HR. apply negb_false_iff, Nat.eqb_eq in HR.
    destruct front; [|discriminate]. cbn [app length] in *. rewrite Nat.add_0_r in *.
    rewrite read_in_at.
    2:{ intros Q. apply (f_equal (@length Z)) in Q. rewrite !app_length in Q. cbn in Q. lia. }
    replace (length junk + length back - length junk)%nat with (length back) by lia.
    set (pb := Nat.min (length back) 4). assert (HB : (pb <= 4)%nat) by (unfold pb; lia).
    destruct (memcpy _ _ _ _) as [m1| |] eqn:EM; [|left; reflexivity|].
    2:{ exfalso. eapply memcpy_fuel. exact EM. }
    right. cbn [obind].
    assert (LM : length m1 = (length junk + (length back + length tail))%nat)
      by (rewrite (memcpy_length _ _ _ _ _ EM), !app_length; reflexivity).
    destruct (fill_lemma
                (Reader (junk ++ back ++ tail)
                   (At (length junk) (length junk + length back) (length junk + length back)) s fin src)
                (firstn 4 m1) (skipn 4 m1) pb later s')
      as (front & tail' & s1 & fin1 & src' & later' & n & E & E1 & E2 & E3 & E4 & E5 & E6 & E7 & E8).
    { rewrite firstn_length. lia. } { rewrite skipn_length. lia. } { exact HD. } { exact HF. }
    rewrite firstn_skipn in E. eexists _, n. split; [exact E|].
    split.
    { rewrite E1. eapply holds_make with (pb := pb); try reflexivity; auto.
      { rewrite firstn_length. lia. }
      intros Q. rewrite Q in EM. destruct (HO Q) as [older ->].
      apply memcpy_back in EM; [|lia]. destruct EM as (pre & rest & -> & LP). fold pb in LP.
      assert (LS : length (skipn (length back - pb) back) = pb)
        by (rewrite skipn_length; unfold pb; lia).
      fold pb. rewrite firstn_app. rewrite LP.
      replace (4 - (4 - pb))%nat with pb by lia.
      rewrite skipn_app. rewrite skipn_all2 by (rewrite firstn_length; lia). cbn [app].
      rewrite firstn_length, LP. replace (Nat.min 4 (4 - pb)) with (4 - pb)%nat by lia.
      rewrite Nat.sub_diag. cbn [skipn].
      rewrite firstn_app, LS, Nat.sub_diag. cbn [firstn]. rewrite app_nil_r.
      rewrite firstn_all2 by lia.
      exists (rev (firstn (length back - pb) back) ++ older).
      rewrite app_assoc, <- rev_app_distr, firstn_skipn. reflexivity. }
    split; [exact E5|]. split.
    { intros Q. rewrite ready_at.
      destruct front; [exfalso; apply (E6 Q); reflexivity|reflexivity]. }
    unfold room_back. cbn [places]. fold pb.
    replace (length junk + length back - length junk)%nat with (length back) by lia.
    fold pb. lia.
Qed.

Lemma nth_mid {A} (l : list A) x r : nth_error (l ++ x :: r) (length l) = Some x.
Proof. rewrite nth_error_app2, Nat.sub_diag by lia. reflexivity. Qed.

(** What is there when the reader is ready. *)
Lemma ready_shape size r b a s' : holds size r (b, a) s' -> ready r = true ->
  exists junk back x front tail s fin src later,
    r = Reader (junk ++ back ++ (x :: front) ++ tail)
          (At (length junk) (length junk + length back)
              (length junk + length back + length (x :: front))) s fin src
    /\ a = x :: front ++ later
    /\ at_gptr r = Val x
    /\ holds size (bump r) (x :: b, front ++ later) s'
    /\ room_back (bump r) = (room_back r + 1)%nat.
Proof.
  intros H HR. remember (b, a) as p eqn:Ep.
  destruct H as [s src text s' HD|junk back front tail s fin src behind later s' HD HF HT H4 HO];
    injection Ep as <- <-; [discriminate|].
  rewrite ready_at in HR. destruct front as [|x front]; [discriminate|].
  exists junk, back, x, front, tail, s, fin, src, later.
  split; [reflexivity|]. split; [reflexivity|]. split.
  - unfold at_gptr. cbn [places area]. rewrite app_assoc, <- app_length. cbn [app].
    rewrite nth_mid. reflexivity.
  - split; [|unfold room_back, bump; cbn [places]; lia].
    unfold bump. cbn [places area in_state ended source].
    replace (junk ++ back ++ (x :: front) ++ tail) with (junk ++ (back ++ [x]) ++ front ++ tail)
      by (rewrite <- !app_assoc; reflexivity).
    replace (length junk + length back + 1)%nat with (length junk + length (back ++ [x]))%nat
      by (rewrite app_length; cbn [length]; lia).
    replace (length junk + length back + length (x :: front))%nat
      with (length junk + length (back ++ [x]) + length front)%nat
      by (rewrite app_length; cbn [length]; lia).
    apply holds_at; auto.
    + rewrite app_length. cbn [length] in *. lia.
    + intros Q. destruct (HO Q) as [older ->]. exists older. rewrite rev_unit. reflexivity.
Qed.

Lemma underflow_lemma size r b a s' : holds size r (b, a) s' ->
  underflow c size r = UB \/
  exists r', holds size r' (b, a) s' /\ (Nat.min (room_back r) 4 <= room_back r')%nat /\
    ((a = [] /\ underflow c size r = Val (r', None))
     \/ exists x a', a = x :: a' /\ ready r' = true /\ underflow c size r = Val (r', Some x)
                     /\ holds size (bump r') (x :: b, a') s'
                     /\ room_back (bump r') = (room_back r' + 1)%nat).
Proof.
  intros H. destruct (ready r) eqn:HR.
  - right. exists r. split; [exact H|]. split; [lia|]. right.
    destruct (ready_shape size r b a s' H HR)
      as (junk & back & x & front & tail & s & fin & src & later & E1 & E2 & E3 & E4 & E5).
    exists x, (front ++ later). split; [exact E2|]. split; [exact HR|]. split; [|split; [exact E4|exact E5]].
    unfold underflow. rewrite HR, E3. rewrite E1. reflexivity.
  - destruct (refill size r b a s' H HR) as [U|(r' & n & E & H1 & H2 & H3 & H4)].
    + left. unfold underflow. rewrite HR, U.
      destruct H; reflexivity.
    + right. exists r'. split; [exact H1|]. split; [lia|].
      assert (EU : underflow c size r =
                   if Nat.eqb n 0 then Val (r', None)
                   else obind (at_gptr r') (fun ch => Val (r', Some ch))).
      { unfold underflow. rewrite HR, E. destruct H; reflexivity. }
      destruct (Nat.eqb_spec n 0) as [N|N].
      * left. split; [apply H2, N|exact EU].
      * right. destruct (ready_shape size r' b a s' H1 (H3 N))
          as (junk & back & x & front & tail & s & fin & src & later & E1 & E2 & E3 & E4 & E5).
        exists x, (front ++ later). split; [exact E2|]. split; [apply H3, N|].
        split; [|split; [exact E4|exact E5]]. rewrite EU, E3. reflexivity.
Qed.

Lemma write_before junk back y rest d :
  write_at (junk ++ (back ++ [y]) ++ rest) (length junk + length (back ++ [y]) - 1) [d]
  = junk ++ back ++ d :: rest.
Proof.
  replace (length junk + length (back ++ [y]) - 1)%nat with (length junk + length back)%nat
    by (rewrite app_length; cbn [length]; lia).
  rewrite <- app_assoc. cbn [app].
  rewrite write_at_split by (cbn [length]; lia). cbn [length skipn].
  rewrite <- app_assoc. reflexivity.
Qed.

Lemma unget_lemma ch r b a s' n : holds 1 r (b, a) s' -> (n <= room_back r)%nat ->
  exists r' ans p' n', unget ch r = Val (r', ans)
    /\ moves (b, a) n (match ch with None => Unget | Some d => Putback d end) ans p' n'
    /\ holds 1 r' p' s' /\ (n' <= room_back r')%nat /\ (n' <= n)%nat.
Proof.
  intros H HN. pose proof H as H0. remember (b, a) as p eqn:Ep.
  assert (REF : moves p 0 (match ch with None => Unget | Some d => Putback d end) None p 0)
    by (apply refuses; destruct ch; eauto).
  destruct H as [s src text s' HD|junk back front tail s fin src behind later s' HD HF HT H4 HO].
  - cbn in HN. replace n with O by lia.
    eexists _, None, _, O. split; [reflexivity|]. split; [exact REF|]. split; [exact H0|]. lia.
  - destruct back as [|y back] using rev_ind.
    { unfold room_back in HN. cbn [places length] in HN. replace n with O by lia.
      eexists _, None, _, O. split; [|split; [exact REF|split; [exact H0|lia]]].
      unfold unget. cbn [places length]. rewrite Nat.add_0_r, Nat.eqb_refl. reflexivity. }
    clear IHback. destruct (HO eq_refl) as [older EB]. rewrite rev_unit in EB.
    set (v := match ch with None => y | Some d => d end).
    set (m := junk ++ back ++ (v :: front) ++ tail).
    assert (EM : match ch with
                 | None => junk ++ (back ++ [y]) ++ front ++ tail
                 | Some ch0 => write_at (junk ++ (back ++ [y]) ++ front ++ tail)
                                 (length junk + length (back ++ [y]) - 1) [ch0]
                 end = m).
    { unfold m, v. destruct ch as [d|].
      - rewrite write_before. reflexivity.
      - rewrite <- app_assoc. reflexivity. }
    assert (EG : (length junk + length (back ++ [y]) - 1 = length junk + length back)%nat)
      by (rewrite app_length; cbn [length]; lia).
    assert (EX : (length junk + length (back ++ [y]) + length front
                  = length junk + length back + length (v :: front))%nat)
      by (rewrite app_length; cbn [length]; lia).
    exists (Reader m (At (length junk) (length junk + length back)
              (length junk + length back + length (v :: front))) s fin src), (Some v),
           (rev back ++ older, v :: front ++ later), (n - 1)%nat.
    split.
    { unfold unget. cbn [places area in_state ended source].
      destruct (Nat.eqb_spec (length junk + length (back ++ [y])) (length junk)) as [Q|_].
      { rewrite app_length in Q. cbn [length] in Q. lia. }
      rewrite EM, EG, EX. unfold at_gptr. cbn [places area]. unfold m.
      rewrite app_assoc, <- app_length. cbn [app]. rewrite nth_mid. reflexivity. }
    split.
    { rewrite EB. unfold v. destruct ch; constructor. }
    split; [|unfold room_back in *; cbn [places] in *; lia].
    pose proof (holds_at 1 junk back (v :: front) tail s fin src (rev back ++ older) later s'
                  HD HF HT) as K.
    apply K; [cbn [length]; rewrite app_length in H4; cbn [length] in H4; lia|eauto].
Qed.

Lemma step_lemma size op r p s' n : holds size r p s' -> (size = 1%nat \/ forward op) ->
  (n <= room_back r)%nat -> (n <= 4)%nat ->
  read_step c size op r = UB \/
  exists r' a p' n', read_step c size op r = Val (r', a) /\ moves p n op a p' n'
    /\ holds size r' p' s' /\ (n' <= room_back r')%nat /\ (n' <= 4)%nat.
Proof.
  intros H HS HN H4. destruct p as [b a].
  destruct op as [| | |d]; cbn [read_step].
  - unfold get. destruct (underflow_lemma size r b a s' H)
      as [->|(r' & H1 & RB & [[-> E]|(x & a' & -> & E1 & E2 & E3 & E4)])];
      [left; reflexivity| |]; right.
    + rewrite E. eexists _, _, _, n. split; [reflexivity|]. split; [constructor|].
      split; [exact H1|lia].
    + rewrite E2. eexists _, _, _, _. split; [reflexivity|]. split; [constructor|].
      split; [exact E3|lia].
  - destruct (underflow_lemma size r b a s' H)
      as [->|(r' & H1 & RB & [[-> E]|(x & a' & -> & E1 & E2 & E3 & E4)])];
      [left; reflexivity| |]; right.
    + rewrite E. eexists _, _, _, n. split; [reflexivity|]. split; [constructor|].
      split; [exact H1|lia].
    + rewrite E2. eexists _, _, _, n. split; [reflexivity|]. split; [constructor|].
      split; [exact H1|lia].
  - destruct HS as [->|[Q|Q]]; [|discriminate|discriminate]. right.
    destruct (unget_lemma None r b a s' n H HN) as (r' & ans & p' & n' & E1 & E2 & E3 & E4 & E5).
    exists r', ans, p', n'. repeat split; auto. lia.
  - destruct HS as [->|[Q|Q]]; [|discriminate|discriminate]. right.
    destruct (unget_lemma (Some d) r b a s' n H HN) as (r' & ans & p' & n' & E1 & E2 & E3 & E4 & E5).
    exists r', ans, p', n'. repeat split; auto. lia.
Qed.

Lemma run_lemma size s' ops : (size = 1%nat \/ Forall forward ops) -> forall r p n,
  holds size r p s' -> (n <= room_back r)%nat -> (n <= 4)%nat ->
  read_run c size ops r = UB \/
  exists r' l p', read_run c size ops r = Val (r', l) /\ travels p n ops l p'.
Proof.
  induction ops as [|op ops IH]; intros HS r p n H HN H4; cbn [read_run].
  - right. eexists _, _, _. split; [reflexivity|]. constructor.
  - destruct (step_lemma size op r p s' n H) as [->|(r1 & a & p1 & n1 & -> & M & H1 & H2 & H3)];
      [destruct HS as [HS|HS]; [auto|inversion HS; auto]|exact HN|exact H4|left; reflexivity|].
    cbn [obind].
    destruct (IH ltac:(destruct HS as [HS|HS]; [auto|inversion HS; auto]) r1 p1 n1 H1 H2 H3)
      as [->|(r2 & l & p2 & -> & M2)]; [left; reflexivity|].
    right. cbn [obind]. eexists _, _, _. split; [reflexivity|].
    econstructor; eauto.
Qed.

(** * When no memcpy goes wrong *)

(** One byte is one character. *)
Definition exact_bytes : Prop :=
  whole_bytes /\ forall s bytes text s', D s bytes text s' -> length text = length bytes.

(** A last block of one, two or three bytes is the dangerous one. *)
Definition good (n : nat) : Prop := (n mod 1024 = 0 \/ 4 <= n mod 1024)%nat.

Definition safe (r : reader T) : Prop :=
  match places r with
  | Null => (length (source r) <= 1024)%nat \/ (exact_bytes /\ good (length (source r)))
  | At e g x => (x = 4 \/ 8 <= x \/ e = 4)%nat
                /\ (source r = [] \/ (exact_bytes /\ good (length (source r))))
  | Dangling => False
  end.

Lemma memcpy_narrow (m : list Z) g pb : (4 <= g <= length m)%nat -> (pb <= g)%nat ->
  (pb <= 4)%nat -> (g = 4 \/ pb <= g - 4)%nat ->
  memcpy m (Z.of_nat ((4 - pb) * 1)) (Z.of_nat g - Z.of_nat (pb * 1)) pb <> UB.
Proof.
  intros H1 H2 H3 H4. unfold memcpy. destruct (Nat.eqb_spec pb 0); [discriminate|].
  assert (B : ((Z.of_nat ((4 - pb) * 1) <? 0)
    || (Z.of_nat g - Z.of_nat (pb * 1) <? 0)
    || (Z.of_nat (length m) <? Z.of_nat ((4 - pb) * 1) + Z.of_nat pb)
    || (Z.of_nat (length m) <? Z.of_nat g - Z.of_nat (pb * 1) + Z.of_nat pb)) = false) by lia.
  rewrite B. destruct (Z.eqb_spec (Z.of_nat ((4 - pb) * 1)) (Z.of_nat g - Z.of_nat (pb * 1)));
    [discriminate|].
  destruct (Z.ltb_spec (Z.abs (Z.of_nat ((4 - pb) * 1) - (Z.of_nat g - Z.of_nat (pb * 1))))
    (Z.of_nat pb)); [|discriminate]. lia.
Qed.

Lemma good_next n : good n -> (1024 < n)%nat -> good (n - 1024).
Proof.
  unfold good. intros H HL. replace n with ((n - 1024) + 1 * 1024)%nat in H by lia.
  rewrite Nat.mod_add in H by lia. exact H.
Qed.

Lemma good_block n : good n -> (0 < n)%nat -> (4 <= Nat.min 1024 n)%nat.
Proof.
  unfold good. intros H HL. destruct (Nat.le_gt_cases 1024 n); [lia|].
  rewrite Nat.mod_small in H by lia. lia.
Qed.

Lemma fill_safe r pre tail pb later s' e :
  length pre = 4%nat -> (4 <= length tail)%nat -> e = (4 - pb)%nat ->
  D (in_state r) (source r) later s' -> (ended r = true -> source r = []) ->
  ((length (source r) <= 1024)%nat /\ pb = O) \/ source r = []
    \/ (exact_bytes /\ good (length (source r))) ->
  exists r' n, fill r (pre ++ tail) pb = Val (r', n) /\ safe r'.
Proof.
  intros HP HT -> HD HF HS.
  destruct (fill_lemma r pre tail pb later s' HP HT HD HF)
    as (front & tail' & s1 & fin & src' & later' & n & E & E1 & E2 & E3 & E4 & E5 & E6 & E7 & E8).
  eexists _, n. split; [exact E|]. unfold safe. cbn [places source].
  destruct HS as [[H1 ->]|[H1|[[W X] G]]].
  - split; [right; right; reflexivity|]. left. apply E7, H1.
  - rewrite H1 in *. pose proof (no_bytes c D L _ _ _ HD) as ->.
    destruct front; [|discriminate]. split; [left; reflexivity|]. left. apply E7. cbn. lia.
  - rewrite (E8 W). pose proof (X _ _ _ _ HD) as X1. pose proof (X _ _ _ _ E2) as X2.
    rewrite E1, app_length, X2, (E8 W), skipn_length in X1.
    destruct (Nat.le_gt_cases (length (source r)) 1024) as [Q|Q].
    + assert (Q0 : skipn 1024 (source r) = []) by (apply skipn_all2; lia). rewrite Q0.
      split; [|left; reflexivity].
      destruct (Nat.eq_dec (length (source r)) 0); [left; lia|].
      pose proof (good_block _ G). right; left. lia.
    + split; [right; left; lia|]. right. rewrite skipn_length.
      split; [split; [exact W|exact X]|]. apply good_next; assumption.
Qed.

Lemma refill_safe r b a s' : holds 1 r (b, a) s' -> ready r = false -> safe r ->
  exists r' n, read_in c 1 r = Val (r', n) /\ safe r'.
Proof.
  intros H HR HS. remember (b, a) as p eqn:Ep.
  destruct H as [s src text s' HD|junk back front tail s fin src behind later s' HD HF HT H4 HO].
  - rewrite read_in_new. rewrite <- (firstn_skipn 4 (grow_in [])).
    eapply fill_safe with (later := text) (s' := s') (e := 4%nat); try reflexivity.
    + rewrite skipn_length, grow_in_first. lia.
    + exact HD.
    + discriminate.
    + unfold safe in HS. cbn in HS. cbn [source]. destruct HS; auto.
  - rewrite ready_at in HR. apply negb_false_iff, Nat.eqb_eq in HR.
    destruct front; [|discriminate]. cbn [app length] in *. rewrite Nat.add_0_r in *.
    unfold safe in HS. cbn [places source] in HS. destruct HS as [HS1 HS2].
    rewrite read_in_at.
    2:{ intros Q. apply (f_equal (@length Z)) in Q. rewrite !app_length in Q. cbn in Q. lia. }
    replace (length junk + length back - length junk)%nat with (length back) by lia.
    set (pb := Nat.min (length back) 4). assert (HB : (pb <= 4)%nat) by (unfold pb; lia).
    destruct (memcpy _ _ _ _) as [m1| |] eqn:EM.
    + cbn [obind].
      assert (LM : length m1 = (length junk + (length back + length tail))%nat)
        by (rewrite (memcpy_length _ _ _ _ _ EM), !app_length; reflexivity).
      rewrite <- (firstn_skipn 4 m1).
      eapply fill_safe with (later := later) (s' := s') (e := (4 - pb)%nat); try reflexivity.
      * rewrite firstn_length. lia.
      * rewrite skipn_length. lia.
      * exact HD.
      * exact HF.
      * cbn [source]. destruct HS2; auto.
    + exfalso. revert EM. apply memcpy_narrow.
      * rewrite !app_length. lia.
      * unfold pb. lia.
      * exact HB.
      * unfold pb. lia.
    + exfalso. eapply memcpy_fuel. exact EM.
Qed.

Lemma underflow_safe r b a s' : holds 1 r (b, a) s' -> safe r ->
  exists r' x, underflow c 1 r = Val (r', x) /\ safe r'.
Proof.
  intros H HS. destruct (ready r) eqn:HR.
  - destruct (ready_shape 1 r b a s' H HR)
      as (junk & back & x & front & tail & s & fin & src & later & E1 & E2 & E3 & E4 & E5).
    exists r, (Some x). split; [|exact HS].
    unfold underflow. rewrite HR, E3. rewrite E1. reflexivity.
  - destruct (refill_safe r b a s' H HR HS) as (r' & n & E & S1).
    destruct (underflow_lemma 1 r b a s' H) as [U|(r2 & H2 & _ & HH)].
    + exfalso. destruct (refill 1 r b a s' H HR) as [U2|(r3 & n3 & E3 & H3 & Z3 & N3 & R3)];
        [rewrite E in U2; discriminate|].
      rewrite E in E3. injection E3 as <- <-.
      unfold underflow in U. rewrite HR, E in U.
      assert (PD : places r <> Dangling) by (destruct H; discriminate).
      cbn [obind] in U. destruct (Nat.eqb_spec n 0) as [Q|Q].
      * (revert U PD; destruct (places r); intros; congruence).
      * destruct (ready_shape 1 r' b a s' H3 (N3 Q))
          as (junk & back & x & front & tail & s & fin & src & later & F1 & F2 & F3 & F4 & F5).
        rewrite F3 in U. cbn [obind] in U. (revert U PD; destruct (places r); intros; congruence).
    + assert (EU : exists x, underflow c 1 r = Val (r2, x))
        by (destruct HH as [[_ ->]|(x & a' & _ & _ & -> & _ & _)]; eauto).
      destruct EU as [x EU]. exists r2, x. split; [exact EU|].
      assert (r2 = r'); [|subst; exact S1].
      unfold underflow in EU. rewrite HR, E in EU. cbn [obind] in EU.
      destruct (places r) in EU; try discriminate EU;
        destruct (Nat.eqb n 0) in EU; try (injection EU as <- _; reflexivity);
        destruct (at_gptr r') in EU; try discriminate EU; injection EU as <- _; reflexivity.
Qed.

Lemma bump_safe r : safe r -> safe (bump r).
Proof. destruct r as [m [| |] s fin src]; auto. Qed.

Lemma step_safe op r p s' : holds 1 r p s' -> safe r ->
  exists r' a, read_step c 1 op r = Val (r', a) /\ safe r'.
Proof.
  intros H HS. destruct p as [b a]. destruct op as [| | |d]; cbn [read_step].
  - unfold get. destruct (underflow_safe r b a s' H HS) as (r' & x & -> & S1). cbn [obind].
    destruct x; eexists _, _; (split; [reflexivity|]); [apply bump_safe|]; exact S1.
  - apply (underflow_safe r b a s' H HS).
  - destruct (unget_lemma None r b a s' 0 H (Nat.le_0_l _)) as (r' & ans & p' & n' & E & _).
    exists r', ans. split; [exact E|]. unfold unget in E.
    destruct r as [m [|e g x|] s fin src]; cbn [places] in E; try discriminate.
    + injection E as <- <-. exact HS.
    + destruct (Nat.eqb g e); [injection E as <- <-; exact HS|].
      destruct (at_gptr _) in E; try discriminate. injection E as <- <-. exact HS.
  - destruct (unget_lemma (Some d) r b a s' 0 H (Nat.le_0_l _)) as (r' & ans & p' & n' & E & _).
    exists r', ans. split; [exact E|]. unfold unget in E.
    destruct r as [m [|e g x|] s fin src]; cbn [places] in E; try discriminate.
    + injection E as <- <-. exact HS.
    + destruct (Nat.eqb g e); [injection E as <- <-; exact HS|].
      destruct (at_gptr _) in E; try discriminate. injection E as <- <-. exact HS.
Qed.

Lemma run_safe s' ops : forall r p n, holds 1 r p s' -> safe r ->
  (n <= room_back r)%nat -> (n <= 4)%nat ->
  exists r' l p', read_run c 1 ops r = Val (r', l) /\ travels p n ops l p'.
Proof.
  induction ops as [|op ops IH]; intros r p n H HS HN H4; cbn [read_run].
  - eexists _, _, _. split; [reflexivity|]. constructor.
  - destruct (step_safe op r p s' H HS) as (r1 & a & E & S1).
    destruct (step_lemma 1 op r p s' n H) as [U|(r2 & a2 & p1 & n1 & E2 & M & H1 & H2 & H3)];
      [left; reflexivity|exact HN|exact H4|rewrite E in U; discriminate|].
    rewrite E in E2. injection E2 as <- <-. rewrite E. cbn [obind].
    destruct (IH r1 p1 n1 H1 S1 H2 H3) as (r3 & l & p2 & -> & M2). cbn [obind].
    eexists _, _, _. split; [reflexivity|]. econstructor; eauto.
Qed.

(** * Wide characters, one block *)

Definition wide_safe (r : reader T) (a : str) : Prop :=
  match places r with
  | Null => (length (source r) <= 1024)%nat /\ (16 <= length a)%nat
  | At e g x => e = 4%nat /\ (20 <= x)%nat /\ source r = []
  | Dangling => False
  end.

Lemma memcpy_wide (m : list Z) g : (20 <= g <= length m)%nat ->
  memcpy m (Z.of_nat ((4 - 4) * 4)) (Z.of_nat g - Z.of_nat (4 * 4)) 4 <> UB.
Proof.
  intros H1. unfold memcpy. cbn [Nat.eqb].
  change (Z.of_nat ((4 - 4) * 4)) with 0. change (Z.of_nat (4 * 4)) with 16.
  change (Z.of_nat 4) with 4.
  assert (B : ((0 <? 0) || (Z.of_nat g - 16 <? 0) || (Z.of_nat (length m) <? 0 + 4)
    || (Z.of_nat (length m) <? Z.of_nat g - 16 + 4)) = false) by lia.
  rewrite B. destruct (Z.eqb_spec 0 (Z.of_nat g - 16)); [lia|].
  destruct (Z.ltb_spec (Z.abs (0 - (Z.of_nat g - 16))) 4); [lia|discriminate].
Qed.

Lemma wide_get r b a s' : holds 4 r (b, a) s' -> wide_safe r a ->
  exists r', (a = [] /\ get c 4 r = Val (r', None))
    \/ exists x a', a = x :: a' /\ get c 4 r = Val (r', Some x)
         /\ holds 4 r' (x :: b, a') s' /\ wide_safe r' a'.
Proof.
  intros H HS.
  assert (NU : ready r = false -> exists r' n, read_in c 4 r = Val (r', n)
            /\ (a <> [] -> places r = Null -> wide_safe r' (tl a))).
  { intros HR. remember (b, a) as p eqn:Ep.
    destruct H as [s src text s' HD|junk back front tail s fin src behind later s' HD HF HT H4 HO];
      injection Ep as <- <-.
    - destruct (fill_lemma (fresh s src) (firstn 4 (grow_in [])) (skipn 4 (grow_in [])) 0 text s')
        as (front & tail' & s1 & fin & src' & later' & n & E & E1 & E2 & E3 & E4 & E5 & E6 & E7 & E8).
      { rewrite firstn_length, grow_in_first. reflexivity. }
      { rewrite skipn_length, grow_in_first. lia. }
      { exact HD. } { discriminate. }
      rewrite firstn_skipn in E. rewrite read_in_new. eexists _, n. split; [exact E|].
      intros _ _. unfold wide_safe in *. cbn [places source fresh] in *.
      rewrite (E7 (proj1 HS)) in *. pose proof (no_bytes c D L _ _ _ E2) as ->.
      rewrite app_nil_r in E1. subst. repeat split. lia.
    - rewrite ready_at in HR. apply negb_false_iff, Nat.eqb_eq in HR.
      destruct front; [|discriminate]. cbn [app length] in *. rewrite Nat.add_0_r in *.
      unfold wide_safe in HS. cbn [places source] in HS. destruct HS as (HS1 & HS2 & HS3).
      rewrite read_in_at.
      2:{ intros Q. apply (f_equal (@length Z)) in Q. rewrite !app_length in Q. cbn in Q. lia. }
      replace (Nat.min (length junk + length back - length junk) 4) with 4%nat by lia.
      destruct (memcpy _ _ _ _) as [m1| |] eqn:EM.
      + cbn [obind].
        assert (LM : length m1 = (length junk + (length back + length tail))%nat)
          by (rewrite (memcpy_length _ _ _ _ _ EM), !app_length; reflexivity).
        destruct (fill_lemma
                (Reader (junk ++ back ++ tail)
                   (At (length junk) (length junk + length back) (length junk + length back)) s fin src)
                (firstn 4 m1) (skipn 4 m1) 4 later s')
          as (front & tail' & s1 & fin1 & src' & later' & n & E & _).
        { rewrite firstn_length. lia. } { rewrite skipn_length. lia. } { exact HD. } { exact HF. }
        rewrite firstn_skipn in E. eexists _, n. split; [exact E|]. intros _ Q. discriminate Q.
      + exfalso. revert EM. apply memcpy_wide. rewrite !app_length. lia.
      + exfalso. eapply memcpy_fuel. exact EM. }
  assert (PD : places r <> Dangling) by (destruct H; discriminate).
  destruct (underflow_lemma 4 r b a s' H) as [U|(r' & H1 & _ & [[-> E]|(x & a' & -> & E1 & E2 & E3 & _)])].
  - exfalso. destruct (ready r) eqn:HR.
    + destruct (ready_shape 4 r b a s' H HR)
        as (junk & back & x & front & tail & s & fin & src & later & F1 & F2 & F3 & F4 & F5).
      unfold underflow in U. rewrite HR, F3 in U. cbn [obind] in U. (revert U PD; destruct (places r); intros; congruence).
    + destruct (NU eq_refl) as (r' & n & E & _).
      destruct (refill 4 r b a s' H HR) as [U2|(r3 & n3 & E3 & H3 & Z3 & N3 & R3)]; [congruence|].
      rewrite E in E3. injection E3 as <- <-.
      unfold underflow in U. rewrite HR, E in U. cbn [obind] in U.
      destruct (Nat.eqb_spec n 0) as [Q|Q].
      * (revert U PD; destruct (places r); intros; congruence).
      * destruct (ready_shape 4 r' b a s' H3 (N3 Q))
          as (junk & back & x & front & tail & s & fin & src & later & F1 & F2 & F3 & F4 & F5).
        rewrite F3 in U. cbn [obind] in U. (revert U PD; destruct (places r); intros; congruence).
  - exists r'. left. split; [reflexivity|]. unfold get. rewrite E. reflexivity.
  - exists (bump r'). right. exists x, a'. split; [reflexivity|].
    split; [unfold get; rewrite E2; reflexivity|]. split; [exact E3|].
    assert (K : wide_safe r' a' -> wide_safe (bump r') a').
    { destruct r' as [m' [| |] q fin' src']; auto. }
    apply K. destruct (ready r) eqn:HR.
    + assert (r' = r).
      { unfold underflow in E2. rewrite HR in E2.
        revert E2 PD; destruct (at_gptr r); cbn [obind]; destruct (places r); intros; congruence. }
      subst r'. unfold wide_safe in *. unfold ready in HR.
      destruct (places r); [discriminate HR|exact HS|contradiction].
    + destruct (NU eq_refl) as (r2 & n & E & W).
      assert (r' = r2).
      { unfold underflow in E2. rewrite HR, E in E2. cbn [obind] in E2.
        revert E2 PD; destruct (places r), (Nat.eqb n 0), (at_gptr r2); cbn [obind]; intros; congruence. }
      subst r2. destruct (places r) eqn:EP.
      * apply W; [discriminate|reflexivity].
      * exfalso. (* nothing is left once the block is read *)
        clear NU W. remember (b, x :: a') as p eqn:Ep.
        destruct H as [s src text s' HD|junk back front tail s fin src behind later s' HD HF HT H4 HO];
          injection Ep as <- Ea; [discriminate EP|].
        rewrite ready_at in HR. apply negb_false_iff, Nat.eqb_eq in HR.
        destruct front; [|discriminate]. cbn [app] in Ea. subst later.
        unfold wide_safe in HS. cbn [places source] in HS. destruct HS as (_ & _ & ->).
        apply (no_bytes c D L) in HD. discriminate.
      * congruence.
Qed.

Lemma wide_run s' a : forall r b, holds 4 r (b, a) s' -> wide_safe r a ->
  exists r', read_run c 4 (repeat Get (length a + 1)) r = Val (r', to_the_end a).
Proof.
  induction a as [|x a IH]; intros r b H HS.
  - destruct (wide_get r b [] s' H HS) as (r' & [[_ E]|(x & a' & Q & _)]); [|discriminate].
    exists r'. cbn [length Nat.add repeat read_run read_step]. rewrite E. reflexivity.
  - destruct (wide_get r b (x :: a) s' H HS) as (r1 & [[Q _]|(y & a' & Q & E & H1 & S1)]);
      [discriminate|]. injection Q as <- <-.
    destruct (IH r1 (x :: b) H1 S1) as (r2 & E2).
    exists r2. cbn [length Nat.add repeat read_run read_step]. rewrite E. cbn [obind].
    rewrite E2. reflexivity.
Qed.
End Reading.
