(** The converters of src/convert follow the forms they are named after; writing
    through the stream buffer; whole strings. *)
From Coq Require Import Lia.
From Verif.Model Require Import Base Convert Base64 ConvertIo.
From Verif.Spec Require Import Utf8Spec ConvertIoSpec.
From Verif.Proof Require Import Tac ConvertProof ConvertIoProof.

Lemma range_app lo hi a b : in_range lo hi (a ++ b) <-> in_range lo hi a /\ in_range lo hi b.
Proof. apply Forall_app. Qed.
Lemma range_cons lo hi c b : in_range lo hi (c :: b) <-> lo <= c < hi /\ in_range lo hi b.
Proof. apply Forall_cons_iff. Qed.
Lemma range_split lo hi n a : in_range lo hi a ->
  in_range lo hi (firstn n a) /\ in_range lo hi (skipn n a).
Proof. intros H. rewrite <- (firstn_skipn n a) in H. apply range_app, H. Qed.

(** * rot13 *)

Lemma rot13_call s inp room : in_range 0 256 inp ->
  cvt_in rot13_facet s inp room
  = Val (map rot13_letter (firstn room inp), s, skipn room inp, by_rest (skipn room inp)).
Proof.
  intros H. cbn [rot13_facet cvt_in]. rewrite rot13_calls by exact H.
  destruct (Nat.leb_spec (length inp) room) as [Q|Q].
  - rewrite (skipn_all2 (n := room)) by lia. reflexivity.
  - destruct (skipn room inp) eqn:E; [|reflexivity].
    apply (f_equal (@length Z)) in E. rewrite skipn_length in E. cbn in E. lia.
Qed.

Lemma rot13_decodes : decodes rot13_facet rot13_form.
Proof.
  split.
  - intros s text s' [_ ->]. reflexivity.
  - intros s bytes text s' [_ ->]. rewrite map_length. lia.
  - intros s inp more text s' room [H ->]. apply range_app in H. destruct H as [H1 H2].
    destruct (range_split 0 256 room inp H1) as [H3 H4].
    exists (firstn room inp), (skipn room inp), (map rot13_letter (firstn room inp)),
      (map rot13_letter (skipn room inp ++ more)), s.
    split; [apply rot13_call, H1|]. split; [symmetry; apply firstn_skipn|].
    split. { rewrite <- map_app, app_assoc, firstn_skipn. reflexivity. }
    split. { split; [apply range_app; auto|reflexivity]. }
    rewrite map_length, firstn_length. split; [lia|].
    split. { destruct (firstn room inp); [reflexivity|discriminate]. }
    intros Q. rewrite skipn_all2 by lia. cbn. split; [lia|auto].
Qed.

Lemma rot13_whole : whole_bytes rot13_facet.
Proof.
  intros s inp room o s1 rest v E HL. cbn [rot13_facet cvt_in] in E.
  destruct (rot13 inp room) as [[o' rest'] r'] eqn:ER. injection E as <- <- <- <-.
  revert room o' rest' r' ER HL. induction inp as [|x inp IH]; intros room o' rest' r' ER HL; cbn [rot13] in ER.
  - injection ER as <- <- <-. reflexivity.
  - destruct room as [|room]; [injection ER as <- <- <-; cbn in HL; lia|].
    destruct (rot13 inp room) as [[o2 rest2] r2] eqn:E2. injection ER as <- <- <-.
    apply (IH room o2 rest2 r2 E2). cbn [length] in HL. lia.
Qed.

Lemma rot13_exact : exact_bytes rot13_facet rot13_form.
Proof.
  split; [exact rot13_whole|]. intros s bytes text s' [_ ->]. apply map_length.
Qed.

(** * Characters of one or more bytes *)

Section Units.
Context (u : Z -> list Z) (U1 : forall c, u c <> []) (U3 : forall c, (length (u c) <= 3)%nat).

(** Less than a character. *)
Definition cut (p : str) : Prop := p = [] \/ exists c q, wide c /\ u c = p ++ q /\ q <> [].

Lemma units_length s : (length s <= length (flat_map u s))%nat.
Proof.
  induction s as [|c s IH]; cbn [flat_map length]; [lia|]. rewrite app_length.
  specialize (U1 c). destruct (u c); [congruence|cbn [length]; lia].
Qed.

Lemma units_split text : forall inp more, inp ++ more = flat_map u text ->
  in_range 0 65536 text ->
  exists t1 t2 p, text = t1 ++ t2 /\ inp = flat_map u t1 ++ p /\ p ++ more = flat_map u t2
    /\ cut p /\ (more = [] -> p = []).
Proof.
  induction text as [|c text IH]; intros inp more E H.
  - cbn [flat_map] in E. apply app_eq_nil in E. destruct E as [-> ->].
    exists [], [], []. repeat split; auto. left. reflexivity.
  - apply range_cons in H. destruct H as [Hc H]. cbn [flat_map] in E.
    destruct (Nat.le_gt_cases (length (u c)) (length inp)) as [Q|Q].
    + assert (EI : inp = u c ++ skipn (length (u c)) inp).
      { apply (f_equal (firstn (length (u c)))) in E.
        rewrite firstn_app, (firstn_app _ (u c)), firstn_all, Nat.sub_diag in E.
        replace (length (u c) - length inp)%nat with O in E by lia. cbn [firstn] in E.
        rewrite !app_nil_r in E. rewrite <- E at 1. symmetry. apply firstn_skipn. }
      rewrite EI in E. rewrite <- app_assoc in E. apply app_inv_head in E.
      destruct (IH _ _ E H) as (t1 & t2 & p & -> & E1 & E2 & E3 & E4).
      exists (c :: t1), t2, p. split; [reflexivity|]. split; [|auto].
      cbn [flat_map]. rewrite <- app_assoc, <- E1. exact EI.
    + exists [], (c :: text), inp. split; [reflexivity|]. split; [reflexivity|].
      split; [exact E|].
      assert (EU : u c = inp ++ skipn (length inp) (u c)).
      { apply (f_equal (firstn (length inp))) in E.
        rewrite firstn_app, firstn_all, Nat.sub_diag, firstn_app in E. cbn [firstn] in E.
        replace (length inp - length (u c))%nat with O in E by lia. cbn [firstn] in E.
        rewrite !app_nil_r in E. rewrite E at 1. symmetry. apply firstn_skipn. }
      assert (SN : skipn (length inp) (u c) <> []).
      { intros Q2. apply (f_equal (@length Z)) in Q2. rewrite skipn_length in Q2. cbn in Q2. lia. }
      split.
      * right. exists c, (skipn (length inp) (u c)). auto.
      * intros ->. rewrite app_nil_r in E. rewrite E in Q. rewrite app_length in Q. lia.
Qed.

Context (c : codec unit)
  (CALL : forall s text p room, in_range 0 65536 text -> cut p ->
     cvt_in c s (flat_map u text ++ p) room
     = Val (firstn room text, s, flat_map u (skipn room text) ++ p,
            by_rest (flat_map u (skipn room text) ++ p))).

Definition unit_form (_ : unit) (bytes text : str) (_ : unit) : Prop :=
  in_range 0 65536 text /\ bytes = flat_map u text.

Lemma cut_length p : cut p -> (length p < 16)%nat.
Proof.
  intros [->|(x & q & _ & E & _)]; [cbn; lia|].
  specialize (U3 x). rewrite E, app_length in U3. lia.
Qed.

Lemma units_decodes : decodes c unit_form.
Proof.
  split.
  - intros s text s' [_ E]. destruct text as [|x text]; [reflexivity|].
    cbn [flat_map] in E. symmetry in E. apply app_eq_nil in E. destruct (U1 x). apply E.
  - intros s bytes text s' [_ ->]. apply units_length.
  - intros s inp more text s' room [H E].
    destruct (units_split text inp more E H) as (t1 & t2 & p & -> & -> & E2 & HC & HM).
    apply range_app in H. destruct H as [H1 H2].
    destruct (range_split 0 65536 room t1 H1) as [H3 H4].
    exists (flat_map u (firstn room t1)), (flat_map u (skipn room t1) ++ p),
      (firstn room t1), (skipn room t1 ++ t2), s.
    split; [apply CALL; assumption|].
    split. { rewrite app_assoc, <- flat_map_app, firstn_skipn. reflexivity. }
    split. { rewrite app_assoc, firstn_skipn. reflexivity. }
    split. { split; [apply range_app; auto|].
             rewrite <- app_assoc, E2, <- flat_map_app. reflexivity. }
    rewrite firstn_length. split; [lia|].
    split. { intros Q. rewrite Q. reflexivity. }
    intros Q. rewrite skipn_all2 by lia. cbn [flat_map app].
    split; [apply cut_length, HC|exact HM].
Qed.

(** A cut character at the end of a string keeps the loop of str() going for ever. *)
Lemma cut_string fuel : forall s text p, in_range 0 65536 text -> cut p -> p <> [] ->
  convert_in c fuel s (flat_map u text ++ p) = NoFuel.
Proof.
  induction fuel as [|fuel IH]; intros s text p H HC HP; [reflexivity|].
  cbn [convert_in]. rewrite CALL by assumption. cbn [obind].
  rewrite by_rest_more.
  2:{ destruct (flat_map u (skipn to_size text)); [exact HP|discriminate]. }
  rewrite IH; [reflexivity| |exact HC|exact HP]. apply range_split, H.
Qed.
End Units.

(** * UTF-8 *)

Lemma utf8_char_cons c : utf8_char c <> [].
Proof. pose proof (utf8_char_nonempty c). destruct (utf8_char c); [cbn in *; lia|discriminate]. Qed.

Lemma utf8_char_three c : (length (utf8_char c) <= 3)%nat.
Proof. unfold utf8_char. destruct (c <? 128), (c <? 2048); cbn; lia. Qed.

Lemma ucs_loop_cut f p cap : cut utf8_char p -> (length p <= f)%nat ->
  utf8_2_ucs2_loop f p cap = Val ([], p).
Proof.
  intros [->|(c & q & Hc & E & HQ)] HL; [destruct f, cap; reflexivity|].
  destruct p as [|b p]; [destruct f, cap; reflexivity|].
  destruct f as [|f]; [cbn in HL; lia|]. destruct cap as [|cap]; [reflexivity|].
  destruct (ucs_char c [] Hc) as (b' & t & wm & v & E1 & E2 & E3 & E4).
  rewrite E1 in E. cbn [app] in E. injection E as -> Et.
  cbn [utf8_2_ucs2_loop]. rewrite E2.
  destruct (Nat.leb_spec (length (b :: p)) (length t)) as [Q|Q]; [reflexivity|].
  rewrite Et, app_length in Q. destruct q; [congruence|]. cbn [length] in Q. lia.
Qed.

Lemma ucs_loop_part s : in_range 0 65536 s -> forall p f cap, cut utf8_char p ->
  (length (utf8 s ++ p) <= f)%nat ->
  utf8_2_ucs2_loop f (utf8 s ++ p) cap = Val (firstn cap s, utf8 (skipn cap s) ++ p).
Proof.
  induction 1 as [|c s Hc HF IH]; intros p f cap HC HL.
  - cbn [utf8 flat_map app] in *. rewrite ucs_loop_cut by assumption.
    rewrite firstn_nil, skipn_nil. reflexivity.
  - change (utf8 (c :: s)) with (utf8_char c ++ utf8 s) in *. rewrite <- app_assoc in *.
    rewrite app_length in HL.
    pose proof (utf8_char_nonempty c). destruct f as [|f]; [lia|].
    destruct cap as [|cap].
    + cbn [firstn skipn]. change (utf8 (c :: s)) with (utf8_char c ++ utf8 s).
      rewrite <- app_assoc. destruct (utf8_char c ++ utf8 s ++ p); reflexivity.
    + destruct (ucs_char c (utf8 s ++ p) Hc) as (b & t & wm & v & E1 & E2 & E3 & E4).
      rewrite E1 in *. cbn [app utf8_2_ucs2_loop]. rewrite E2.
      cbn [length] in *. rewrite app_length.
      destruct (Nat.leb_spec (S (length t + length (utf8 s ++ p))) (length t)); [lia|].
      rewrite E3. cbn [obind]. rewrite IH by (assumption || lia).
      cbn [obind firstn skipn]. rewrite E4. reflexivity.
Qed.

Lemma utf8_call s text p room : in_range 0 65536 text -> cut utf8_char p ->
  cvt_in utf8ucs2_facet s (flat_map utf8_char text ++ p) room
  = Val (firstn room text, s, flat_map utf8_char (skipn room text) ++ p,
         by_rest (flat_map utf8_char (skipn room text) ++ p)).
Proof.
  intros H HC. cbn [utf8ucs2_facet cvt_in]. unfold utf8_2_ucs2.
  change (flat_map utf8_char) with utf8.
  rewrite ucs_loop_part by (assumption || lia). reflexivity.
Qed.

Lemma utf8_decodes : decodes utf8ucs2_facet utf8_form.
Proof. exact (units_decodes utf8_char utf8_char_cons utf8_char_three utf8ucs2_facet utf8_call). Qed.

(** * UTF-16 *)

Lemma utf16_two be c : length (utf16_unit be c) = 2%nat.
Proof. unfold utf16_unit. destruct be; reflexivity. Qed.

Lemma utf16_cons be c : utf16_unit be c <> [].
Proof. pose proof (utf16_two be c). destruct (utf16_unit be c); [discriminate|congruence]. Qed.

Lemma utf16_cut be p : cut (utf16_unit be) p -> (length p < 2)%nat.
Proof.
  intros [->|(c & q & _ & E & HQ)]; [cbn; lia|].
  pose proof (utf16_two be c) as L. rewrite E, app_length in L.
  destruct q; [congruence|]. cbn [length] in L. lia.
Qed.

Lemma utf16_part be s : in_range 0 65536 s -> forall p cap, (length p < 2)%nat ->
  utf16_2_ucs2 be (utf16 be s ++ p) cap = (firstn cap s, utf16 be (skipn cap s) ++ p).
Proof.
  induction 1 as [|c s Hc HF IH]; intros p cap HP.
  - rewrite firstn_nil, skipn_nil. cbn [utf16 flat_map app].
    destruct p as [|x [|y p]]; [reflexivity| |cbn in HP; lia].
    destruct cap; reflexivity.
  - destruct cap as [|cap].
    + cbn [firstn skipn]. unfold utf16. cbn [flat_map].
      pose proof (utf16_two be c). destruct (utf16_unit be c) as [|x [|y [|]]]; try discriminate.
      reflexivity.
    + unfold utf16. cbn [flat_map]. pose proof (utf16_2_ucs2_spec be [c]) as K.
      assert (R : in_range 0 65536 [c]) by (constructor; [exact Hc|constructor]).
      specialize (K R 1%nat). unfold utf16 in K. cbn [flat_map firstn skipn] in K.
      rewrite app_nil_r in K. pose proof (utf16_two be c).
      destruct (utf16_unit be c) as [|x [|y [|]]]; try discriminate.
      cbn [app utf16_2_ucs2] in *. specialize (IH p cap HP). unfold utf16 in IH.
      rewrite IH. cbn [firstn skipn].
      apply (f_equal (fun z => hd 0 (fst z))) in K. cbn [hd fst] in K. rewrite K. reflexivity.
Qed.

Lemma utf16_call be s text p room : in_range 0 65536 text -> cut (utf16_unit be) p ->
  cvt_in (utf16ucs2_facet be) s (flat_map (utf16_unit be) text ++ p) room
  = Val (firstn room text, s, flat_map (utf16_unit be) (skipn room text) ++ p,
         by_rest (flat_map (utf16_unit be) (skipn room text) ++ p)).
Proof.
  intros H HC. cbn [utf16ucs2_facet cvt_in].
  change (flat_map (utf16_unit be)) with (utf16 be).
  rewrite utf16_part by (assumption || (apply utf16_cut in HC; exact HC)). reflexivity.
Qed.

Lemma utf16_three be c : (length (utf16_unit be c) <= 3)%nat.
Proof. rewrite utf16_two. lia. Qed.

Lemma utf16_decodes be : decodes (utf16ucs2_facet be) (utf16_form be).
Proof.
  exact (units_decodes (utf16_unit be) (utf16_cons be) (utf16_three be) (utf16ucs2_facet be)
           (utf16_call be)).
Qed.

(** * Writing *)

Lemma rot13_encodes : encodes rot13_facet byte (map rot13_letter).
Proof.
  split.
  - intros a b. apply map_app.
  - intros s inp room H HR.
    exists (firstn room inp), (skipn room inp), s.
    split; [apply (rot13_call s inp room H)|]. split; [symmetry; apply firstn_skipn|].
    cbn in HR. destruct inp; [congruence|]. destruct room; [lia|]. discriminate.
Qed.

Lemma to_verdict_rest rest :
  to_verdict (match rest with [] => CvtOk | _ => CvtPartial end) = by_rest rest.
Proof. destruct rest; reflexivity. Qed.

Lemma utf8_encodes : encodes utf8ucs2_facet wide utf8.
Proof.
  split.
  - intros a b. apply flat_map_app.
  - intros s inp room H HR. cbn [utf8ucs2_facet cvt_out max_length] in *.
    rewrite ucs2_2_utf8_wide by exact H. rewrite wide_2_utf8_spec by exact H.
    exists (firstn (fits inp room) inp), (skipn (fits inp room) inp), s.
    split.
    { f_equal. f_equal. destruct (skipn (fits inp room) inp); reflexivity. }
    split; [symmetry; apply firstn_skipn|].
    destruct inp as [|x inp]; [congruence|]. intros _.
    pose proof (fits_progress x inp room ltac:(lia)).
    destruct (fits (x :: inp) room); [lia|discriminate].
Qed.

Lemma utf16_encodes be : encodes (utf16ucs2_facet be) wide (utf16 be).
Proof.
  split.
  - intros a b. apply flat_map_app.
  - intros s inp room H HR. cbn [utf16ucs2_facet cvt_out max_length] in *.
    destruct (ucs2_2_utf16_spec be inp H room) as (n & Hn & ->).
    exists (firstn n inp), (skipn n inp), s. rewrite to_verdict_rest.
    split; [reflexivity|]. split; [symmetry; apply firstn_skipn|].
    destruct inp as [|x inp]; [congruence|]. intros _.
    destruct n as [|n]; [|discriminate]. cbn [length] in Hn. lia.
Qed.

Section Writing.
Context {T : Type} (c : codec T) (ok : Z -> Prop) (enc : str -> str) (L : encodes c ok enc).

Lemma flush_loop_lemma fuel : forall s inp room, Forall ok inp -> (max_length c < room)%nat ->
  (length inp < fuel)%nat -> exists s', flush_loop c fuel s inp room = Val (enc inp, s', Converted).
Proof.
  induction fuel as [|fuel IH]; intros s inp room H HR HL; [lia|].
  destruct (one_write c ok enc L s inp room H HR) as (used & rest & s1 & E & -> & HU).
  cbn [flush_loop]. rewrite E. cbn [obind]. destruct rest as [|x rest].
  - exists s1. rewrite app_nil_r. reflexivity.
  - rewrite by_rest_more by discriminate. apply Forall_app in H. destruct H as [_ H].
    assert (used <> []) by (apply HU; destruct used; discriminate).
    destruct (IH s1 (x :: rest) room H HR) as (s2 & ->).
    { rewrite app_length in HL. destruct used; [congruence|]. cbn [length] in *. lia. }
    exists s2. cbn [obind]. rewrite (in_parts c ok enc L). reflexivity.
Qed.

(** What the writer holds: [pending] is not written yet. *)
Inductive keeps : writer T -> str -> str -> Prop :=
| keeps_it : forall pending tail s sunk,
    pending ++ tail <> [] ->
    keeps (Writer (pending ++ tail) (length pending) s sunk) pending sunk.

Lemma put_keeps w pending sunk ch : keeps w pending sunk -> keeps (put ch w) (pending ++ [ch]) sunk.
Proof.
  intros H. destruct H as [pending tail s sunk HN]. unfold put. cbn [pptr out_area].
  assert (K : forall x t, keeps (Writer (write_at (pending ++ x :: t) (length pending) [ch])
                          (length pending + 1) s sunk) (pending ++ [ch]) sunk).
  { intros x t. pose proof (write_at_split [] pending (x :: t) [ch]) as W.
    cbn [app length Nat.add skipn] in W. rewrite W by lia.
    replace (length pending + 1)%nat with (length (pending ++ [ch])) by (rewrite app_length; reflexivity).
    apply keeps_it. destruct pending; discriminate. }
  destruct (Nat.ltb_spec (length pending) (length (pending ++ tail))) as [Q|Q].
  - destruct tail as [|x t]; [rewrite app_nil_r in Q; lia|].
    cbn [out_area pptr out_state sink]. apply K.
  - assert (tail = []) as -> by (rewrite app_length in Q; destruct tail; [reflexivity|cbn in Q; lia]).
    rewrite app_nil_r in *. unfold grow_out. cbn [out_area pptr out_state sink].
    destruct (Nat.eqb_spec (length pending) 0) as [Z0|Z0]; [destruct pending; [congruence|discriminate]|].
    destruct (length pending * 2 - length pending)%nat as [|m] eqn:EM; [lia|].
    cbn [repeat]. apply K.
Qed.

Lemma put_first s ch : keeps (put ch (new_writer s)) [ch] [].
Proof.
  unfold put, new_writer. cbn [pptr out_area length Nat.ltb Nat.leb].
  unfold grow_out. cbn [out_area length Nat.eqb pptr out_state sink app].
  change (block - 0)%nat with block. unfold block.
  change (repeat 0 1024) with (0 :: repeat 0 1023).
  unfold write_at. cbn [firstn length Nat.add skipn app].
  change 1%nat with (length [ch]) at 1.
  apply (keeps_it [ch] (repeat 0 1023)). discriminate.
Qed.

Lemma flush_keeps w pending sunk : keeps w pending sunk -> Forall ok pending ->
  exists w', flush c w = Val (w', true) /\ keeps w' [] (sunk ++ enc pending)
             /\ sink w' = sunk ++ enc pending.
Proof.
  intros H HO. destruct H as [pending tail s sunk HN]. unfold flush, flush_with.
  cbn [out_area pptr out_state sink].
  destruct (pending ++ tail) as [|x m] eqn:EM; [congruence|].
  assert (E0 : enc [] = []).
  { pose proof (in_parts c ok enc L [] []) as E. cbn [app] in E.
    apply (f_equal (@length Z)) in E. rewrite app_length in E.
    apply length_zero_iff_nil. lia. }
  destruct (Nat.eqb_spec (length pending) 0) as [Q|Q].
  - destruct pending; [|discriminate]. rewrite E0, app_nil_r.
    eexists. split; [reflexivity|]. split; [|reflexivity].
    apply (keeps_it [] (x :: m)). discriminate.
  - rewrite <- EM. rewrite firstn_app, firstn_all, Nat.sub_diag. cbn [firstn]. rewrite app_nil_r.
    destruct (flush_loop_lemma (4 * length pending + 4) s pending
                (length pending + max_length c) HO) as (s' & ->); [lia|lia|].
    cbn [obind]. eexists. split; [reflexivity|]. split; [|reflexivity].
    rewrite EM. apply (keeps_it [] (x :: m)). discriminate.
Qed.

Lemma write_run_lemma ops : forall w pending sunk, keeps w pending sunk -> Forall ok pending ->
  Forall ok (put_text ops) ->
  exists w', write_run c (ops ++ [Flush]) w = Val (w', repeat true (flushes ops + 1))
             /\ sink w' = sunk ++ enc (pending ++ put_text ops).
Proof.
  induction ops as [|[ch|] ops IH]; intros w pending sunk HK HP HO; cbn [app write_run put_text flushes] in *.
  - destruct (flush_keeps w pending sunk HK HP) as (w' & -> & _ & ES). cbn [obind].
    exists w'. rewrite app_nil_r. split; [reflexivity|exact ES].
  - inversion HO as [|? ? O1 O2]; subst.
    destruct (IH (put ch w) (pending ++ [ch]) sunk) as (w' & E & ES).
    { apply put_keeps, HK. } { apply Forall_app. auto. } { exact O2. }
    exists w'. split; [exact E|]. rewrite ES, <- app_assoc. reflexivity.
  - destruct (flush_keeps w pending sunk HK HP) as (w1 & -> & HK1 & ES1). cbn [obind].
    destruct (IH w1 [] (sunk ++ enc pending) HK1 ltac:(constructor) HO) as (w' & -> & ES).
    cbn [obind Nat.add repeat]. exists w'. split; [reflexivity|].
    rewrite ES. cbn [app]. rewrite <- app_assoc, <- (in_parts c ok enc L). reflexivity.
Qed.

Lemma write_out_lemma s ch ops : ok ch -> Forall ok (put_text ops) ->
  write_out c s (Put ch :: ops) = Val (enc (ch :: put_text ops), repeat true (flushes ops + 1)).
Proof.
  intros H1 H2. unfold write_out. cbn [app write_run].
  destruct (write_run_lemma ops (put ch (new_writer s)) [ch] [] (put_first s ch)) as (w' & -> & ES);
    auto.
  cbn [obind]. rewrite ES. reflexivity.
Qed.

Lemma convert_out_lemma fuel : forall s inp, (max_length c < to_size)%nat -> Forall ok inp ->
  (length inp < fuel)%nat -> convert_out c fuel s inp = Val (enc inp).
Proof.
  induction fuel as [|fuel IH]; intros s inp HM H HL; [lia|].
  destruct (one_write c ok enc L s inp to_size H HM) as (used & rest & s1 & E & -> & HU).
  cbn [convert_out]. rewrite E. cbn [obind]. destruct rest as [|x rest].
  - rewrite app_nil_r. reflexivity.
  - rewrite by_rest_more by discriminate. apply Forall_app in H. destruct H as [_ H].
    assert (used <> []) by (apply HU; destruct used; discriminate).
    rewrite (IH s1 (x :: rest) HM H).
    { cbn [obind]. rewrite (in_parts c ok enc L). reflexivity. }
    rewrite app_length in HL. destruct used; [congruence|]. cbn [length] in *. lia.
Qed.
End Writing.

Lemma convert_in_lemma {T} (c : codec T) D (L : decodes c D) fuel : forall s bytes text s',
  D s bytes text s' -> (length text < fuel)%nat -> convert_in c fuel s bytes = Val text.
Proof.
  induction fuel as [|fuel IH]; intros s bytes text s' HD HL; [lia|].
  rewrite <- (app_nil_r bytes) in HD.
  destruct (one_call c D L s bytes [] text s' to_size HD)
    as (used & rest & first & others & s1 & E & -> & -> & HD1 & HR & HU & HF).
  cbn [convert_in]. rewrite E. cbn [obind]. rewrite app_nil_r in HD1.
  destruct rest as [|x rest].
  - apply (no_bytes c D L) in HD1. subst others. rewrite app_nil_r. reflexivity.
  - rewrite by_rest_more by discriminate.
    assert (Q : length first = to_size).
    { destruct (Nat.lt_ge_cases (length first) to_size) as [Q|Q]; [|lia].
      destruct (HF Q) as [_ HF2]. discriminate (HF2 eq_refl). }
    rewrite (IH s1 _ others s' HD1); [reflexivity|].
    rewrite app_length in HL. assert (0 < to_size)%nat by (unfold to_size; lia). lia.
Qed.

Lemma as_wide_lemma text : in_range 0 65536 text ->
  as_wide (length text + 1) (utf8 text) = Val text.
Proof.
  intros H. unfold as_wide. eapply (convert_in_lemma _ _ utf8_decodes _ tt _ _ tt).
  - split; [exact H|reflexivity].
  - lia.
Qed.

Lemma from_utf16_lemma text : in_range 0 65536 text ->
  from_utf16 (length text + 1) text = Val (utf8 text).
Proof.
  intros H. unfold from_utf16. destruct text as [|x text]; [reflexivity|].
  apply (convert_out_lemma _ _ _ utf8_encodes); [|exact H|lia].
  cbn [max_length utf8ucs2_facet]. unfold to_size. lia.
Qed.

Lemma as_wide_stuck fuel text p : in_range 0 65536 text -> cut utf8_char p -> p <> [] ->
  as_wide fuel (utf8 text ++ p) = NoFuel.
Proof. intros. apply (cut_string utf8_char utf8ucs2_facet utf8_call); assumption. Qed.
