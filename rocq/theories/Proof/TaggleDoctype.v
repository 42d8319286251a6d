(** The document type that the HTML parser reports. *)
From Coq Require Import String.
From Verif.Model Require Import Base Chars Text Attrs XSort HtmlSchema Taggle HtmlScanner.
From Verif.Spec Require Import TextSpec TaggleSpec.
From Verif.Proof Require Import ContainersProof TextProof TaggleProof TaggleProof2 TaggleProof3 HtmlScannerProof TaggleQuiet TaggleText.
From Coq Require Import List Lia.
Import ListNotations.
Open Scope Z_scope.

(** * Events stay *)
Definition grows (g g' : taggle) : Prop := exists l, tg_out g' = tg_out g ++ l.
Lemma grows_refl : forall g, grows g g. Proof. intro g. exists []. rewrite app_nil_r. reflexivity. Qed.
Lemma grows_trans : forall a b c, grows a b -> grows b c -> grows a c.
Proof. intros a b c (l & E) (l' & E'). exists (l ++ l'). rewrite E', E, app_assoc. reflexivity. Qed.
Lemma quiet_grows : forall g g', quiet g g' -> grows g g'. Proof. intros g g' [_ _ (l & E & _)]. exists l. exact E. Qed.
Lemma grows_pi : forall s g, grows g (pi s g).
Proof. intros s g. unfold pi. destruct (tg_new g); [apply grows_refl|]. destruct (tg_pi g); [apply grows_refl|]. destruct (str_eqb _ _); [apply grows_refl|]. eexists. reflexivity. Qed.
Lemma grows_pitarget : forall F s g, grows g (pitarget F s g).
Proof. intros F s g. unfold pitarget. destruct (tg_new g); [apply grows_refl|]. exists []. cbn. rewrite app_nil_r. reflexivity. Qed.
Lemma grows_decl : forall s g g', decl s g = Val g' -> grows g g'.
Proof.
  intros s g g' H. unfold decl in H. destruct (split_words s) as [v| |]; try discriminate. cbn [obind] in H.
  destruct (str_eqb _ _); [|injection H as <-; apply grows_refl]. destruct (tg_doctype g); [injection H as <-; apply grows_refl|].
  destruct (nth 1 v []); injection H as <-; [exists []; cbn; rewrite app_nil_r; reflexivity|]. eexists. reflexivity.
Qed.
Lemma act_grows : forall F full a st ch b g b' g', act F full a st ch b g = Val (b', g') -> grows g g'.
Proof.
  intros F full a st ch b g b' g' H.
  assert (QQ : forall o, cleared o = Val (b', g') -> quietly g o -> grows g g').
  { intros o E Q. destruct o as [y| |]; try discriminate. cbn in E. injection E as _ <-. apply quiet_grows. apply Q. reflexivity. }
  assert (SV : forall b c b1 g0 g1, save F full st c b g0 = Val (b1, g1) -> quiet g0 g1) by (intros; eapply quietly_save; eassumption).
  destruct a; cbn [act] in H; try (match type of H with cleared (decl _ _) = _ => fail 1 | _ => apply QQ in H; [exact H|] end);
    try (exact (quiet_grows _ _ (SV _ _ _ _ _ H)));
    try (injection H as <- <-; apply grows_refl).
  - apply quietly_adup.
  - destruct (adup g) as [x| |] eqn:E; try discriminate. cbn [obind] in H.
    apply quiet_grows. eapply quiet_trans; [exact (quietly_adup _ _ E)|exact (SV _ _ _ _ _ H)].
  - apply quietly_bind; [apply quietly_adup|intro; apply quietly_stagc].
  - apply quietly_aname.
  - apply quietly_bind; [apply quietly_aname|intro; apply quietly_adup].
  - apply quietly_bind; [|intro; apply quietly_stagc]. apply quietly_bind; [apply quietly_aname|intro; apply quietly_adup].
  - apply quietly_aval.
  - apply quietly_bind; [apply quietly_aval|intro; apply quietly_stagc].
  - apply quietly_pcdata.
  - injection H as <- <-. eexists. reflexivity.
  - destruct (decl b g) as [x| |] eqn:E; try discriminate. cbn in H. injection H as <- <-. exact (grows_decl _ _ _ E).
  - apply quietly_bind; [destruct (nothing b); [apply quietly_val, quiet_refl|apply quietly_gi]|intro; apply quietly_stage].
  - destruct (pcdata F b g) as [x| |] eqn:E; try discriminate. cbn [obind] in H.
    apply quiet_grows. eapply quiet_trans; [exact (quietly_pcdata _ _ _ _ E)|exact (SV _ _ _ _ _ H)].
  - injection H as <- <-. exact (quiet_grows _ _ (quiet_etag F b g)).
  - apply quietly_gi.
  - apply quietly_bind; [apply quietly_gi|intro; apply quietly_stagc].
  - destruct (save F full st 60 b g) as [[b1 g1]| |] eqn:E; try discriminate. cbn [obind] in H.
    apply quiet_grows. eapply quiet_trans; [exact (SV _ _ _ _ _ E)|exact (SV _ _ _ _ _ H)].
  - destruct (save F full st 60 b g) as [[b1 g1]| |] eqn:E; try discriminate. cbn [obind] in H.
    destruct (pcdata F b1 g1) as [x| |] eqn:E2; try discriminate. cbn in H. injection H as <- <-.
    apply quiet_grows. eapply quiet_trans; [exact (SV _ _ _ _ _ E)|exact (quietly_pcdata _ _ _ _ E2)].
  - destruct (save F full st 45 b g) as [[b1 g1]| |] eqn:E; try discriminate. cbn [obind] in H.
    apply quiet_grows. eapply quiet_trans; [exact (SV _ _ _ _ _ E)|exact (SV _ _ _ _ _ H)].
  - destruct (save F full st 45 b g) as [[b1 g1]| |] eqn:E; try discriminate. cbn [obind] in H.
    destruct (save F full st 32 b1 g1) as [[b2 g2]| |] eqn:E2; try discriminate. cbn [obind] in H.
    destruct (save F full st 45 b2 g2) as [[b3 g3]| |] eqn:E3; try discriminate. cbn [obind] in H.
    apply quiet_grows. eapply quiet_trans; [exact (SV _ _ _ _ _ E)|]. eapply quiet_trans; [exact (SV _ _ _ _ _ E2)|].
    eapply quiet_trans; [exact (SV _ _ _ _ _ E3)|exact (SV _ _ _ _ _ H)].
  - destruct (save F full st 45 b g) as [[b1 g1]| |] eqn:E; try discriminate. cbn [obind] in H.
    apply quiet_grows. eapply quiet_trans; [exact (SV _ _ _ _ _ E)|exact (SV _ _ _ _ _ H)].
  - apply quietly_pcdata.
  - injection H as <- <-. apply grows_pi.
  - injection H as <- <-. apply grows_pitarget.
  - injection H as <- <-. eapply grows_trans; [apply grows_pitarget|apply grows_pi].
  - apply quietly_stagc.
  - apply quietly_pcdata.
Qed.
Lemma step_grows : forall F full s s', scan_step F full s = Val s' -> grows (sc_parser s) (sc_parser s').
Proof.
  intros F full [st b i g0] s' H. cbn [sc_parser]. unfold scan_step in H. cbn [sc_state sc_buffer sc_input sc_parser] in H.
  eapply grows_trans; [apply quiet_grows, (quiet_cdata g0 false)|]. set (g := set_cdata false g0) in *. clearbody g.
  destruct (next_char i) as [ch i']. destruct (negb _) in H; [injection H as <-; apply grows_refl|].
  destruct (search st ch None state_table) as [[a n]|]; [|discriminate].
  destruct (match a with A_ENTITY => true | _ => false end) eqn:AE.
  - assert (a = A_ENTITY) by (destruct a; try discriminate; reflexivity). subst a. unfold do_entity in H.
    destruct (more_reference st ch); [injection H as <-; apply grows_refl|]. destruct b as [|c t]; [discriminate|].
    assert (Q : grows g (entity t g)) by (apply quiet_grows, quiet_entity).
    destruct (tg_entity (entity t g) =? 0); cbn [obind] in H; injection H as <-; exact Q.
  - destruct a; try discriminate AE;
      match type of H with obind ?o _ = _ => destruct o as [[b' g']| |] eqn:EA; try discriminate H; cbn [obind] in H; injection H as <-; exact (act_grows _ _ _ _ _ _ _ _ _ EA) end.
Qed.
Lemma scan_grows : forall F full fuel s g, scan fuel F full s = Val g -> grows (sc_parser s) g.
Proof.
  intros F full fuel. induction fuel as [|fuel IH]; intros s g H; cbn [scan] in H.
  - destruct (sc_state s); try discriminate H. apply quiet_grows. exact (quietly_eof _ _ _ H).
  - assert (K : eof F (sc_parser s) = Val g \/ obind (scan_step F (full fuel) s) (scan fuel F full) = Val g) by (destruct (sc_state s); auto).
    destruct K as [K|K]; [apply quiet_grows; exact (quietly_eof _ _ _ K)|].
    destruct (scan_step F (full fuel) s) as [s'| |] eqn:E; try discriminate. cbn [obind] in K. eapply grows_trans; [exact (step_grows _ _ _ _ E)|apply IH; exact K].
Qed.

(** * Splitting *)
Definition word_char (c : Z) : Prop := 33 <= c < 256 /\ c <> 39 /\ c <> 34 /\ c <> 62.
Lemma wide_space : forall c, 0 <= c < 256 -> is_space (wide c) = white c.
Proof.
  intros c R. unfold is_space, white, wide. destruct (Z.ltb_spec c 128); [|].
  - destruct (c =? 32), (c =? 9), (c =? 10), (c =? 13); reflexivity.
  - repeat match goal with |- context [?a =? ?b] => destruct (Z.eqb_spec a b); [exfalso; lia|] end. reflexivity.
Qed.
Lemma word_char_space : forall c, word_char c -> is_space (wide c) = false /\ white c = false.
Proof.
  intros c (R & _). rewrite wide_space by lia. assert (W : white c = false).
  { unfold white. repeat match goal with |- context [?a =? ?b] => destruct (Z.eqb_spec a b); [exfalso; lia|] end. reflexivity. }
  auto.
Qed.
Lemma split_word : forall v w r i s last sp, Forall word_char w -> w <> [] -> exists last',
  split_from v (w ++ r) i s false false last sp = split_from v r (i + length w) (match s with None => Some i | x => x end) false false last' sp.
Proof.
  intros v w. induction w as [|c w IH]; intros r i s last sp W NE; [contradiction|]. inversion W as [|? ? WC W']; subst.
  destruct (word_char_space c WC) as [SP _]. destruct WC as (R & Q1 & Q2 & _).
  assert (ST : split_from v ((c :: w) ++ r) i s false false last sp = split_from v (w ++ r) (S i) (match s with None => Some i | x => x end) false false c sp).
  { cbn [app split_from negb andb]. destruct (Z.eqb_spec c 39); [contradiction|]. destruct (Z.eqb_spec c 34); [contradiction|]. cbn [andb]. rewrite SP.
    destruct (Z.eqb_spec c 32); [lia|]. reflexivity. }
  rewrite ST. destruct w as [|d w].
  - exists c. cbn [app length]. replace (i + 1)%nat with (S i) by lia. reflexivity.
  - destruct (IH r (S i) (match s with None => Some i | x => x end) c sp W') as (last' & E); [discriminate|]. exists last'. rewrite E. cbn [length].
    replace (S i + S (length w))%nat with (i + S (S (length w)))%nat by lia. destruct s; reflexivity.
Qed.
Lemma split_two : forall a b, Forall word_char a -> Forall word_char b -> a <> [] -> b <> [] ->
  split_from (a ++ 32 :: b) (a ++ 32 :: b) 0 (Some 0%nat) false false 0 [] = Val [a; b].
Proof.
  intros a b A B NA NB. destruct (split_word (a ++ 32 :: b) a (32 :: b) 0 (Some 0%nat) 0 [] A NA) as (l1 & E1). rewrite E1. cbn [Nat.add].
  cbn [split_from negb andb]. change (32 =? 39) with false. change (32 =? 34) with false. change (is_space (wide 32)) with true. cbn [andb].
  unfold substr at 1. cbn [skipn]. rewrite firstn_app, Nat.sub_diag, firstn_all. cbn [firstn obind]. rewrite app_nil_r.
  pose proof (split_word (a ++ 32 :: b) b [] (S (length a)) None 32 ([] ++ [a]) B NB) as (l2 & E2). rewrite app_nil_r in E2. rewrite E2.
  cbn [split_from substr obind]. assert (SK : skipn (S (length a)) (a ++ 32 :: b) = b).
  { rewrite skipn_app. rewrite skipn_all2 by lia. replace (S (length a) - length a)%nat with 1%nat by lia. reflexivity. }
  rewrite SK. rewrite firstn_all2 by lia. reflexivity.
Qed.
Definition blanks (s : str) : Prop := Forall (fun c => c = 32 \/ c = 9 \/ c = 10) s.
Lemma blanks_white : forall s, blanks s -> forallb white s = true.
Proof. induction 1 as [|c s [->|[->| ->]] _ IH]; [reflexivity| | |]; exact IH. Qed.
Lemma word_solid : forall w, Forall word_char w -> forallb (fun c => negb (white c)) w = true.
Proof. induction 1 as [|c w W _ IH]; [reflexivity|]. cbn [forallb]. destruct (word_char_space c W) as [_ ->]. exact IH. Qed.
Definition k_doctype_word : str := ascii_str "DOCTYPE".
Lemma split_doctype : forall w1 n w2, blanks w1 -> w1 <> [] -> Forall word_char n -> n <> [] -> blanks w2 ->
  split_words (k_doctype_word ++ w1 ++ n ++ w2) = Val [k_doctype_word; n].
Proof.
  intros w1 n w2 B1 N1 W NN B2. unfold split_words. rewrite normalize_whitespace_spec.
  assert (KW : Forall word_char k_doctype_word) by (repeat (apply Forall_cons; [split; [cbn; lia|]; repeat split; discriminate|]); apply Forall_nil).
  assert (E : words (k_doctype_word ++ w1 ++ n ++ w2) = [k_doctype_word; n]).
  { rewrite words_word; [|apply word_solid; exact KW|discriminate|].
    - rewrite words_spaces by (apply blanks_white; exact B1). rewrite words_word; [|apply word_solid; exact W|exact NN|].
      + rewrite <- (app_nil_r w2) at 1. rewrite words_spaces by (apply blanks_white; exact B2). reflexivity.
      + destruct B2 as [|c w2 [->|[->| ->]] _]; auto.
    - destruct B1 as [|c w1 [->|[->| ->]] _]; [contradiction| | |]; reflexivity. }
  rewrite E. cbn [obind spaced]. pose proof (split_two k_doctype_word n KW W ltac:(discriminate) NN) as S. exact S.
Qed.
Lemma decl_name : forall w1 n w2 g, blanks w1 -> w1 <> [] -> Forall word_char n -> n <> [] -> blanks w2 -> tg_doctype g = false ->
  decl (k_doctype_word ++ w1 ++ n ++ w2) g = Val (tell [HStartDTD n [] []; HEndDTD] (set_doctype true g)).
Proof.
  intros w1 n w2 g B1 N1 W NN B2 D. unfold decl. rewrite split_doctype by assumption. cbn [obind nth length]. change (str_eqb k_doctype_word (ascii_str "DOCTYPE")) with true. cbn match. rewrite D.
  assert (C : c_string n = n) by (apply c_string_nonzero; eapply Forall_impl; [|exact W]; intros c (R & _); lia).
  rewrite <- C at 2. destruct n as [|c n]; [contradiction|]. reflexivity.
Qed.
(** * The scanner *)
Definition decl_char (c : Z) : Prop := (32 <= c < 256 \/ c = 9 \/ c = 10) /\ c <> 62.
Lemma search_decl2 : forall c, c <> 62 -> c <> -1 -> search S_DECL2 c None state_table = Some (A_SAVE, S_DECL2).
Proof.
  intros c N1 N2. cbn -[Z.eqb].
  repeat match goal with |- context [if ?c =? 0 then _ else _] => let x := eval vm_compute in (c =? 0) in change (c =? 0) with x; cbn -[Z.eqb] end.
  destruct (Z.eqb_spec 62 c); [congruence|]. destruct (Z.eqb_spec (-1) c); [congruence|]. reflexivity.
Qed.
Lemma declare : forall F full cs f b bf r g, Forall decl_char cs -> tg_cdata g = false ->
  exists bf', scan (length cs + f) F full (Scanner S_DECL2 b (Input bf (cs ++ r) false) g) = scan f F full (Scanner S_DECL2 (b ++ cs) (Input bf' r false) g).
Proof.
  intros F full cs. induction cs as [|c cs IH]; intros f b bf r g H C.
  - exists bf. rewrite app_nil_r. reflexivity.
  - inversion H as [|? ? [R NE] H']; subst. destruct (IH f (b ++ [c]) (c :: bf) r g H' C) as (bf' & E). exists bf'. rewrite <- app_assoc in E. cbn [app] in E. rewrite <- E.
    cbn [length Nat.add app]. apply scan_go; [discriminate|]. unfold scan_step. cbn [sc_input sc_state sc_buffer sc_parser]. unfold next_char, get_char. cbn [in_failed in_rest in_before].
    destruct (Z.eqb_spec c 13); [lia|]. assert (SH : negb ((32 <=? c) || (c =? 10) || (c =? 9) || (c =? -1)) = false) by (destruct R as [R|[->| ->]]; [destruct (Z.leb_spec 32 c); [reflexivity|lia]|reflexivity|reflexivity]).
    rewrite SH, search_decl2 by lia. cbn [act]. unfold save. cbn [in_text]. rewrite Bool.andb_false_r. cbn [obind]. rewrite as_byte_same by lia. rewrite set_cdata_same by exact C. rewrite C. reflexivity.
Qed.
Ltac char_step ch :=
  apply scan_go; [discriminate|]; unfold scan_step; cbn [sc_input sc_state sc_buffer sc_parser]; unfold next_char, get_char; cbn [in_failed in_rest in_before]; change (ch =? 13) with false; cbn match;
  match goal with |- context [search ?s ?c None state_table] => let x := eval vm_compute in (search s c None state_table) in assert (SE : search s c None state_table = x) by (vm_compute; reflexivity) end.
Lemma scan_doctype : forall F full f w1 n w2 r g0 g, blanks w1 -> w1 <> [] -> Forall word_char n -> n <> [] -> blanks w2 -> tg_cdata g0 = false -> tg_doctype g0 = false ->
  forall cs, cs = ascii_str "OCTYPE" ++ w1 ++ n ++ w2 -> Forall decl_char cs ->
  scan (S (S (S (length cs + S f)))) F full (Scanner S_PCDATA [] (Input [] (60 :: 33 :: 68 :: cs ++ 62 :: r) false) g0) = Val g ->
  grows (tell [HStartDTD n [] []; HEndDTD] (set_doctype true g0)) g.
Proof.
  intros F full f w1 n w2 r g0 g B1 N1 W NN B2 C0 D0 cs EC DC E.
  assert (E1 : forall k i, scan (S k) F full (Scanner S_PCDATA [] (Input i (60 :: 33 :: 68 :: cs ++ 62 :: r) false) g0) = scan k F full (Scanner S_TAG [] (Input (60 :: i) (33 :: 68 :: cs ++ 62 :: r) false) g0)).
  { intros k i. char_step 60. rewrite SE. change (negb _) with false. cbn match. cbn [act pcdata cleared obind]. rewrite set_cdata_same by exact C0. rewrite C0. reflexivity. }
  rewrite E1 in E. clear E1.
  assert (E1 : forall k i, scan (S k) F full (Scanner S_TAG [] (Input i (33 :: 68 :: cs ++ 62 :: r) false) g0) = scan k F full (Scanner S_DECL [] (Input (33 :: i) (68 :: cs ++ 62 :: r) false) g0)).
  { intros k i. char_step 33. rewrite SE. change (negb _) with false. cbn match. cbn [act obind]. rewrite set_cdata_same by exact C0. rewrite C0. reflexivity. }
  rewrite E1 in E. clear E1.
  assert (E1 : forall k i, scan (S k) F full (Scanner S_DECL [] (Input i (68 :: cs ++ 62 :: r) false) g0) = scan k F full (Scanner S_DECL2 [68] (Input (68 :: i) (cs ++ 62 :: r) false) g0)).
  { intros k i. char_step 68. rewrite SE. change (negb _) with false. cbn match. cbn [act]. unfold save. cbn [in_text]. rewrite Bool.andb_false_r. cbn [obind]. rewrite set_cdata_same by exact C0. rewrite C0. reflexivity. }
  rewrite E1 in E. clear E1.
  destruct (declare F full cs (S f) [68] [68; 33; 60] (62 :: r) g0 DC C0) as (bf & E2). rewrite E2 in E. clear E2.
  assert (E1 : scan (S f) F full (Scanner S_DECL2 ([68] ++ cs) (Input bf (62 :: r) false) g0) = scan f F full (Scanner S_PCDATA [] (Input (62 :: bf) r false) (tell [HStartDTD n [] []; HEndDTD] (set_doctype true g0)))).
  { char_step 62. rewrite SE. change (negb _) with false. cbn match. cbn [act]. rewrite set_cdata_same by exact C0.
    rewrite EC. change ([68] ++ ascii_str "OCTYPE" ++ w1 ++ n ++ w2) with (k_doctype_word ++ w1 ++ n ++ w2). rewrite decl_name by assumption. cbn [cleared obind tell set_doctype tg_cdata]. rewrite C0. reflexivity. }
  rewrite E1 in E. exact (scan_grows _ _ _ _ _ E).
Qed.
Theorem parse_doctype : forall F full w1 n w2 r, blanks w1 -> w1 <> [] -> Forall word_char n -> n <> [] -> blanks w2 -> exists l,
  parse F full (ascii_str "<!DOCTYPE" ++ w1 ++ n ++ w2 ++ ascii_str ">" ++ r) = Val ([HStartDocument; HLocator; HStartMapping schema_prefix schema_uri; HStartDTD n [] []; HEndDTD] ++ l).
Proof.
  intros F full w1 n w2 r B1 N1 W NN B2.
  assert (X : forall cs, cs = ascii_str "OCTYPE" ++ w1 ++ n ++ w2 -> ascii_str "<!DOCTYPE" ++ w1 ++ n ++ w2 ++ ascii_str ">" ++ r = 60 :: 33 :: 68 :: cs ++ 62 :: r).
  { intros cs ->. change (ascii_str "<!DOCTYPE") with (60 :: 33 :: 68 :: ascii_str "OCTYPE"). cbn [app]. do 3 f_equal. rewrite <- !app_assoc. reflexivity. }
  assert (DC : forall cs, cs = ascii_str "OCTYPE" ++ w1 ++ n ++ w2 -> Forall decl_char cs).
  { intros cs ->. repeat (apply Forall_app; split).
    - repeat (apply Forall_cons; [split; [left; cbn; lia|discriminate]|]). apply Forall_nil.
    - eapply Forall_impl; [|exact B1]. intros c H. cbn beta in H. unfold decl_char. lia.
    - eapply Forall_impl; [|exact W]. intros c (H & _ & _ & N). split; [left; lia|exact N].
    - eapply Forall_impl; [|exact B2]. intros c H. cbn beta in H. unfold decl_char. lia. }
  remember (ascii_str "OCTYPE" ++ w1 ++ n ++ w2) as cs eqn:EC. rewrite (X cs eq_refl). specialize (DC cs eq_refl). clear X.
  destruct (parse_again_ok false F full (60 :: 33 :: 68 :: cs ++ 62 :: r)) as (g & _ & E & _). unfold parse. rewrite E. cbn [obind].
  assert (GR : grows (tell [HStartDTD n [] []; HEndDTD] (set_doctype true (setup F false))) g).
  { unfold parse_again in E.
    assert (FU : exists f, fuel_for (60 :: 33 :: 68 :: cs ++ 62 :: r) = (S (S (S (length cs + S f))))%nat).
    { exists (length cs + 2 * length r + 14)%nat. unfold fuel_for. cbn [length]. rewrite app_length. cbn [length]. lia. }
    destruct FU as (f & FU). rewrite FU in E. apply (scan_doctype F full f w1 n w2 r (setup F false) g B1 N1 W NN B2) with (cs := cs); auto. }
  destruct GR as (l & EG). exists l. rewrite EG. reflexivity.
Qed.
