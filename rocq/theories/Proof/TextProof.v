From Verif.Model Require Import Base Chars Text.
From Verif.Spec Require Import XmlChars TextSpec.
From Verif.Proof Require Import Tac CharsProof.

(** * Escaping *)

Lemma expand_plain c r : c <> 38 -> c <> 60 ->
  expand None (c :: r) =
  match expand None r with Some l => Some ((false, c) :: l) | None => None end.
Proof.
  intros H1 H2. cbn [expand].
  destruct (Z.eqb_spec c 38), (Z.eqb_spec c 60); try lia. reflexivity.
Qed.

Lemma expand_text1 c r l : expand None r = Some l ->
  exists b, expand None (text_escape1 c ++ r) = Some ((b, c) :: l).
Proof.
  intros H. unfold text_escape1.
  destruct (Z.eqb_spec c 60) as [->|]; [exists true; cbn; rewrite H; reflexivity|].
  destruct (Z.eqb_spec c 62) as [->|]; [exists true; cbn; rewrite H; reflexivity|].
  destruct (Z.eqb_spec c 38) as [->|]; [exists true; cbn; rewrite H; reflexivity|].
  exists false. cbn [app]. rewrite expand_plain, H by assumption. reflexivity.
Qed.

Lemma text_expand s : exists l, expand None (text_escape s) = Some l /\ map snd l = s.
Proof.
  induction s as [|c s (l & E & M)]; [exists []; auto|].
  destruct (expand_text1 c _ _ E) as (b & E2).
  exists ((b, c) :: l). unfold text_escape. cbn [flat_map map snd].
  split; [exact E2|congruence].
Qed.

Lemma expand_attr1 c r l : expand None r = Some l ->
  exists b, expand None (attribute_escape1 c ++ r) = Some ((b, c) :: l)
            /\ (b = true \/ c <> 9 /\ c <> 10 /\ c <> 13).
Proof.
  intros H. unfold attribute_escape1.
  destruct (Z.eqb_spec c 34) as [->|]; [exists true; cbn; rewrite H; auto|].
  destruct (Z.eqb_spec c 9) as [->|]; [exists true; cbn; rewrite H; auto|].
  destruct (Z.eqb_spec c 10) as [->|]; [exists true; cbn; rewrite H; auto|].
  destruct (Z.eqb_spec c 13) as [->|]; [exists true; cbn; rewrite H; auto|].
  destruct (expand_text1 c _ _ H) as (b & E). exists b. split; [exact E|]. right. auto.
Qed.

Lemma attr_expand s : exists l, expand None (attribute_escape s) = Some l /\ map norm_attr l = s.
Proof.
  induction s as [|c s (l & E & M)]; [exists []; auto|].
  destruct (expand_attr1 c _ _ E) as (b & E2 & D).
  exists ((b, c) :: l). unfold attribute_escape. cbn [flat_map map].
  split; [exact E2|]. rewrite M. f_equal. unfold norm_attr.
  destruct D as [->|(D1 & D2 & D3)]; [reflexivity|].
  destruct (Z.eqb_spec c 9), (Z.eqb_spec c 10), (Z.eqb_spec c 13); try lia.
  cbn. rewrite andb_false_r. reflexivity.
Qed.

Lemma eol_id s : ~ In 13 s -> eol s = s.
Proof.
  induction s as [|c s IH]; intros H; [reflexivity|]. cbn [eol].
  destruct (Z.eqb_spec c 13) as [->|]; [exfalso; apply H; left; reflexivity|].
  rewrite IH; [reflexivity|]. intros K. apply H. right. exact K.
Qed.

Lemma text_escape1_in x c : In x (text_escape1 c) ->
  x = c /\ c <> 60 /\ c <> 62 /\ c <> 38 \/ In x [38; 108; 116; 59; 103; 97; 109; 112].
Proof.
  unfold text_escape1.
  destruct (Z.eqb_spec c 60); [cbn; intuition|].
  destruct (Z.eqb_spec c 62); [cbn; intuition|].
  destruct (Z.eqb_spec c 38); [cbn; intuition|].
  cbn. intros [<-|[]]. left. auto.
Qed.
Lemma text_escape_no s x : x = 60 \/ x = 62 -> ~ In x (text_escape s).
Proof.
  intros Hx H. apply in_flat_map in H. destruct H as (c & _ & H).
  apply text_escape1_in in H. cbn in H. lia.
Qed.
Lemma text_escape_cr s : ~ In 13 s -> ~ In 13 (text_escape s).
Proof.
  intros H K. apply in_flat_map in K. destruct K as (c & Hc & K).
  apply text_escape1_in in K. destruct K as [(K & _)|K]; [subst c; auto|cbn in K; lia].
Qed.
Lemma attr_escape_no s x : In x [60; 62; 34; 9; 10; 13] -> ~ In x (attribute_escape s).
Proof.
  intros Hx H. apply in_flat_map in H. destruct H as (c & _ & H).
  unfold attribute_escape1 in H. cbn in Hx.
  destruct (Z.eqb_spec c 34); [cbn in H; lia|].
  destruct (Z.eqb_spec c 9); [cbn in H; lia|].
  destruct (Z.eqb_spec c 10); [cbn in H; lia|].
  destruct (Z.eqb_spec c 13); [cbn in H; lia|].
  apply text_escape1_in in H. destruct H as [(K & H)|H]; [subst x; lia|cbn in H; lia].
Qed.

Lemma content_roundtrip s : ~ In 13 s -> read_content (text_escape s) = Some s.
Proof.
  intros H. unfold read_content. rewrite eol_id by (apply text_escape_cr; exact H).
  destruct (text_expand s) as (l & -> & M). congruence.
Qed.
Lemma content_references s : exists l, expand None (text_escape s) = Some l /\ map snd l = s.
Proof. exact (text_expand s). Qed.
Lemma attribute_roundtrip s : read_attribute (attribute_escape s) = Some s.
Proof.
  unfold read_attribute. rewrite eol_id by (apply attr_escape_no; cbn; auto 9).
  destruct (existsb (fun c => c =? 34) (attribute_escape s)) eqn:E.
  - apply existsb_exists in E. destruct E as (x & H & E). apply Z.eqb_eq in E. subst x.
    exfalso. revert H. apply attr_escape_no. cbn. auto.
  - destruct (attr_expand s) as (l & -> & M). congruence.
Qed.

(** * Names *)

Lemma ncname_spec s : is_ncname s = true <-> NCName s.
Proof.
  unfold NCName. destruct s as [|c r]; cbn [is_ncname].
  - split; [discriminate|]. intros (c & r & E & _). discriminate.
  - split.
    + destruct (is_letter c || (c =? 95)) eqn:E; cbn [negb]; [|discriminate].
      intros H. exists c, r. split; [reflexivity|]. split.
      * rewrite among_app, among_one, <- letter_spec. apply orb_true_iff in E.
        destruct E as [E|E]; [left; exact E|right; lia].
      * rewrite Forall_forall. rewrite forallb_forall in H. intros x Hx.
        apply ncname_char_spec, H, Hx.
    + intros (c' & r' & E & H1 & H2). inversion E; subst c' r'.
      rewrite among_app, among_one, <- letter_spec in H1.
      assert (is_letter c || (c =? 95) = true) as ->.
      { apply orb_true_iff. destruct H1 as [H1|H1]; [left; exact H1|right; lia]. }
      cbn [negb]. rewrite forallb_forall. rewrite Forall_forall in H2. intros x Hx.
      apply ncname_char_spec, H2, Hx.
Qed.

Lemma find_char_none x s : find_char x s = None <-> ~ In x s.
Proof.
  induction s as [|c s IH]; cbn [find_char In]; [split; auto|].
  destruct (Z.eqb_spec c x) as [->|N].
  - split; [discriminate|]. intros H; exfalso; auto.
  - destruct (find_char x s); split; intros H; try discriminate; try reflexivity.
    + exfalso. destruct IH as [_ IH]. discriminate IH. tauto.
    + destruct IH as [IH _]. specialize (IH eq_refl). tauto.
Qed.
Lemma find_char_some x s n : find_char x s = Some n <->
  exists a b, s = a ++ x :: b /\ n = length a /\ ~ In x a.
Proof.
  revert n. induction s as [|c s IH]; intros n; cbn [find_char].
  - split; [discriminate|]. intros (a & b & E & _). destruct a; discriminate.
  - destruct (Z.eqb_spec c x) as [->|N].
    + split.
      * intros E. inversion E. exists [], s. auto.
      * intros (a & b & E & -> & H). destruct a as [|y a]; [reflexivity|].
        inversion E; subst. exfalso. apply H. left. reflexivity.
    + split.
      * destruct (find_char x s) as [m|]; [|discriminate]. intros E. inversion E; subst n.
        destruct (proj1 (IH m) eq_refl) as (a & b & -> & -> & H).
        exists (c :: a), b. repeat split. intros [K|K]; [congruence|auto].
      * intros (a & b & E & -> & H). destruct a as [|y a]; [inversion E; congruence|].
        inversion E; subst y s.
        rewrite (proj2 (IH (length a))); [reflexivity|].
        exists a, b. repeat split. intros K. apply H. right. exact K.
Qed.

Lemma colon_not_ncname : ~ among 58 NCNameChar.
Proof. rewrite <- ncname_char_spec. vm_compute. discriminate. Qed.
Lemma ncname_no_colon s : NCName s -> ~ In 58 s.
Proof.
  intros (c & r & -> & H1 & H2) [K|K].
  - subst c. rewrite among_app, among_one, <- letter_spec in H1.
    destruct H1 as [H1|H1]; [vm_compute in H1; discriminate|lia].
  - rewrite Forall_forall in H2. exact (colon_not_ncname (H2 _ K)).
Qed.

Lemma firstn_length_app {A} (a b : list A) : firstn (length a) (a ++ b) = a.
Proof. rewrite firstn_app, firstn_all, Nat.sub_diag. apply app_nil_r. Qed.
Lemma skipn_length_app1 {A} (a : list A) x b : skipn (length a + 1) (a ++ x :: b) = b.
Proof. induction a as [|y a IH]; [reflexivity|exact IH]. Qed.

Lemma qname_spec s : is_qname s = true <-> QName s.
Proof.
  unfold is_qname, QName. destruct (find_char 58 s) as [n|] eqn:F.
  - apply find_char_some in F. destruct F as (a & b & -> & -> & Ha).
    rewrite firstn_length_app, skipn_length_app1, andb_true_iff, !ncname_spec. split.
    + intros (H1 & H2). right. exists a, b. auto.
    + intros [H|(p & l & E & Hp & Hl)].
      * exfalso. apply (ncname_no_colon _ H). apply in_or_app. right. left. reflexivity.
      * assert (a = p /\ b = l) as (-> & ->); [|auto].
        assert (find_char 58 (a ++ 58 :: b) = Some (length a)) as F1
          by (apply find_char_some; eauto).
        assert (find_char 58 (p ++ 58 :: l) = Some (length p)) as F2
          by (apply find_char_some; exists p, l; auto using ncname_no_colon).
        cbn [app] in E. rewrite E in F1. rewrite F1 in F2. inversion F2 as [L].
        apply app_len_inj in E; [|congruence]. destruct E as (-> & E). inversion E. auto.
  - apply find_char_none in F. rewrite ncname_spec. split; [auto|].
    intros [H|(p & l & -> & _)]; [exact H|]. exfalso. apply F.
    apply in_or_app. right. left. reflexivity.
Qed.

Lemma parse_qname_bad s at_ m : parse_qname s at_ m = None <-> ~ QName s.
Proof.
  unfold parse_qname. rewrite <- qname_spec. destruct (is_qname s); cbn [negb].
  - split; [|tauto]. destruct (find_char 58 s); discriminate.
  - split; auto.
Qed.
Lemma parse_qname_plain s at_ m : NCName s ->
  parse_qname s at_ m = Some (QN [] s (if at_ then [] else m []) s).
Proof.
  intros H. unfold parse_qname. rewrite (proj2 (qname_spec s)) by (left; exact H).
  cbn [negb]. rewrite (proj2 (find_char_none 58 s)) by (apply ncname_no_colon; exact H).
  reflexivity.
Qed.
Lemma parse_qname_prefixed p l at_ m : NCName p -> NCName l ->
  parse_qname (p ++ [58] ++ l) at_ m = Some (QN p l (m p) (p ++ [58] ++ l)).
Proof.
  intros Hp Hl. unfold parse_qname.
  rewrite (proj2 (qname_spec _)) by (right; exists p, l; auto). cbn [negb app].
  rewrite (proj2 (find_char_some 58 _ (length p)))
    by (exists p, l; auto using ncname_no_colon).
  rewrite firstn_length_app, skipn_length_app1. reflexivity.
Qed.

(** * White space *)

Lemma is_space_white c : is_space c = white c.
Proof. unfold is_space, white. lia. Qed.

Lemma get_app a c b : get_nth (length a) (a ++ c :: b) = Val c.
Proof. unfold get_nth. rewrite nth_error_app2, Nat.sub_diag by lia. reflexivity. Qed.
Lemma set_app a c b x : set_nth (length a) x (a ++ c :: b) = Val (a ++ x :: b).
Proof. induction a as [|y a IH]; [reflexivity|]. cbn. rewrite IH. reflexivity. Qed.

Lemma skip_spaces_spec r : forall fuel pre, (length r < fuel)%nat ->
  exists sp rest, r = sp ++ rest /\ forallb white sp = true
    /\ match rest with [] => True | c :: _ => white c = false end
    /\ skip_spaces fuel (pre ++ r) (length pre) = Val (length pre + length sp)%nat.
Proof.
  induction r as [|c r IH]; intros fuel pre L; (destruct fuel as [|fuel]; [cbn in L; lia|]).
  - exists [], []. rewrite (app_nil_r pre). cbn [skip_spaces]. rewrite Nat.eqb_refl, Nat.add_0_r. auto.
  - cbn [skip_spaces length] in *. rewrite app_length.
    destruct (Nat.eqb_spec (length pre) (length pre + length (c :: r))%nat) as [K|_];
      [cbn [length] in K; lia|].
    rewrite get_app. cbn [obind]. rewrite is_space_white. destruct (white c) eqn:W.
    + destruct (IH fuel (pre ++ [c])) as (sp & rest & -> & H1 & H2 & H3); [lia|].
      exists (c :: sp), rest. split; [reflexivity|]. split; [cbn; rewrite W; exact H1|].
      split; [exact H2|].
      rewrite <- app_assoc in H3. cbn [app] in H3.
      rewrite app_length in H3. cbn [length] in *.
      replace (length pre + 1)%nat with (S (length pre)) in H3 by lia.
      rewrite H3. f_equal. lia.
    + exists [], (c :: r). rewrite Nat.add_0_r. auto.
Qed.

(** The buffer is w ++ g ++ r: written, stale, unread. *)
Lemma copy_word_spec r : forall fuel w g, (length r < fuel)%nat ->
  exists wd rest g', r = wd ++ rest /\ forallb (fun c => negb (white c)) wd = true
    /\ match rest with [] => True | c :: _ => white c = true end
    /\ length g' = length g
    /\ copy_word fuel (w ++ g ++ r) (length (w ++ g)) (length w)
       = Val ((w ++ wd) ++ g' ++ rest, length ((w ++ wd) ++ g'), length (w ++ wd)).
Proof.
  induction r as [|c r IH]; intros fuel w g L; (destruct fuel as [|fuel]; [cbn in L; lia|]).
  - exists [], [], g. rewrite !app_nil_r. cbn [copy_word]. rewrite Nat.eqb_refl. auto.
  - cbn [copy_word length] in *. rewrite app_assoc, (app_length (w ++ g)).
    destruct (Nat.eqb_spec (length (w ++ g)) (length (w ++ g) + length (c :: r))%nat) as [K|_];
      [cbn [length] in K; lia|].
    rewrite get_app. cbn [obind]. rewrite is_space_white. destruct (white c) eqn:W.
    + exists [], (c :: r), g. rewrite app_nil_r, app_assoc. repeat split; auto.
    + destruct g as [|y g].
      * rewrite app_nil_r, set_app. cbn [obind].
        destruct (IH fuel (w ++ [c]) []) as (wd & rest & g' & -> & H1 & H2 & H3 & H4); [lia|].
        exists (c :: wd), rest, g'. split; [reflexivity|].
        split; [cbn; rewrite W; exact H1|]. split; [exact H2|]. split; [exact H3|].
        rewrite app_nil_r in H4. cbn [app] in H4.
        rewrite <- !(app_assoc w [c]) in H4. cbn [app] in H4.
        rewrite app_length in H4 at 1 2. cbn [length] in H4.
        rewrite Nat.add_1_r in H4. exact H4.
      * rewrite <- app_assoc. cbn [app]. rewrite set_app. cbn [obind].
        destruct (IH fuel (w ++ [c]) (g ++ [c])) as (wd & rest & g' & -> & H1 & H2 & H3 & H4);
          [lia|].
        exists (c :: wd), rest, g'. split; [reflexivity|].
        split; [cbn; rewrite W; exact H1|]. split; [exact H2|].
        split; [rewrite H3, app_length; cbn; lia|].
        rewrite <- (app_assoc g) in H4. rewrite <- !(app_assoc w [c]) in H4. cbn [app] in H4.
        assert (L1 : length (w ++ c :: g ++ [c]) = S (length (w ++ y :: g))).
        { rewrite !app_length. cbn [length]. rewrite app_length. cbn. lia. }
        assert (L2 : length (w ++ [c]) = S (length w)) by (rewrite app_length; cbn; lia).
        rewrite L1, L2 in H4. exact H4.
Qed.

(** Words, seen one at a time. *)
Lemma words_acc_nonspace wd : forall w r, forallb (fun c => negb (white c)) wd = true ->
  words_acc w (wd ++ r) = words_acc (w ++ wd) r.
Proof.
  induction wd as [|c wd IH]; intros w r H; cbn [app]; [rewrite app_nil_r; reflexivity|].
  cbn [forallb] in H. bsplit. cbn [words_acc]. rewrite H. rewrite IH by assumption.
  rewrite <- app_assoc. reflexivity.
Qed.
Lemma words_spaces sp r : forallb white sp = true -> words (sp ++ r) = words r.
Proof.
  induction sp as [|c sp IH]; intros H; [reflexivity|]. cbn [forallb] in H. bsplit.
  unfold words in *. cbn [app words_acc]. rewrite H. auto.
Qed.
Lemma words_word wd r : forallb (fun c => negb (white c)) wd = true -> wd <> [] ->
  match r with [] => True | c :: _ => white c = true end ->
  words (wd ++ r) = wd :: words r.
Proof.
  intros H N E. unfold words. rewrite words_acc_nonspace by assumption. cbn [app].
  destruct r as [|c r]; cbn [words_acc].
  - destruct wd; [congruence|reflexivity].
  - rewrite E. destruct wd; [congruence|reflexivity].
Qed.
Lemma words_nonempty r : match r with [] => False | c :: _ => white c = false end -> words r <> [].
Proof.
  destruct r as [|c r]; [tauto|]. intros W. unfold words. cbn [words_acc]. rewrite W. cbn [app].
  assert (forall s w, w <> [] -> words_acc w s <> []) as K.
  { induction s as [|d s IH]; intros w Hw; cbn [words_acc].
    - destruct w; [congruence|discriminate].
    - destruct (white d).
      + destruct w; [congruence|discriminate].
      + apply IH. destruct w; discriminate. }
  apply K. discriminate.
Qed.

Lemma norm_words_spec fuel : forall r w g, (length r < fuel)%nat ->
  match r with [] => True | c :: _ => white c = false end ->
  exists junk,
    norm_words fuel (w ++ g ++ r) (length (w ++ g)) (length w)
    = Val ((w ++ spaced (words r)) ++ junk, length (w ++ spaced (words r))).
Proof.
  induction fuel as [|fuel IH]; intros r w g L HD; [lia|].
  cbn [norm_words]. rewrite app_assoc, (app_length (w ++ g)).
  destruct r as [|c r].
  { cbn [length]. rewrite Nat.add_0_r, Nat.eqb_refl. exists g. cbn. rewrite !app_nil_r.
    reflexivity. }
  destruct (Nat.eqb_spec (length (w ++ g)) (length (w ++ g) + length (c :: r))%nat) as [K|_];
    [cbn [length] in K; lia|].
  rewrite <- app_assoc.
  destruct (copy_word_spec (c :: r) (S (length (w ++ g) + length (c :: r))) w g)
    as (wd & rest & g' & E & H1 & H2 & H3 & H4); [lia|].
  rewrite H4. cbn [obind].
  assert (Hwd : wd <> []).
  { intros ->. cbn [app] in E. subst rest. congruence. }
  rewrite app_assoc.
  destruct (skip_spaces_spec rest (S (length (((w ++ wd) ++ g') ++ rest))) ((w ++ wd) ++ g'))
    as (sp & rest' & E2 & H5 & H6 & H7); [rewrite app_length; lia|].
  rewrite H7. cbn [obind]. rewrite (app_length _ rest), E2, (app_length sp).
  rewrite E. rewrite words_word by assumption. rewrite E2, words_spaces by assumption.
  assert (LR : (length rest' < length (c :: r))%nat).
  { rewrite E, E2, !app_length. destruct wd; [congruence|cbn; lia]. }
  destruct (Nat.eqb_spec (length ((w ++ wd) ++ g') + length sp)
              (length ((w ++ wd) ++ g') + (length sp + length rest'))%nat) as [K|K].
  - destruct rest'; [|cbn [length] in K; lia].
    destruct (IH [] (w ++ wd) (g' ++ sp)) as (junk & J); [cbn [length] in *; lia|exact I|].
    exists junk. rewrite app_nil_r. cbn [words words_acc spaced] in *.
    rewrite app_nil_r in J. rewrite <- !app_assoc in *. rewrite app_nil_r in J.
    rewrite !app_length in *. rewrite app_nil_r in *.
    rewrite <- !Nat.add_assoc in *. exact J.
  - destruct rest' as [|d rest']; [cbn [length] in K; lia|].
    destruct sp as [|x sp].
    { exfalso. cbn [app] in E2. subst rest. congruence. }
    destruct (g' ++ x :: sp) as [|y gg] eqn:EG; [destruct g'; discriminate|].
    assert (EB : ((w ++ wd) ++ g') ++ (x :: sp) ++ d :: rest'
                 = (w ++ wd) ++ y :: gg ++ d :: rest').
    { rewrite <- (app_assoc (w ++ wd) g'). rewrite (app_assoc g'). rewrite EG. reflexivity. }
    rewrite EB, set_app. cbn [obind].
    destruct (IH (d :: rest') ((w ++ wd) ++ [32]) gg) as (junk & J); [lia|exact H6|].
    exists junk.
    assert (Hw : words (d :: rest') <> []) by (apply words_nonempty; exact H6).
    destruct (words (d :: rest')) as [|w1 ws] eqn:EW; [congruence|].
    change (spaced (wd :: w1 :: ws)) with (wd ++ 32 :: spaced (w1 :: ws)).
    set (X := spaced (w1 :: ws)) in *.
    assert (LG : (length g' + S (length sp) = S (length gg))%nat).
    { apply (f_equal (@length Z)) in EG. rewrite app_length in EG. cbn [length] in EG. exact EG. }
    assert (Ea : ((w ++ wd) ++ [32]) ++ gg ++ d :: rest' = (w ++ wd) ++ 32 :: gg ++ d :: rest')
      by (rewrite <- app_assoc; reflexivity).
    assert (Ei : length (((w ++ wd) ++ [32]) ++ gg)
                 = (length ((w ++ wd) ++ g') + length (x :: sp))%nat)
      by (rewrite !app_length; cbn [length]; lia).
    assert (Ep : length ((w ++ wd) ++ [32]) = S (length (w ++ wd)))
      by (rewrite (app_length _ [32]); cbn [length]; lia).
    assert (Eo : ((w ++ wd) ++ [32]) ++ X = w ++ wd ++ 32 :: X)
      by (rewrite <- !app_assoc; reflexivity).
    rewrite Ea, Ei, Ep, Eo in J. exact J.
Qed.

Lemma normalize_whitespace_spec s : normalize_whitespace s = Val (spaced (words s)).
Proof.
  unfold normalize_whitespace.
  destruct (skip_spaces_spec s (S (length s)) []) as (sp & r & -> & H1 & H2 & H3); [lia|].
  cbn [app length] in H3. rewrite H3. cbn [obind plus].
  destruct (norm_words_spec (S (length (sp ++ r))) r [] sp) as (junk & J);
    [rewrite app_length; lia|exact H2|].
  cbn [app length] in J. rewrite J. cbn [obind].
  rewrite words_spaces by assumption. rewrite firstn_length_app. reflexivity.
Qed.

(** Idempotence. *)
Lemma words_acc_clean s : forall w, forallb (fun c => negb (white c)) w = true ->
  Forall (fun x => x <> [] /\ forallb (fun c => negb (white c)) x = true) (words_acc w s).
Proof.
  induction s as [|c s IH]; intros w H; cbn [words_acc].
  - destruct w; [constructor|]. repeat constructor; [discriminate|exact H].
  - destruct (white c) eqn:W.
    + destruct w; [apply IH; reflexivity|]. constructor; [split; [discriminate|exact H]|].
      apply IH. reflexivity.
    + apply IH. rewrite forallb_app, H. cbn. rewrite W. reflexivity.
Qed.
Lemma words_spaced ws :
  Forall (fun x => x <> [] /\ forallb (fun c => negb (white c)) x = true) ws ->
  words (spaced ws) = ws.
Proof.
  induction 1 as [|w ws (N & C) HF IH]; [reflexivity|].
  destruct ws as [|w2 ws].
  - cbn [spaced]. rewrite <- (app_nil_r w) at 1. rewrite words_word by (assumption || exact I).
    reflexivity.
  - cbn [spaced] in *. rewrite words_word by (assumption || reflexivity).
    f_equal. rewrite <- IH. apply (words_spaces [32]). reflexivity.
Qed.
Lemma normalize_twice s : normalize_whitespace (spaced (words s)) = Val (spaced (words s)).
Proof.
  rewrite normalize_whitespace_spec. f_equal. f_equal. apply words_spaced.
  apply words_acc_clean. reflexivity.
Qed.

(** A char string holds bytes as signed values, so only ASCII can be a name. *)
Lemma negative_not_letter c : c < 0 -> is_letter c = false /\ is_ncname_char c = false.
Proof.
  intros H. split.
  - destruct (is_letter c) eqn:E; [|reflexivity]. exfalso. rewrite letter_spec in E.
    assert (among c [(0, 1114111)]) as K.
    { revert E. apply covered_among. vm_compute. reflexivity. }
    destruct K as (lo & hi & [K|[]] & K2). inversion K; subst. lia.
  - destruct (is_ncname_char c) eqn:E; [|reflexivity]. exfalso. rewrite ncname_char_spec in E.
    assert (among c [(0, 1114111)]) as K.
    { revert E. apply covered_among. vm_compute. reflexivity. }
    destruct K as (lo & hi & [K|[]] & K2). inversion K; subst. lia.
Qed.
Lemma ncname_negative s c : In c s -> c < 0 -> is_ncname s = false.
Proof.
  intros H N. destruct (negative_not_letter c N) as (L1 & L2).
  destruct s as [|d r]; [destruct H|]. cbn [is_ncname].
  destruct (is_letter d || (d =? 95)) eqn:E; cbn [negb]; [|reflexivity].
  destruct H as [->|H].
  - rewrite L1 in E. cbn [orb] in E. lia.
  - destruct (forallb is_ncname_char r) eqn:F; [|reflexivity].
    rewrite forallb_forall in F. rewrite (F _ H) in L2. discriminate.
Qed.
Lemma qname_negative s c : In c s -> c < 0 -> is_qname s = false.
Proof.
  intros H N. destruct (is_qname s) eqn:E; [|reflexivity]. exfalso.
  apply qname_spec in E. destruct E as [E|(p & l & -> & Hp & Hl)].
  - apply ncname_spec in E. rewrite (ncname_negative s c) in E by assumption. discriminate.
  - apply ncname_spec in Hp, Hl. apply in_app_or in H. destruct H as [H|[H|H]].
    + rewrite (ncname_negative p c) in Hp by assumption. discriminate.
    + lia.
    + rewrite (ncname_negative l c) in Hl by assumption. discriminate.
Qed.

Lemma clark_faithful a b :
  ~ In 123 (q_local a) -> ~ In 123 (q_local b) -> ~ In 125 (q_uri a) -> ~ In 125 (q_uri b) ->
  (clark_name a = clark_name b <-> q_local a = q_local b /\ q_uri a = q_uri b).
Proof.
  intros La Lb Ua Ub. unfold clark_name. split; [|intros (-> & ->); reflexivity].
  destruct (q_uri a) as [|u ua] eqn:EA, (q_uri b) as [|v ub] eqn:EB; intros E.
  - auto.
  - exfalso. apply La. rewrite E. left. reflexivity.
  - exfalso. apply Lb. rewrite <- E. left. reflexivity.
  - assert (F1 : find_char 125 ((u :: ua) ++ 125 :: q_local a) = Some (length (u :: ua)))
      by (apply find_char_some; exists (u :: ua), (q_local a); auto).
    assert (F2 : find_char 125 ((v :: ub) ++ 125 :: q_local b) = Some (length (v :: ub)))
      by (apply find_char_some; exists (v :: ub), (q_local b); auto).
    assert (E' : (u :: ua) ++ 125 :: q_local a = (v :: ub) ++ 125 :: q_local b)
      by (apply (f_equal (@tl Z)) in E; exact E).
    rewrite E' in F1. rewrite F1 in F2. inversion F2 as [L].
    apply app_len_inj in E'; [|cbn; congruence]. destruct E' as (E1 & E2).
    inversion E2. auto.
Qed.
Lemma qname_eqb_spec a b :
  qname_eqb a b = true <-> q_local a = q_local b /\ q_uri a = q_uri b.
Proof.
  unfold qname_eqb. rewrite andb_true_iff.
  assert (K : forall x y, str_eqb x y = true <-> x = y).
  { induction x as [|h x IH]; intros [|k y]; cbn [str_eqb]; split; intros H;
      try discriminate; try reflexivity.
    - bsplit. apply IH in H0. assert (h = k) by lia. congruence.
    - inversion H; subst. rewrite Z.eqb_refl. cbn. apply IH. reflexivity. }
  rewrite !K. tauto.
Qed.
