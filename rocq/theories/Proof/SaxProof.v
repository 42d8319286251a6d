From Verif.Model Require Import Base Attrs Text Sax.
From Verif.Spec Require Import TextSpec SaxSpec.
From Verif.Proof Require Import Tac TextProof.

(** Coalescing. *)
Lemma coalesce_text evs : forall buf out b, coalescer evs buf = (out, b) ->
  buf ++ all_text evs = all_text out ++ b.
Proof.
  induction evs as [|e evs IH]; intros buf out b H; cbn [coalescer] in H.
  - injection H as <- <-. cbn. rewrite app_nil_r. reflexivity.
  - destruct (coalesce1 e buf) as (o, b1) eqn:E1.
    destruct (coalescer evs b1) as (o', b2) eqn:E2. injection H as <- <-.
    apply IH in E2. unfold all_text in *. cbn [flat_map]. rewrite flat_map_app.
    assert (K : buf ++ text_of e = flat_map text_of o ++ b1).
    { destruct e; cbn [coalesce1] in E1; injection E1 as <- <-; cbn [text_of flat_map app];
        try reflexivity; try (rewrite app_nil_r; reflexivity);
        destruct buf; cbn [flush flat_map text_of app]; rewrite ?app_nil_r; reflexivity. }
    rewrite app_assoc, K, <- !app_assoc, E2. reflexivity.
Qed.
Lemma coalesce_others evs : forall buf out b, coalescer evs buf = (out, b) ->
  others out = others evs.
Proof.
  induction evs as [|e evs IH]; intros buf out b H; cbn [coalescer] in H.
  - injection H as <- <-. reflexivity.
  - destruct (coalesce1 e buf) as (o, b1) eqn:E1.
    destruct (coalescer evs b1) as (o', b2) eqn:E2. injection H as <- <-.
    apply IH in E2. unfold others in *. rewrite filter_app, E2. change (e :: evs) with ([e] ++ evs).
    rewrite filter_app. f_equal.
    destruct e; cbn [coalesce1] in E1; injection E1 as <- <-; try reflexivity;
      destruct buf; reflexivity.
Qed.
Lemma noadj_cons e r : no_adjacent_text (e :: r) <->
  (match r with e' :: _ => is_text e = true -> is_text e' = false | [] => True end)
  /\ no_adjacent_text r.
Proof. reflexivity. Qed.
Lemma coalesce_noadj evs : forall buf out b, coalescer evs buf = (out, b) -> no_adjacent_text out.
Proof.
  induction evs as [|e evs IH]; intros buf out b H; cbn [coalescer] in H.
  - injection H as <- <-. exact I.
  - destruct (coalesce1 e buf) as (o, b1) eqn:E1.
    destruct (coalescer evs b1) as (o', b2) eqn:E2. injection H as <- <-.
    apply IH in E2.
    assert (P : is_text e = false -> no_adjacent_text (e :: o')).
    { intros T. apply noadj_cons. split; [|exact E2]. destruct o'; [exact I|congruence]. }
    destruct e; cbn [coalesce1] in E1; injection E1 as <- <-; cbn [app];
      try exact E2; try (apply P; reflexivity);
      destruct buf; cbn [flush app];
      try (apply P; reflexivity);
      (apply noadj_cons; split; [reflexivity|apply P; reflexivity]).
Qed.
Lemma coalesce_merged evs : forall buf, text_closed (match buf with [] => false | _ => true end) evs ->
  coalescer evs buf = (merged buf evs, []).
Proof.
  assert (W : forall evs p, text_closed true evs -> text_closed p evs).
  { induction evs0 as [|e r IHr]; intros p H; [discriminate|]. cbn [text_closed] in *.
    destruct (is_text e); [exact H|]. split; [intros _; apply H; reflexivity|apply H]. }
  induction evs as [|e evs IH]; intros buf H.
  - cbn [text_closed] in H. destruct buf; [reflexivity|discriminate].
  - cbn [coalescer merged]. cbn [text_closed] in H.
    destruct (is_text e) eqn:T.
    + destruct e; try discriminate; cbn [coalesce1 text_of];
        (rewrite IH; [reflexivity|apply W; exact H]).
    + destruct H as (H1 & H2).
      destruct buf as [|c buf].
      * destruct e; try discriminate; cbn [coalesce1 one_text flush app];
          rewrite (IH []) by exact H2; reflexivity.
      * specialize (H1 eq_refl). destruct e; try discriminate; cbn [coalesce1 one_text flush app];
          rewrite (IH []) by exact H2; reflexivity.
Qed.

(** Stripping. *)
Lemma stripper_spec evs : stripper evs = Val (flat_map stripped evs).
Proof.
  induction evs as [|e evs IH]; [reflexivity|]. cbn [stripper flat_map].
  destruct e; cbn [strip1 stripped obind]; rewrite ?normalize_whitespace_spec; cbn [obind];
    rewrite IH; reflexivity.
Qed.
Lemma visible_app a b : visible (a ++ b) = visible a ++ visible b.
Proof. apply filter_app. Qed.
Lemma visible_spaced ws : visible (spaced ws) = visible (concat ws).
Proof.
  induction ws as [|w ws IH]; [reflexivity|]. cbn [concat]. rewrite visible_app, <- IH.
  destruct ws as [|w2 ws]; [cbn; rewrite app_nil_r; reflexivity|].
  change (spaced (w :: w2 :: ws)) with (w ++ 32 :: spaced (w2 :: ws)).
  rewrite visible_app. reflexivity.
Qed.
Lemma visible_words s : forall w, visible (concat (words_acc w s)) = visible (w ++ s).
Proof.
  induction s as [|c s IH]; intros w; cbn [words_acc].
  - destruct w; [reflexivity|]. cbn [concat]. reflexivity.
  - destruct (white c) eqn:E.
    + destruct w as [|x w].
      * rewrite IH. cbn [app visible filter]. rewrite E. reflexivity.
      * cbn [concat]. rewrite visible_app, IH. cbn [app]. rewrite <- visible_app.
        unfold visible. cbn [filter app]. rewrite !filter_app. cbn [filter]. rewrite E. reflexivity.
    + rewrite IH, <- app_assoc. reflexivity.
Qed.
Lemma stripped_visible s : visible (spaced (words s)) = visible s.
Proof. rewrite visible_spaced. apply visible_words. Qed.

(** PYX. *)
Lemma lines_acc_line l : forall cur r, ~ In 10 l ->
  lines_acc cur (l ++ 10 :: r) =
  match lines_acc [] r with Some ls => Some ((cur ++ l) :: ls) | None => None end.
Proof.
  induction l as [|c l IH]; intros cur r H; cbn [app lines_acc].
  - rewrite app_nil_r. reflexivity.
  - assert ((c =? 10) = false) as -> by (apply Z.eqb_neq; intros ->; apply H; left; reflexivity).
    rewrite IH by (intros K; apply H; right; exact K). rewrite <- app_assoc. reflexivity.
Qed.
Lemma escape_no10 s : ~ In 10 (pyx_escape s).
Proof.
  induction s as [|c s IH]; [intros []|]. cbn [pyx_escape flat_map]. intros H.
  apply in_app_or in H. destruct H as [H|H]; [|exact (IH H)].
  destruct (Z.eqb_spec c 10); cbn in H; intuition lia.
Qed.
Lemma unescape_cons c r : c <> 92 -> unescape (c :: r) = c :: unescape r.
Proof.
  intros H. cbn [unescape]. destruct c as [|p|p]; try reflexivity.
  do 7 (destruct p; try reflexivity). congruence.
Qed.
Lemma unescape_escape s : ~ In 92 s -> unescape (pyx_escape s) = s.
Proof.
  induction s as [|c s IH]; intros H; [reflexivity|].
  change (pyx_escape (c :: s)) with ((if c =? 10 then [92; 110] else [c]) ++ pyx_escape s).
  assert (H' : ~ In 92 s) by (intros K; apply H; right; exact K).
  destruct (Z.eqb_spec c 10) as [->|N].
  - change (unescape ([92; 110] ++ pyx_escape s)) with (10 :: unescape (pyx_escape s)).
    rewrite IH by exact H'. reflexivity.
  - cbn [app]. rewrite unescape_cons; [rewrite IH by exact H'; reflexivity|].
    intros ->. apply H. left. reflexivity.
Qed.
Lemma split_space_app n v : ~ In 32 n -> split_space (n ++ 32 :: v) = Some (n, v).
Proof.
  induction n as [|c n IH]; intros H; cbn [app split_space]; [reflexivity|].
  assert ((c =? 32) = false) as -> by (apply Z.eqb_neq; intros ->; apply H; left; reflexivity).
  rewrite IH by (intros K; apply H; right; exact K). reflexivity.
Qed.

Definition good (text : list Z) (items : list pyx_item) : Prop :=
  forall r is, pyx_read r = Some is -> pyx_read (text ++ r) = Some (items ++ is).
Lemma good_nil : good [] [].
Proof. intros r is H. exact H. Qed.
Lemma good_app t1 i1 t2 i2 : good t1 i1 -> good t2 i2 -> good (t1 ++ t2) (i1 ++ i2).
Proof. intros H1 H2 r is H. rewrite <- !app_assoc. apply H1, H2, H. Qed.
Lemma good_line l i : ~ In 10 l -> pyx_line l = Some i -> good (l ++ [10]) [i].
Proof.
  intros H E r is R. unfold pyx_read in *. rewrite <- app_assoc. cbn [app].
  rewrite lines_acc_line by exact H. destruct (lines_acc [] r) as [ls|]; [|discriminate].
  cbn [app pyx_lines]. rewrite E, R. reflexivity.
Qed.
Lemma notin_app {A} (x : A) a b : ~ In x a -> ~ In x b -> ~ In x (a ++ b).
Proof. intros H1 H2 K. apply in_app_or in K. tauto. Qed.
Lemma notin_cons {A} (x c : A) b : x <> c -> ~ In x b -> ~ In x (c :: b).
Proof. intros H1 H2 [K|K]; congruence || tauto. Qed.

Lemma good_attr a : plain_name (a_local a) -> ~ In 92 (a_value a) ->
  good (pyx_attr a) [PAttr (a_local a) (a_value a)].
Proof.
  intros (N1 & N2) V. unfold pyx_attr.
  replace ([65] ++ a_local a ++ [32] ++ pyx_escape (a_value a) ++ [10])
    with ((65 :: a_local a ++ 32 :: pyx_escape (a_value a)) ++ [10])
    by (cbn [app]; rewrite <- app_assoc; reflexivity).
  apply good_line.
  - apply notin_cons; [discriminate|]. apply notin_app; [exact N1|].
    apply notin_cons; [discriminate|]. apply escape_no10.
  - cbn [pyx_line]. rewrite split_space_app by exact N2. rewrite unescape_escape by exact V.
    reflexivity.
Qed.
Lemma good_event e : pyx_safe e -> good (pyx1 e) (pyx_items e).
Proof.
  destruct e; cbn [pyx_safe pyx1 pyx_items]; intros H; try exact good_nil.
  - destruct H as ((N1 & N2) & H).
    change (POpen local :: map (fun a => PAttr (a_local a) (a_value a)) atts)
      with ([POpen local] ++ map (fun a => PAttr (a_local a) (a_value a)) atts).
    replace ([40] ++ local ++ [10] ++ flat_map pyx_attr atts)
      with (((40 :: local) ++ [10]) ++ flat_map pyx_attr atts)
      by (cbn [app]; rewrite <- app_assoc; reflexivity).
    apply good_app; [apply good_line; [apply notin_cons; [discriminate|exact N1]|reflexivity]|].
    induction H as [|a atts (A1 & A2) H IH]; [apply good_nil|]. cbn [flat_map map].
    apply (good_app _ [_]); [apply good_attr; assumption|exact IH].
  - apply (good_line (41 :: local)); [apply notin_cons; [discriminate|apply H]|reflexivity].
  - apply (good_line (45 :: pyx_escape s)).
    + apply notin_cons; [discriminate|apply escape_no10].
    + cbn [pyx_line]. rewrite unescape_escape by exact H. reflexivity.
  - destruct H as ((N1 & N2) & D).
    replace ([63] ++ target ++ [32] ++ data ++ [10]) with ((63 :: target ++ 32 :: data) ++ [10])
      by (cbn [app]; rewrite <- app_assoc; reflexivity).
    apply good_line.
    + apply notin_cons; [discriminate|]. apply notin_app; [exact N1|].
      apply notin_cons; [discriminate|exact D].
    + cbn [pyx_line]. rewrite split_space_app by exact N2. reflexivity.
Qed.
Lemma pyx_roundtrip evs : Forall pyx_safe evs -> pyx_read (pyx evs) = Some (flat_map pyx_items evs).
Proof.
  intros H.
  assert (G : good (pyx evs) (flat_map pyx_items evs)).
  { induction H as [|e evs He H IH]; [apply good_nil|]. cbn [pyx flat_map].
    apply good_app; [apply good_event; exact He|exact IH]. }
  specialize (G [] [] eq_refl). rewrite !app_nil_r in G. exact G.
Qed.
Lemma pyx_injective a b : Forall pyx_safe a -> Forall pyx_safe b ->
  pyx a = pyx b -> flat_map pyx_items a = flat_map pyx_items b.
Proof.
  intros Ha Hb E. apply pyx_roundtrip in Ha. apply pyx_roundtrip in Hb. congruence.
Qed.
