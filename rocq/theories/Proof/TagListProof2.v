(** Live lists: histories build finite trees; a list read is the list of matching
    elements. *)
From Verif.Model Require Import Base Dom DomText TagList.
From Verif.Spec Require Import DomSpec DomTextSpec TagListSpec.
From Verif.Proof Require Import Tac ContainersProof DomProof DomFinite DomProof2 DomProof3 DomTextProof TagListProof.
Local Open Scope Z_scope.

(** * Finitely many child lists change *)
Lemma set_data_nearly : forall h i s, nearly h (set_data h i s).
Proof. intros h i s. apply nearly_upd, nearly_refl. Qed.
Lemma normalize_nearly : forall f,
  (forall h this, res_nearly h (normalize f h this)) /\
  (forall h this child, res_nearly h (norm_loop f h this child)).
Proof.
  assert (MT : forall f h this t next, res_nearly h (merge_texts f h this t next)).
  { induction f as [|f IH]; intros h this t next; [exact I|]. cbn [merge_texts].
    destruct next as [x|]; [|apply nearly_refl]. destruct (has_kind h x KText); [|apply nearly_refl].
    unfold append_data, read_only. destruct (n_ro (h t)); cbn [rbind]; [apply nearly_refl|].
    apply res_nearly_trans with (set_data h t (n_data (h t) ++ n_data (h x))); [apply set_data_nearly|].
    apply res_nearly_bind; [apply vremove_nearly|]. intros; apply IH. }
  induction f as [|f [IH1 IH2]]; [split; intros; exact I|]. split.
  - intros h this. cbn [normalize]. apply IH2.
  - intros h this [c|]; cbn [norm_loop]; [|apply nearly_refl]. destruct (has_kind h c KText).
    + apply res_nearly_bind; [apply MT|]. intros h1 nx. apply res_nearly_bind; [|intros; apply IH2].
      destruct (n_data (h1 c)); [|apply nearly_refl]. apply res_nearly_bind; [apply vremove_nearly|]. intros; apply nearly_refl.
    + apply res_nearly_bind; [apply IH1|]. intros; apply IH2.
Qed.
Lemma change_nearly : forall h h', change h h' -> nearly h h'.
Proof.
  intros h h' C. destruct C as [o f h' ND E|i s|f this new off h' r U OW KN TX GP SZ E|f this h' u E].
  - assert (R := call_nearly f h o).
    destruct E as [[u E]|[e E]]; rewrite E in R; exact R.
  - apply set_data_nearly.
  - unfold split_text in E. destruct (n_ro (h this)) eqn:RO; [discriminate|].
    unfold substring_data in E. destruct (bad_offset _ _) eqn:BE; [discriminate|].
    destruct (_ <? 0) eqn:C0; [discriminate|]. unfold delete_data, read_only in E. rewrite RO, BE, C0 in E.
    match type of E with context[get_parent ?g this] => set (h1 := g) in *; assert (N1 : nearly h h1) by apply set_data_nearly end.
    clearbody h1. destruct (get_parent h1 this) as [p|].
    + match type of E with context[vinsert f ?g p new] => set (h2 := g) in *; assert (N2 : nearly h h2) by (apply nearly_upd, N1) end.
      clearbody h2. assert (V := proj1 (vinsert_nearly f) h2 p new (n_next (h2 this))).
      destruct (vinsert f h2 p new (n_next (h2 this))) as [h3 r3|e3 h3|]; try discriminate.
      injection E as <- _. apply nearly_trans with h2; auto.
    + destruct (has_kind _ _ _); [discriminate|]. injection E as <- _. apply nearly_upd, N1.
  - assert (R := proj1 (normalize_nearly f) h this). rewrite E in R. exact R.
Qed.
Lemma known_few : forall h, known h -> few_parents h.
Proof.
  intros h (kinds & docs & names & E). induction E as [|h1 h2 E IH C]; [apply few_fresh|].
  apply few_nearly with h1; [exact IH|apply change_nearly, C].
Qed.

(** * Kinds and names stay *)
Definition names_same (a b : node) : Prop :=
  n_kind b = n_kind a /\ (n_kind a = KElement -> n_name b = n_name a /\ n_uri b = n_uri a /\ n_local b = n_local a).
Definition keeps (h h' : heap) : Prop := forall i, names_same (h i) (h' i).
Lemma keeps_refl : forall h, keeps h h.
Proof. intros h i. split; auto. Qed.
Lemma keeps_trans : forall a b c, keeps a b -> keeps b c -> keeps a c.
Proof.
  intros a b c A B i. destruct (A i) as [A1 A2], (B i) as [B1 B2]. split; [congruence|]. intro K.
  destruct (A2 K) as (X1 & X2 & X3). rewrite <- A1 in K. destruct (B2 K) as (Y1 & Y2 & Y3). repeat split; congruence.
Qed.
Lemma keeps_static : forall h h', (forall i, static (h' i) = static (h i)) -> keeps h h'.
Proof. intros h h' S i. specialize (S i). unfold static in S. split; [congruence|]. intros _. repeat split; congruence. Qed.
Lemma keeps_data : forall h i s, keeps h (set_data h i s).
Proof. intros h i s j. unfold names_same, set_data. rewrite !upd_at. cbn. rewrite !if_same. auto. Qed.
Definition res_keeps {A} (h : heap) (r : res A) : Prop := match r with Ok h' _ | Ex _ h' => keeps h h' | Div => True end.
Lemma res_keeps_trans : forall {A} a b (r : res A), keeps a b -> res_keeps b r -> res_keeps a r.
Proof. intros A a b [h x|e h|] S R; cbn in *; auto; apply keeps_trans with b; auto. Qed.
Lemma res_keeps_bind : forall {A B} h (r : res A) (k : heap -> A -> res B), res_keeps h r ->
  (forall h' a, r = Ok h' a -> res_keeps h' (k h' a)) -> res_keeps h (rbind r k).
Proof. intros A B h [h1 a|e h1|] k R K; cbn [rbind]; auto. apply res_keeps_trans with h1; auto. Qed.
Lemma step_keeps : forall {A} h (r : res A), res_step h r -> res_keeps h r.
Proof. intros A h [h1 a|e h1|] S; cbn in *; auto; apply keeps_static, S. Qed.
Lemma normalize_keeps : forall f,
  (forall h this, good h -> res_keeps h (normalize f h this)) /\
  (forall h this child, good h -> res_keeps h (norm_loop f h this child)).
Proof.
  assert (VR : forall h p o h' r, good h -> vremove h p o = Ok h' r -> good h').
  { intros h p o h' r G V. assert (S := vremove_step h p o G). rewrite V in S. apply S. }
  assert (MT : forall f h this t next, good h -> res_keeps h (merge_texts f h this t next) /\
     forall h' r, merge_texts f h this t next = Ok h' r -> good h').
  { induction f as [|f IH]; intros h this t next G; [split; [exact I|discriminate]|]. cbn [merge_texts].
    destruct next as [x|]; [|split; [apply keeps_refl|intros h' r E; injection E as <- _; exact G]].
    destruct (has_kind h x KText); [|split; [apply keeps_refl|intros h' r E; injection E as <- _; exact G]].
    unfold append_data, read_only. destruct (n_ro (h t)); cbn [rbind]; [split; [apply keeps_refl|discriminate]|].
    assert (G1 := set_data_good h t (n_data (h t) ++ n_data (h x)) G).
    assert (T1 := keeps_data h t (n_data (h t) ++ n_data (h x))). set (h1 := set_data h t _) in *. clearbody h1.
    split.
    - apply res_keeps_trans with h1; [exact T1|]. apply res_keeps_bind; [apply step_keeps, vremove_step, G1|].
      intros h2 r2 V. apply IH. apply (VR _ _ _ _ _ G1 V).
    - destruct (vremove h1 this (Some x)) as [h2 r2|e2 h2|] eqn:V; cbn [rbind]; try discriminate.
      apply IH. apply (VR _ _ _ _ _ G1 V). }
  assert (NG : forall f, (forall h this, good h -> forall h' u, normalize f h this = Ok h' u -> good h')).
  { intros f h this G h' u E. assert (S := proj1 (normalize_spec f) h this G). rewrite E in S. apply S. }
  induction f as [|f [IH1 IH2]]; [split; intros; exact I|]. split.
  - intros h this G. cbn [normalize]. apply IH2, G.
  - intros h this [c|] G; cbn [norm_loop]; [|apply keeps_refl]. destruct (has_kind h c KText).
    + destruct (MT f h this c (n_next (h c)) G) as [M1 M2]. apply res_keeps_bind; [exact M1|]. intros h1 nx E.
      assert (G1 := M2 _ _ E). destruct (n_data (h1 c)); cbn [rbind].
      * apply res_keeps_bind; [apply res_keeps_bind; [apply step_keeps, vremove_step, G1|intros; apply keeps_refl]|].
        intros h2 u V. destruct (vremove h1 this (Some c)) as [h3 r3|e3 h3|] eqn:V2; cbn [rbind] in V; try discriminate.
        injection V as <- _. apply IH2. apply (VR _ _ _ _ _ G1 V2).
      * apply IH2, G1.
    + apply res_keeps_bind; [apply IH1, G|]. intros h1 u E. apply IH2. apply (NG _ _ _ G _ _ E).
Qed.
Lemma change_keeps : forall h h', good h -> change h h' -> keeps h h'.
Proof.
  intros h h' G C. destruct C as [o f h' ND E|i s|f this new off h' r U OW KN TX GP SZ E|f this h' u E].
  - assert (R : res_keeps h (dom_call f h o)).
    { unfold not_into_itself in ND. destruct o as [t n ref|t n old|t old|t]; cbn [dom_call op_target] in *.
      - assert (N : n_kind (h n) = KDocument -> t <> n) by (intro K; apply ND, has_kind_eq, K).
        apply res_keeps_bind; [apply step_keeps, (proj1 (vinsert_step f)); auto|intros; apply keeps_refl].
      - assert (N : n_kind (h n) = KDocument -> t <> n) by (intro K; apply ND, has_kind_eq, K).
        apply res_keeps_bind; [apply step_keeps, vreplace_step; auto|intros; apply keeps_refl].
      - apply res_keeps_bind; [apply step_keeps, vremove_step; auto|intros; apply keeps_refl].
      - destruct (freeze f h t) as [h1|] eqn:FZ; [|exact I]. intro j. unfold names_same.
        destruct (freeze_marks _ _ _ _ FZ j) as [->| ->]; auto. }
    destruct E as [[u E]|[e E]]; rewrite E in R; exact R.
  - apply keeps_data.
  - rewrite hidden_parent in GP by apply G. destruct (n_parent (h this)) as [p|] eqn:P; [|contradiction].
    unfold split_text in E. destruct (n_ro (h this)) eqn:RO; [discriminate|].
    unfold substring_data in E. destruct (bad_offset _ _) eqn:BE; [discriminate|].
    destruct (_ <? 0) eqn:C0; [discriminate|]. unfold delete_data, read_only in E. rewrite RO, BE, C0 in E.
    set (sec := std_substr _ _ _) in *. set (fst' := std_replace _ _ _ _) in *. clearbody sec fst'.
    assert (G1 := set_data_good h this fst' G). assert (K1 := keeps_data h this fst'). set (h1 := set_data h this fst') in *.
    assert (P1 : n_parent (h1 this) = Some p) by (unfold h1; rewrite set_data_parent; exact P).
    rewrite (child_can h1 this p G1 P1) in E.
    assert (U1 : unused h1 new).
    { destruct U; constructor; unfold h1; rewrite ?set_data_parent, ?set_data_kids, ?set_data_changes; assumption. }
    assert (TX1 : textual h1 this) by (unfold textual, h1; rewrite set_data_kind; exact TX).
    assert (G2 := new_good h1 new this p sec G1 U1 P1 TX1).
    assert (KN1 : n_kind (h1 new) = n_kind (h1 this)) by (unfold h1; rewrite !set_data_kind; exact KN).
    assert (K2 : keeps h1 (upd h1 new (fun _ => split_node h1 this sec true))).
    { intro i. unfold upd. destruct (Nat.eqb_spec i new) as [->|]; [|split; auto]. split; [symmetry; exact KN1|].
      cbn. rewrite KN1. destruct TX1 as [X|X]; rewrite X; discriminate. }
    assert (ND : n_kind (upd h1 new (fun _ => split_node h1 this sec true) new) = KDocument -> p <> new).
    { unfold upd. rewrite Nat.eqb_refl. cbn. destruct TX1 as [X|X]; rewrite X; discriminate. }
    set (h2 := upd h1 new _) in *. clearbody h1 h2.
    assert (S := proj1 (vinsert_step f) h2 p new (n_next (h2 this)) G2 ND). apply step_keeps in S.
    destruct (vinsert f h2 p new (n_next (h2 this))) as [h3 r3|e3 h3|]; try discriminate. injection E as <- _.
    apply keeps_trans with h1; auto. apply keeps_trans with h2; auto.
  - assert (R := proj1 (normalize_keeps f) h this G). rewrite E in R. exact R.
Qed.
Lemma evolves_keeps : forall h h', good h -> owners_ok h -> evolves h h' -> keeps h h'.
Proof.
  intros h h' G O E. induction E as [|h1 h2 E IH C]; [apply keeps_refl|]. apply keeps_trans with h1; [exact IH|].
  apply change_keeps; auto. apply (evolves_spec h h1 G O E).
Qed.

(** * Reading a list *)
Lemma str_eqb_spec : forall a b, reflect (a = b) (str_eqb a b).
Proof.
  intros a b. destruct (str_eqb a b) eqn:E; constructor.
  - apply str_eqb_true, E.
  - intros ->. apply str_eqb_false in E. auto.
Qed.
Lemma matches_wanted : forall h ns tag n, n_kind (h n) = KElement -> reflect (wanted h ns tag n) (tag_matches h ns tag n).
Proof.
  intros h ns tag n K. unfold tag_matches, wanted, is_star, star.
  assert (HK : has_kind h n KElement = true) by (apply has_kind_eq; exact K). rewrite HK, andb_true_r.
  destruct ns as [uri|].
  - destruct (n_uri (h n)) as [u|]; cbn [orb].
    + destruct (str_eqb_spec uri u) as [N1|N1], (str_eqb_spec uri [42]) as [N2|N2], (str_eqb_spec tag (n_local (h n))) as [N3|N3],
        (str_eqb_spec tag [42]) as [N4|N4]; cbn; constructor; intuition congruence.
    + destruct (str_eqb_spec uri [42]) as [N2|N2], (str_eqb_spec tag (n_local (h n))) as [N3|N3],
        (str_eqb_spec tag [42]) as [N4|N4]; cbn; constructor; intuition congruence.
  - destruct (str_eqb_spec tag (n_name (h n))) as [N3|N3], (str_eqb_spec tag [42]) as [N4|N4]; cbn; constructor; tauto.
Qed.
Lemma first_hd : forall (l : list nat), hd_error l = first l None.
Proof. destruct l; reflexivity. Qed.
Lemma check_found : forall f h ns tag p a b l, good h -> kids h p = a ++ b ->
  check_children f h ns tag (first b None) = Some l -> found h ns tag b l.
Proof.
  induction f as [|f IH]; intros h ns tag p a b l G K E; [discriminate|]. cbn [check_children] in E.
  destruct b as [|c b]; cbn [first] in E; [injection E as <-; constructor|].
  rewrite (nth_first h p a c b G K) in E.
  destruct (check_children f h ns tag (first b None)) as [l2|] eqn:E2.
  2:{ exfalso. clear E2. revert E. destruct (has_kind h c KElement); [|discriminate].
      destruct (check_children f h ns tag (first_child h c)); discriminate. }
  assert (R : found h ns tag b l2).
  { apply (IH h ns tag p (a ++ [c]) b l2 G); auto. rewrite K, <- app_assoc. reflexivity. }
  destruct (has_kind h c KElement) eqn:KC.
  - apply has_kind_eq in KC. unfold first_child in E. rewrite first_hd in E.
    destruct (check_children f h ns tag (first (n_kids (h c)) None)) as [l1|] eqn:E1; [|discriminate].
    assert (R1 : found h ns tag (kids h c) l1) by (apply (IH h ns tag c [] (kids h c) l1 G); auto).
    injection E as <-. destruct (matches_wanted h ns tag c KC) as [W|W].
    + cbn [app]. apply found_yes; auto.
    + cbn [app]. apply found_no; auto.
  - injection E as <-. cbn [app]. apply found_other; auto. intro X. apply has_kind_eq in X. congruence.
Qed.
Lemma check_settled : forall h ns tag p, good h -> finite_below h p ->
  exists f0 l, forall f, (f0 <= f)%nat -> check_children f h ns tag (first_child h p) = Some l.
Proof.
  intros h ns tag p G FB. induction FB as [p FB IH]. unfold first_child. rewrite first_hd.
  assert (X : forall b a, n_kids (h p) = a ++ b ->
    exists f0 l, forall f, (f0 <= f)%nat -> check_children f h ns tag (first b None) = Some l).
  { induction b as [|c b IHb]; intros a K.
    - exists 1%nat, []. intros [|f] L; [lia|reflexivity].
    - destruct (IHb (a ++ [c])) as (f2 & l2 & H2); [rewrite K, <- app_assoc; reflexivity|].
      assert (IC : In c (kids h p)) by (unfold kids; rewrite K; apply in_or_app; right; left; reflexivity).
      destruct (IH c IC) as (f1 & l1 & H1).
      exists (S (f1 + f2)),
        ((if has_kind h c KElement then (if tag_matches h ns tag c then [c] else []) ++ l1 else []) ++ l2).
      intros [|f] L; [lia|]. cbn [check_children first]. rewrite (nth_first h p a c b G K), (H2 f), (H1 f) by lia.
      destruct (has_kind h c KElement); reflexivity. }
  apply (X (n_kids (h p)) []). reflexivity.
Qed.
Lemma found_fun : forall h ns tag b l, found h ns tag b l -> forall l', found h ns tag b l' -> l = l'.
Proof.
  intros h ns tag b l F. induction F as [|c r l N F IH|c r l1 l2 K W F1 IH1 F2 IH2|c r l1 l2 K W F1 IH1 F2 IH2]; intros l' F';
    inversion F'; subst; try contradiction; auto.
  - f_equal. f_equal; auto.
  - f_equal; auto.
Qed.
Lemma wanted_keeps : forall h h' ns tag n, keeps h h' -> n_kind (h n) = KElement -> (wanted h ns tag n <-> wanted h' ns tag n).
Proof.
  intros h h' ns tag n KE K. destruct (KE n) as [_ E]. destruct (E K) as (E1 & E2 & E3). unfold wanted.
  destruct ns; rewrite ?E1, ?E2, ?E3; tauto.
Qed.
Lemma found_kept : forall h h' d ns tag b l, owners_ok h -> good h -> keeps h h' ->
  (forall i, n_owner (h i) = Some d -> n_kids (h' i) = n_kids (h i)) ->
  (forall c, In c b -> n_kind (h c) <> KDocType -> n_owner (h c) = Some d) ->
  found h ns tag b l -> found h' ns tag b l.
Proof.
  intros h h' d ns tag b l O G KE KS OW F. revert OW.
  assert (SUB : forall c, n_owner (h c) = Some d -> forall x, In x (kids h c) -> n_kind (h x) <> KDocType -> n_owner (h x) = Some d).
  { intros c OC x I NT. rewrite (O x c); auto. apply (l_parent h (proj1 G)), I. }
  induction F as [|c r l N F IH|c r l1 l2 K W F1 IH1 F2 IH2|c r l1 l2 K W F1 IH1 F2 IH2]; intro OW.
  - constructor.
  - apply found_other; [destruct (KE c) as [-> _]; exact N|]. apply IH. intros x I. apply OW. right; exact I.
  - assert (OC : n_owner (h c) = Some d) by (apply OW; [left; reflexivity|congruence]).
    apply found_yes; [destruct (KE c) as [-> _]; exact K|apply (wanted_keeps h h'); auto| |].
    + unfold kids. rewrite (KS c OC). apply IH1, SUB, OC.
    + apply IH2. intros x I. apply OW. right; exact I.
  - assert (OC : n_owner (h c) = Some d) by (apply OW; [left; reflexivity|congruence]).
    apply found_no; [destruct (KE c) as [-> _]; exact K|rewrite <- (wanted_keeps h h'); auto| |].
    + unfold kids. rewrite (KS c OC). apply IH1, SUB, OC.
    + apply IH2. intros x I. apply OW. right; exact I.
Qed.

(** A list that was right when it was last filled. *)
Definition list_good (h : heap) (l : tag_list) : Prop :=
  exists h0, good h0 /\ owners_ok h0 /\ evolves h0 h /\ n_owner (h0 (tl_root l)) = Some (tl_doc l) /\
    tl_changes l = n_changes (h0 (tl_doc l)) /\ matching h0 (tl_root l) (tl_ns l) (tl_tag l) (tl_nodes l).
Lemma evolves_trans : forall a b c, evolves a b -> evolves b c -> evolves a c.
Proof. intros a b c A B. induction B as [|h1 h2 B IH C]; [exact A|]. apply ev_step with h1; auto. Qed.
Lemma list_good_later : forall h h' l, list_good h l -> evolves h h' -> list_good h' l.
Proof.
  intros h h' l (h0 & G & O & E & R) E'. exists h0. split; [exact G|]. split; [exact O|]. split; [apply evolves_trans with h; auto|]. exact R.
Qed.
Lemma populate_good : forall f h l l', good h -> owners_ok h -> n_owner (h (tl_root l)) = Some (tl_doc l) ->
  populate f h l = Some l' -> matching h (tl_root l') (tl_ns l') (tl_tag l') (tl_nodes l') /\ list_good h l' /\
  tl_root l' = tl_root l /\ tl_doc l' = tl_doc l /\ tl_ns l' = tl_ns l /\ tl_tag l' = tl_tag l.
Proof.
  intros f h l l' G O R E. unfold populate in E.
  destruct (check_children f h (tl_ns l) (tl_tag l) (first_child h (tl_root l))) as [ns|] eqn:C; [|discriminate].
  injection E as <-. cbn. unfold first_child in C. rewrite first_hd in C.
  assert (M := check_found f h (tl_ns l) (tl_tag l) (tl_root l) [] (kids h (tl_root l)) ns G eq_refl C).
  split; [exact M|]. split; [|auto]. exists h. split; [exact G|]. split; [exact O|]. split; [constructor|]. cbn. auto.
Qed.
Lemma refresh_good : forall f h l l', list_good h l -> refresh f h l = Some l' ->
  matching h (tl_root l') (tl_ns l') (tl_tag l') (tl_nodes l') /\ list_good h l' /\
  tl_root l' = tl_root l /\ tl_doc l' = tl_doc l /\ tl_ns l' = tl_ns l /\ tl_tag l' = tl_tag l.
Proof.
  intros f h l l' LG E. assert (LG2 := LG). destruct LG2 as (h0 & G0 & O0 & EV & R & CH & M).
  destruct (evolves_spec h0 h G0 O0 EV) as (G & O & T).
  assert (R2 : n_owner (h (tl_root l)) = Some (tl_doc l)) by (rewrite (tr_owner _ _ T); [exact R|congruence]).
  unfold refresh in E. destruct (Z.eqb_spec (tl_changes l) (n_changes (h (tl_doc l)))) as [EC|NC].
  - injection E as <-. split; [|auto]. assert (KS := tr_kids _ _ T (tl_doc l)).
    rewrite <- EC, CH in KS. specialize (KS eq_refl). unfold matching, kids in *. rewrite (KS _ R).
    apply found_kept with h0 (tl_doc l); auto; [apply evolves_keeps; auto|].
    intros c I NT. rewrite (O0 c (tl_root l)); auto. apply (l_parent h0 (proj1 G0)), I.
  - apply populate_good with f; auto.
Qed.
Lemma refresh_settles : forall h l, known h -> exists f0 l', forall f, (f0 <= f)%nat -> refresh f h l = Some l'.
Proof.
  intros h l K. destruct (known_good h K) as [G O]. unfold refresh. destruct (Z.eqb _ _); [exists 0%nat, l; auto|].
  destruct (check_settled h (tl_ns l) (tl_tag l) (tl_root l) G (few_finite h G (known_few h K) _)) as (f0 & ns & H).
  exists f0. eexists. intros f L. unfold populate. rewrite (H f L). reflexivity.
Qed.

(** * splitText succeeds *)
Lemma insert_text_ok : forall h p new nx, good h -> unused h new -> n_owner (h new) <> None -> n_owner (h new) = n_owner (h p) ->
  childless (n_kind (h p)) = false -> n_kind (h p) <> KDocument -> textual h new -> n_ro (h p) = false ->
  child_kind_ok (n_kind (h p)) (n_kind (h new)) = true -> p <> new -> match nx with Some x => In x (kids h p) | None => True end ->
  (exists f0, forall f, (f0 <= f)%nat -> exists h' r, vinsert f h p new nx = Ok h' r) /\
  (forall f e h', vinsert f h p new nx <> Ex e h').
Proof.
  intros h p new nx G U OW OE CL ND TX RO CK NE NX.
  assert (NT : forall f, climb f h p new <> Some true).
  { intros f X. apply climb_true in X; [|apply G].
    assert (Y : forall a c, upward h a c -> c = new -> a = new).
    { intros a c UP. induction UP as [n|n q c P UP IH]; intro E; [exact E|].
      specialize (IH E). rewrite IH in P. apply (l_parent h (proj1 G)) in P. unfold kids in P. rewrite (un_kids _ _ U) in P. destruct P. }
    apply NE. apply (Y p new X eq_refl). }
  assert (ST : forall f, vinsert (S f) h p new nx = Div /\ climb f h p new = None \/ exists h' r, vinsert (S f) h p new nx = Ok h' r).
  { intro f. cbn [vinsert]. rewrite CL.
    assert (has_kind h p KDocument = false) as -> by (destruct (has_kind h p KDocument) eqn:E; [apply has_kind_eq in E; contradiction|reflexivity]).
    rewrite RO.
    assert (has_kind h new KFragment = false) as -> by (unfold has_kind; destruct TX as [X|X]; rewrite X; reflexivity).
    unfold insert_node, check_can_add. destruct (n_owner (h new)) as [cd|] eqn:EO; [|contradiction].
    assert (has_kind h new KDocument = false) as -> by (unfold has_kind; destruct TX as [X|X]; rewrite X; reflexivity).
    rewrite <- OE, Nat.eqb_refl. cbn [negb]. destruct (climb f h p new) as [[|]|] eqn:CB; [exfalso; apply (NT f), CB| |left; split; reflexivity].
    right. rewrite RO, andb_false_r, CK. cbn [rbind].
    unfold remove_if_required. rewrite hidden_parent by apply G. rewrite (un_parent _ _ U). cbn [rbind].
    destruct nx as [x|]; [|eauto]. destruct (insert_at x new (n_kids (h p))) eqn:IA; [eauto|].
    apply insert_at_none in IA. contradiction. }
  split.
  - destruct (climb_settles h p new (proj2 G) (l_rooted h (proj1 G) p)) as (f0 & b & H).
    exists (S f0). intros [|f] L; [lia|]. destruct (ST f) as [[_ C]|X]; [|exact X]. rewrite H in C by lia. discriminate.
  - intros [|f] e h' X; [discriminate|]. destruct (ST f) as [[Y _]|(h1 & r & Y)]; congruence.
Qed.
Lemma split_total : forall h this new off p, good h -> owners_ok h -> kinds_ok h -> unused h new ->
  n_parent (h this) = Some p -> textual h this -> n_ro (h this) = false -> n_ro (h p) = false ->
  int_sized (n_data (h this)) -> inside (n_data (h this)) off -> this <> new -> p <> new ->
  (exists f0, forall f, (f0 <= f)%nat -> exists h', split_text f h this new off = Some (Ok h' new)) /\
  (forall f e h', split_text f h this new off <> Some (Ex e h')).
Proof.
  intros h this new off p G O K U P TX RO ROP SZ IN NE1 NE2.
  assert (IK : In this (kids h p)) by (apply (l_parent h (proj1 G)), P).
  assert (SH : forall f, split_text f h this new off =
    let sec := std_substr (n_data (h this)) off (Z.of_nat (length (n_data (h this))) - off) in
    let h1 := set_data h this (std_replace (n_data (h this)) off (Z.of_nat (length (n_data (h this))) - off) []) in
    let h2 := upd h1 new (fun _ => split_node h1 this sec true) in
    match vinsert f h2 p new (n_next (h2 this)) with
    | Ok h3 _ => Some (Ok h3 new) | Ex e h3 => Some (Ex e (upd h3 new (set_orphan_f false))) | Div => Some Div end).
  { intro f. assert (C0 : (Z.of_nat (length (n_data (h this))) - off <? 0) = false) by (unfold inside in IN; apply Z.ltb_ge; lia).
    unfold split_text. rewrite RO, as_int_small by (unfold int_sized in SZ; lia).
    unfold substring_data. rewrite (proj2 (bad_offset_spec _ off SZ) IN), C0. cbv zeta beta iota.
    unfold delete_data, read_only. rewrite RO, (proj2 (bad_offset_spec _ off SZ) IN), C0. cbv beta iota.
    set (h1 := set_data h this _). rewrite (child_can h1 this p);
      [reflexivity|apply set_data_good, G|unfold h1; rewrite set_data_parent; exact P]. }
  setoid_rewrite SH. cbv zeta. clear SH.
  set (sec := std_substr _ _ _). set (fst' := std_replace _ _ _ _). clearbody sec fst'.
  assert (G1 := set_data_good h this fst' G). set (h1 := set_data h this fst') in *.
  assert (P1 : n_parent (h1 this) = Some p) by (unfold h1; rewrite set_data_parent; exact P).
  assert (U1 : unused h1 new).
  { destruct U; constructor; unfold h1; rewrite ?set_data_parent, ?set_data_kids, ?set_data_changes; assumption. }
  assert (TX1 : textual h1 this) by (unfold textual, h1; rewrite set_data_kind; exact TX).
  assert (G2 := new_good h1 new this p sec G1 U1 P1 TX1). set (h2 := upd h1 new _) in *.
  assert (AT2 : h2 new = split_node h1 this sec true) by (unfold h2, upd; rewrite Nat.eqb_refl; reflexivity).
  assert (N2 : forall i, i <> new -> h2 i = h1 i).
  { intros i N. unfold h2, upd. destruct (Nat.eqb_spec i new); [contradiction|reflexivity]. }
  assert (NT : n_kind (h this) <> KDocType) by (destruct TX as [X|X]; rewrite X; discriminate).
  assert (OT := O this p P NT).
  assert (ON : n_owner (h this) <> None).
  { intro X. apply (t_owned h (proj2 G)) in X. contradiction. }
  assert (CL : childless (n_kind (h p)) = false) by (apply (t_kids h (proj2 G) this), P).
  assert (KP := K p this IK).
  destruct (insert_text_ok h2 p new (n_next (h2 this)) G2) as [(f0 & HF) NX].
  - constructor; rewrite AT2; reflexivity.
  - rewrite AT2. cbn. unfold h1. rewrite set_data_owner. exact ON.
  - rewrite AT2, (N2 p NE2). cbn. unfold h1. rewrite !set_data_owner. exact OT.
  - rewrite (N2 p NE2). unfold h1. rewrite set_data_kind. exact CL.
  - rewrite (N2 p NE2). unfold h1. rewrite set_data_kind. intro X. rewrite X in KP. cbn in KP.
    destruct TX as [Y|Y]; rewrite Y in KP; intuition discriminate.
  - unfold textual. rewrite AT2. exact TX1.
  - rewrite (N2 p NE2). unfold h1, set_data. rewrite upd_at. cbn. rewrite if_same. exact ROP.
  - rewrite AT2, (N2 p NE2). cbn. unfold h1. rewrite !set_data_kind.
    destruct TX as [Y|Y]; rewrite Y in *; destruct (n_kind (h p)); cbn in *; try reflexivity; intuition discriminate.
  - exact NE2.
  - rewrite (N2 this NE1). destruct (in_split _ _ IK) as (a & b & KK).
    assert (KK1 : n_kids (h1 p) = a ++ this :: b) by (unfold h1; rewrite set_data_kids; exact KK).
    rewrite (nth_first h1 p a this b G1 KK1). destruct b as [|x b]; cbn; [exact I|].
    unfold kids. rewrite (N2 p NE2). unfold h1. rewrite set_data_kids. unfold kids in KK. rewrite KK. apply in_or_app. right; right; left; reflexivity.
  - split.
    + exists f0. intros f L. destruct (HF f L) as (h3 & r3 & E). exists h3. rewrite E. reflexivity.
    + intros f e h' E. specialize (NX f). destruct (vinsert f h2 p new (n_next (h2 this))) as [h3 r3|e3 h3|]; [discriminate| |discriminate].
      apply (NX e3 h3). reflexivity.
Qed.

(** * Below a read-only node everything is read-only *)
Definition guards (h h' : heap) : Prop :=
  forall i, n_ro (h' i) = n_ro (h i) /\ (n_ro (h i) = true -> n_kids (h' i) = n_kids (h i)).
Definition res_guards {A} (h : heap) (r : res A) : Prop := match r with Ok h' _ | Ex _ h' => guards h h' | Div => True end.
Lemma guards_refl : forall h, guards h h.
Proof. intros h i. auto. Qed.
Lemma guards_trans : forall a b c, guards a b -> guards b c -> guards a c.
Proof.
  intros a b c A B i. destruct (A i) as [A1 A2], (B i) as [B1 B2]. split; [congruence|]. intro R. rewrite B2, A2; auto. congruence.
Qed.
Lemma guards_upd : forall a h i f, guards a h -> n_ro (f (h i)) = n_ro (h i) -> n_kids (f (h i)) = n_kids (h i) -> guards a (upd h i f).
Proof.
  intros a h i f A R K. apply guards_trans with h; [exact A|]. intro j. unfold upd.
  destruct (Nat.eqb_spec j i) as [->|]; auto.
Qed.
Lemma guards_set_kids : forall h i l, n_ro (h i) = false -> guards h (set_kids h i l).
Proof.
  intros h i l R j. unfold set_kids, upd. destruct (Nat.eqb_spec j i) as [->|]; auto. cbn. split; auto. congruence.
Qed.
Lemma guards_parent : forall a h i p, guards a h -> guards a (set_parent h i p).
Proof.
  intros a h i p N. unfold set_parent. apply guards_upd; try reflexivity. destruct (n_owner (h i)); [|exact N].
  destruct p, (n_parent (h i)); auto; apply guards_upd; auto.
Qed.
Lemma guards_prev_opt : forall a h i v, guards a h -> guards a (set_prev_opt h i v).
Proof. intros a h [i|] v N; cbn; [apply guards_upd; auto|exact N]. Qed.
Lemma guards_next_opt : forall a h i v, guards a h -> guards a (set_next_opt h i v).
Proof. intros a h [i|] v N; cbn; [apply guards_upd; auto|exact N]. Qed.
Lemma guards_mark : forall a h i, guards a h -> guards a (mark_changed h i).
Proof. intros a h i N. unfold mark_changed. destruct (n_owner (h i)); [apply guards_upd; auto|exact N]. Qed.
Lemma guards_ro : forall h h' i, guards h h' -> n_ro (h i) = false -> n_ro (h' i) = false.
Proof. intros h h' i G R. rewrite (proj1 (G i)). exact R. Qed.
Ltac kept_ro := repeat first [assumption | apply guards_refl | apply guards_mark | apply guards_parent | apply guards_prev_opt
  | apply guards_next_opt | (unfold set_prev; apply guards_upd; [|reflexivity|reflexivity])
  | (unfold set_next; apply guards_upd; [|reflexivity|reflexivity]) | (apply guards_upd; [|reflexivity|reflexivity])].
Lemma res_guards_trans : forall {A} a b (r : res A), guards a b -> res_guards b r -> res_guards a r.
Proof. intros A a b [h x|e h|] S R; cbn in *; auto; apply guards_trans with b; auto. Qed.
Lemma res_guards_bind : forall {A B} h (r : res A) (k : heap -> A -> res B), res_guards h r ->
  (forall h' a, guards h h' -> res_guards h' (k h' a)) -> res_guards h (rbind r k).
Proof. intros A B h [h1 a|e h1|] k R K; cbn [rbind]; auto. apply res_guards_trans with h1; auto. Qed.
Lemma vremove_guards : forall h this old, res_guards h (vremove h this old).
Proof.
  assert (D : forall h this old, res_guards h (do_remove h this old)).
  { intros h this old. unfold do_remove. destruct (n_ro (h this)) eqn:R; [apply guards_refl|].
    destruct old as [o|]; [|apply guards_refl]. destruct (erase o (n_kids (h this))) as [l|]; [|apply guards_refl].
    cbn [res_guards]. assert (S := guards_set_kids h this l R). set (h1 := set_kids h this l) in *. clearbody h1. kept_ro. }
  intros h this old. unfold vremove. destruct (childless _); [apply guards_refl|].
  destruct (has_kind h this KDocument); [|apply D].
  destruct (opt_eqb _ _); [apply guards_refl|]. apply res_guards_bind; [apply D|].
  intros h1 r _. destruct (opt_eqb _ _); cbn [res_guards]; kept_ro.
Qed.
Lemma check_guards : forall f h this new, res_guards h (check_can_add f h this new).
Proof.
  intros f h this new. unfold check_can_add.
  repeat match goal with |- res_guards _ (match ?x with _ => _ end) => destruct x end; cbn [res_guards]; kept_ro; exact I.
Qed.
Lemma out_guards : forall h new, res_guards h (remove_if_required h new).
Proof.
  intros h new. unfold remove_if_required. destruct (get_parent h new); [|apply guards_refl].
  apply res_guards_bind; [apply vremove_guards|]. intros; apply guards_refl.
Qed.
Lemma insert_node_guards : forall f h this new ref, n_ro (h this) = false -> res_guards h (insert_node f h this new ref).
Proof.
  intros f h this new ref R. unfold insert_node. apply res_guards_bind; [apply check_guards|]. intros h1 _ G1.
  apply res_guards_bind; [apply out_guards|]. intros h2 _ G2.
  assert (R2 : n_ro (h2 this) = false) by (apply (guards_ro h1 h2), (guards_ro h h1); auto).
  destruct ref as [r|].
  - destruct (insert_at _ _ _) as [l|]; cbn [res_guards]; [|kept_ro].
    assert (S := guards_set_kids h2 this l R2). set (h3 := set_kids h2 this l) in *. clearbody h3. kept_ro.
  - cbn [res_guards]. match goal with |- context[set_kids ?g this ?l] => assert (G3 : guards h2 g) by (destruct (last_child h2 this); kept_ro);
      assert (S := guards_set_kids g this l (guards_ro _ _ _ G3 R2)); set (h3 := set_kids g this l) in *; clearbody h3 end.
    apply guards_trans with (2 := guards_mark _ _ _ (guards_parent _ _ _ _ (guards_refl h3))).
    eapply guards_trans; eauto.
Qed.
Lemma replace_node_guards : forall f h this new old, n_ro (h this) = false -> res_guards h (replace_node f h this new old).
Proof.
  intros f h this new old R. unfold replace_node. apply res_guards_bind; [apply check_guards|]. intros h1 _ G1.
  apply res_guards_bind; [apply out_guards|]. intros h2 _ G2.
  assert (R2 : n_ro (h2 this) = false) by (apply (guards_ro h1 h2), (guards_ro h h1); auto).
  destruct (replace_at _ _ _) as [l|]; cbn [res_guards]; [|kept_ro].
  assert (S := guards_set_kids h2 this l R2). set (h3 := set_kids h2 this l) in *. clearbody h3. kept_ro.
Qed.
Lemma vinsert_guards : forall f,
  (forall h this new ref, res_guards h (vinsert f h this new ref)) /\
  (forall h this frag ref, res_guards h (frag_loop f h this frag ref)).
Proof.
  induction f as [|f [IH1 IH2]]; [split; intros; exact I|]. split.
  - intros h this new ref. cbn [vinsert]. destruct (childless _); [apply guards_refl|].
    assert (BASE : res_guards h (if n_ro (h this) then Ex NO_MODIFICATION h
        else if has_kind h new KFragment then frag_loop f h this new ref else insert_node f h this new ref)).
    { destruct (n_ro (h this)) eqn:R; [apply guards_refl|]. destruct (has_kind h new KFragment); [apply IH2|apply insert_node_guards, R]. }
    destruct (has_kind h this KDocument); [|exact BASE].
    destruct (has_kind h new KElement && _); [apply guards_refl|].
    destruct (has_kind h new KDocType && _); [apply guards_refl|].
    apply res_guards_bind; [exact BASE|]. intros h1 r _. cbn [res_guards].
    repeat match goal with |- context[if ?b then _ else _] => destruct b end; kept_ro.
  - intros h this frag ref. cbn [frag_loop]. destruct (first_child h frag); [|apply guards_refl].
    apply res_guards_bind; [apply vremove_guards|]. intros h1 _ _. apply res_guards_bind; [apply IH1|]. intros; apply IH2.
Qed.
Lemma vreplace_guards : forall f h this new old, res_guards h (vreplace f h this new old).
Proof.
  induction f as [|f IH]; intros h this new old; [exact I|]. cbn [vreplace]. destruct (childless _); [apply guards_refl|].
  match goal with |- res_guards _ (if _ then if _ then _ else if _ then _ else if _ then _ else rbind ?b _ else _) =>
    assert (BASE : res_guards h b) end.
  { destruct (n_ro (h this)) eqn:R; [apply guards_refl|]. destruct (has_kind h new KFragment); [|apply replace_node_guards, R].
    apply res_guards_bind; [apply vremove_guards|]. intros h1 [c|] _; [|exact I].
    apply res_guards_bind; [apply IH|]. intros h2 _ _. apply res_guards_bind; [apply (proj1 (vinsert_guards f))|].
    intros; apply guards_refl. }
  destruct (has_kind h this KDocument); [|exact BASE]. destruct (negb _); [apply guards_refl|].
  destruct (_ && _); [apply guards_refl|]. destruct (_ && _); [apply guards_refl|].
  apply res_guards_bind; [exact BASE|]. intros h1 r _.
  repeat match goal with |- context[if ?b then _ else _] => destruct b end; cbn [res_guards]; kept_ro.
Qed.
Lemma set_data_guards : forall h i s, guards h (set_data h i s).
Proof. intros h i s. unfold set_data. kept_ro. Qed.
Lemma normalize_guards : forall f,
  (forall h this, res_guards h (normalize f h this)) /\
  (forall h this child, res_guards h (norm_loop f h this child)).
Proof.
  assert (MT : forall f h this t next, res_guards h (merge_texts f h this t next)).
  { induction f as [|f IH]; intros h this t next; [exact I|]. cbn [merge_texts].
    destruct next as [x|]; [|apply guards_refl]. destruct (has_kind h x KText); [|apply guards_refl].
    unfold append_data, read_only. destruct (n_ro (h t)); cbn [rbind]; [apply guards_refl|].
    apply res_guards_trans with (set_data h t (n_data (h t) ++ n_data (h x))); [apply set_data_guards|].
    apply res_guards_bind; [apply vremove_guards|]. intros; apply IH. }
  induction f as [|f [IH1 IH2]]; [split; intros; exact I|]. split.
  - intros h this. cbn [normalize]. apply IH2.
  - intros h this [c|]; cbn [norm_loop]; [|apply guards_refl]. destruct (has_kind h c KText).
    + apply res_guards_bind; [apply MT|]. intros h1 nx _. apply res_guards_bind; [|intros; apply IH2].
      destruct (n_data (h1 c)); [|apply guards_refl]. apply res_guards_bind; [apply vremove_guards|]. intros; apply guards_refl.
    + apply res_guards_bind; [apply IH1|]. intros; apply IH2.
Qed.
Lemma guards_frozen : forall h h', guards h h' -> frozen_down h -> frozen_down h'.
Proof.
  intros h h' G F p c I R. destruct (G p) as [P1 P2], (G c) as [C1 _]. rewrite C1. rewrite P1 in R.
  unfold kids in I. rewrite (P2 R) in I. apply (F p c I R).
Qed.
Lemma freeze_frozen : forall f h i h', freeze f h i = Some h' ->
  n_ro (h' i) = true /\ forall p c, In c (kids h p) -> n_ro (h' p) = true -> n_ro (h p) = false -> n_ro (h' c) = true.
Proof.
  induction f as [|f IH]; intros h i h' E; [discriminate|]. cbn [freeze] in E.
  assert (X : forall l g, marks h g -> (forall p c, In c (kids h p) -> n_ro (g p) = true -> n_ro (h p) = false -> p = i \/ n_ro (g c) = true) ->
    (fix each (l : list nat) (h : heap) : option heap :=
         match l with
         | [] => Some h
         | c :: r => match freeze f h c with Some h' => each r h' | None => None end
         end) l g = Some h' ->
    marks g h' /\ (forall c, In c l -> n_ro (h' c) = true) /\
    (forall p c, In c (kids h p) -> n_ro (h' p) = true -> n_ro (h p) = false -> p = i \/ n_ro (h' c) = true)).
  { induction l as [|c l IHl]; intros g M A EE.
    - injection EE as <-. split; [intro; auto|]. split; [intros c []|exact A].
    - destruct (freeze f g c) as [g1|] eqn:FZ; [|discriminate]. destruct (IH g c g1 FZ) as [I1 I2].
      assert (M1 := freeze_marks _ _ _ _ FZ).
      assert (M2 : marks h g1).
      { intro j. destruct (M1 j) as [->| ->]; [apply M|]. destruct (M j) as [->| ->]; right; reflexivity. }
      destruct (IHl g1 M2) as (N1 & N2 & N3); auto.
      + intros p d ID RP RH. destruct (n_ro (g p)) eqn:GP.
        * destruct (A p d ID GP RH) as [->|D]; [auto|]. right. destruct (M1 d) as [->| ->]; [exact D|reflexivity].
        * right. apply (I2 p d); auto. unfold kids. rewrite (marks_kids h g M). exact ID.
      + split.
        * intro j. destruct (N1 j) as [->| ->]; [apply M1|]. destruct (M1 j) as [->| ->]; right; reflexivity.
        * split; [|exact N3]. intros d [<-|D]; [|apply N2, D]. destruct (N1 c) as [->| ->]; [exact I1|reflexivity]. }
  destruct (X (n_kids (h i)) (set_read_only h i)) as (N1 & N2 & N3); [| |exact E|].
  - intro j. unfold set_read_only, upd. destruct (Nat.eqb j i); auto.
  - intros p c I. unfold set_read_only, upd. destruct (Nat.eqb_spec p i) as [->|NE]; [auto|]. congruence.
  - split.
    + destruct (N1 i) as [->| ->]; [|reflexivity]. unfold set_read_only, upd. rewrite Nat.eqb_refl. reflexivity.
    + intros p c I RP RH. destruct (N3 p c I RP RH) as [->|D]; [apply N2, I|exact D].
Qed.
Lemma change_frozen : forall h h', good h -> frozen_down h -> change h h' -> frozen_down h'.
Proof.
  intros h h' G F C. destruct C as [o f h' ND E|i s|f this new off h' r U OW KN TX GP SZ E|f this h' u E].
  - assert (R : forall A (r : res A), res_guards h r ->
      (exists u, rbind r (fun h _ => Ok h tt) = Ok h' u) \/ (exists e, rbind r (fun h _ => Ok h tt) = Ex e h') -> frozen_down h').
    { intros A [h1 a|e1 h1|] S [[u X]|[e X]]; cbn [rbind] in X; try discriminate.
      - injection X as <- _. apply (guards_frozen h); auto.
      - injection X as _ <-. apply (guards_frozen h); auto. }
    destruct o as [t n ref|t n old|t old|t]; cbn [dom_call] in E.
    + apply (R _ (vinsert f h t n ref)); auto. apply (proj1 (vinsert_guards f)).
    + apply (R _ (vreplace f h t n old)); auto. apply vreplace_guards.
    + apply (R _ (vremove h t (Some old))); auto. apply vremove_guards.
    + destruct (freeze f h t) as [h1|] eqn:FZ; [|exfalso; destruct E as [[u X]|[e X]]; discriminate].
      assert (h' = h1) as -> by (destruct E as [[u X]|[e X]]; [injection X as <- _; reflexivity|discriminate]).
      intros p c I R1. assert (M := freeze_marks _ _ _ _ FZ). unfold kids in I. rewrite (marks_kids h h1 M) in I.
      destruct (n_ro (h p)) eqn:RP; [|apply (proj2 (freeze_frozen _ _ _ _ FZ) p c I R1 RP)].
      assert (RC := F p c I RP). destruct (M c) as [->| ->]; [exact RC|reflexivity].
  - apply (guards_frozen h); auto. apply set_data_guards.
  - rewrite hidden_parent in GP by apply G. destruct (n_parent (h this)) as [p|] eqn:P; [|contradiction].
    unfold split_text in E. destruct (n_ro (h this)) eqn:RO; [discriminate|].
    unfold substring_data in E. destruct (bad_offset _ _) eqn:BE; [discriminate|].
    destruct (_ <? 0) eqn:C0; [discriminate|]. unfold delete_data, read_only in E. rewrite RO, BE, C0 in E.
    set (sec := std_substr _ _ _) in *. set (fst' := std_replace _ _ _ _) in *. clearbody sec fst'.
    assert (G1 := set_data_good h this fst' G). assert (F1 := guards_frozen _ _ (set_data_guards h this fst') F).
    set (h1 := set_data h this fst') in *.
    assert (P1 : n_parent (h1 this) = Some p) by (unfold h1; rewrite set_data_parent; exact P).
    rewrite (child_can h1 this p G1 P1) in E.
    assert (U1 : unused h1 new).
    { destruct U; constructor; unfold h1; rewrite ?set_data_parent, ?set_data_kids, ?set_data_changes; assumption. }
    assert (F2 : frozen_down (upd h1 new (fun _ => split_node h1 this sec true))).
    { intros q c I. unfold upd, kids in *. destruct (Nat.eqb_spec q new) as [->|NQ]; [destruct I|].
      destruct (Nat.eqb_spec c new) as [->|NC]; [|apply F1, I].
      apply (l_parent h1 (proj1 G1)) in I. rewrite (un_parent _ _ U1) in I. discriminate. }
    set (h2 := upd h1 new _) in *. clearbody h1 h2.
    assert (S := proj1 (vinsert_guards f) h2 p new (n_next (h2 this))).
    destruct (vinsert f h2 p new (n_next (h2 this))) as [h3 r3|e3 h3|]; try discriminate. injection E as <- _.
    apply (guards_frozen h2); auto.
  - assert (R := proj1 (normalize_guards f) h this). rewrite E in R. apply (guards_frozen h); auto.
Qed.
Lemma known_frozen : forall h, known h -> frozen_down h.
Proof.
  intros h (kinds & docs & names & E). assert (K0 : known (fresh_heap kinds docs names)) by (exists kinds, docs, names; constructor).
  destruct (known_good _ K0) as [G0 O0].
  induction E as [|h1 h2 E IH C].
  - intros p c I. exfalso. revert I. unfold kids, fresh_heap, new_node. destruct (kinds p); intros [].
  - apply change_frozen with h1; auto. apply (evolves_spec _ h1 G0 O0 E).
Qed.
(** splitText that raises has changed nothing. *)
Lemma split_atomic : forall f h this new off p e h', known h -> kinds_ok h -> unused h new ->
  n_parent (h this) = Some p -> textual h this -> int_sized (n_data (h this)) -> this <> new -> p <> new ->
  split_text f h this new off = Some (Ex e h') -> h' = h /\ (n_ro (h this) = true \/ ~ inside (n_data (h this)) off).
Proof.
  intros f h this new off p e h' K KO U P TX SZ NE1 NE2 E. destruct (known_good h K) as [G O].
  destruct (n_ro (h this)) eqn:RO.
  { unfold split_text in E. rewrite RO in E. injection E as _ <-. auto. }
  destruct (bad_offset (n_data (h this)) off) eqn:B.
  { unfold split_text in E. rewrite RO in E. unfold substring_data in E. rewrite B in E. injection E as _ <-. split; [reflexivity|].
    right. intro I. apply (bad_offset_spec _ _ SZ) in I. congruence. }
  exfalso. apply (bad_offset_spec _ _ SZ) in B.
  assert (RP : n_ro (h p) = false).
  { destruct (n_ro (h p)) eqn:RP; [|reflexivity]. assert (X := known_frozen h K p this). rewrite RO in X.
    symmetry. apply X; auto. apply (l_parent h (proj1 G)), P. }
  apply (proj2 (split_total h this new off p G O KO U P TX RO RP SZ B NE1 NE2) f e h' E).
Qed.

(** * Shapes for the theorems *)
Lemma insert_data_all : forall h i offset arg, int_sized (n_data (h i)) ->
  (n_ro (h i) = true -> insert_data h i offset arg = Ex NO_MODIFICATION h) /\
  (n_ro (h i) = false -> inside (n_data (h i)) offset ->
   edits h i (insert_data h i offset arg) (is_replaced (n_data (h i)) offset 0 arg)) /\
  (n_ro (h i) = false -> ~ inside (n_data (h i)) offset -> insert_data h i offset arg = Ex INDEX_SIZE h).
Proof.
  intros h i offset arg S. rewrite insert_data_ok by exact S. destruct (replace_data_ok h i offset 0 arg S) as (A & B & C).
  split; [exact A|]. split; [intros R I; apply B; auto; lia|intros R N; apply C; auto].
Qed.
Lemma append_data_all : forall h i arg,
  (n_ro (h i) = true -> append_data h i arg = Ex NO_MODIFICATION h) /\
  (n_ro (h i) = false -> append_data h i arg = Ok (set_data h i (n_data (h i) ++ arg)) tt).
Proof. intros h i arg. unfold append_data, read_only. split; intros ->; reflexivity. Qed.
Lemma normalize_effect : forall f h this h' u, good h -> normalize f h this = Ok h' u ->
  normal_below h' this /\ (forall q s, ~ textual h q -> content h q s -> content h' q s) /\
  (forall i, ~ at_or_below h this i -> kids h' i = kids h i) /\ (forall i, ~ above h this i -> n_data (h' i) = n_data (h i)).
Proof.
  intros f h this h' u G E. assert (S := proj1 (normalize_spec f) h this G). rewrite E in S. destruct S as [F N].
  split; [exact N|]. split; [apply (ne_text _ _ (f_neutral _ _ _ F))|]. split; [apply (f_kids _ _ _ F)|apply (f_data _ _ _ F)].
Qed.
Lemma normalize_again : forall f f2 h this h' u, good h -> normalize f h this = Ok h' u ->
  normalize f2 h' this = Ok h' tt \/ normalize f2 h' this = Div.
Proof.
  intros f f2 h this h' u G E. assert (S := proj1 (normalize_spec f) h this G). rewrite E in S. destruct S as [F N].
  apply (proj1 (normalize_normal f2)); [apply (ne_good _ _ (f_neutral _ _ _ F))|exact N].
Qed.
Lemma normalize_throws : forall f h this e h', good h -> kinds_ok h -> frozen_down h -> normalize f h this = Ex e h' ->
  (forall q s, ~ textual h q -> content h q s -> content h' q s) /\ exists n, at_or_below h this n /\ n_ro (h n) = true.
Proof.
  intros f h this e h' G K FD E. assert (S := proj1 (normalize_spec f) h this G). rewrite E in S.
  destruct (S (kinds_texts h K) FD) as [N X]. split; [apply (ne_text _ _ N)|exact X].
Qed.
Lemma run_evolves : forall f ops h0 h h', good h0 -> owners_ok h0 -> evolves h0 h -> Forall (not_into_itself KDocument h0) ops ->
  dom_run f h ops = Some h' -> evolves h0 h'.
Proof.
  intro f. induction ops as [|o ops IH]; intros h0 h h' G O E F R; cbn [dom_run] in R; [injection R as <-; exact E|].
  inversion F as [|? ? F1 F2]; subst.
  assert (N : not_into_itself KDocument h o).
  { unfold not_into_itself in *. destruct (op_target o) as [[t n]|]; [|exact I].
    intro HK. apply F1. apply has_kind_eq in HK. apply has_kind_eq. destruct (evolves_keeps h0 h G O E n) as [K _]. congruence. }
  destruct (dom_call f h o) as [h1 u|e h1|] eqn:C; [| |discriminate].
  - apply (IH h0 h1); auto. apply ev_step with h; auto. apply change_core with o f; eauto.
  - apply (IH h0 h1); auto. apply ev_step with h; auto. apply change_core with o f; eauto.
Qed.
Lemma run_known : forall f ops kinds docs names h', Forall (not_into_itself KDocument (fresh_heap kinds docs names)) ops ->
  dom_run f (fresh_heap kinds docs names) ops = Some h' -> known h'.
Proof.
  intros f ops kinds docs names h' F R. exists kinds, docs, names.
  apply (run_evolves f ops _ (fresh_heap kinds docs names)); auto; [apply fresh_good|apply fresh_owners|constructor].
Qed.
