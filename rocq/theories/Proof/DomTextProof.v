(** Character data, split and normalize. *)
From Verif.Model Require Import Base Dom DomText.
From Verif.Spec Require Import DomSpec DomTextSpec.
From Verif.Proof Require Import DomProof DomProof2 DomProof3.

(** * Strings *)
Lemma as_int_small : forall z, 0 <= z < 2147483648 -> as_int z = z.
Proof. intros z B. unfold as_int. rewrite Z.mod_small by lia. destruct (z <? _) eqn:E; lia. Qed.
Lemma bad_offset_spec : forall d off, int_sized d -> (bad_offset d off = false <-> inside d off).
Proof.
  intros d off S. unfold bad_offset, inside, int_sized in *. rewrite as_int_small by lia.
  destruct (off <? 0) eqn:A, (Z.of_nat (length d) <? off) eqn:B; cbn [orb]; split; intro; try discriminate; try reflexivity; lia.
Qed.
Lemma std_split : forall (d : str) off cnt, 0 <= off <= Z.of_nat (length d) -> 0 <= cnt ->
  d = firstn (Z.to_nat off) d ++ std_substr d off cnt ++ skipn (Z.to_nat cnt) (skipn (Z.to_nat off) d) /\
  Z.of_nat (length (firstn (Z.to_nat off) d)) = off /\
  Z.of_nat (length (std_substr d off cnt)) = Z.min cnt (Z.of_nat (length d) - off).
Proof.
  intros d off cnt O C. unfold std_substr. rewrite firstn_skipn, firstn_skipn. split; [reflexivity|].
  rewrite !firstn_length, skipn_length. lia.
Qed.
Lemma substr_spec : forall d off cnt, 0 <= off <= Z.of_nat (length d) -> 0 <= cnt ->
  is_substring d off cnt (std_substr d off cnt).
Proof. intros d off cnt O C. destruct (std_split d off cnt O C) as (A & B & D). do 2 eexists. eauto. Qed.
Lemma replace_spec : forall d off cnt arg, 0 <= off <= Z.of_nat (length d) -> 0 <= cnt ->
  is_replaced d off cnt arg (std_replace d off cnt arg).
Proof. intros d off cnt arg O C. destruct (std_split d off cnt O C) as (A & B & D). do 3 eexists. unfold std_replace. eauto. Qed.
Lemma is_replaced_fun : forall d off cnt arg x y, is_replaced d off cnt arg x -> is_replaced d off cnt arg y -> x = y.
Proof.
  intros d off cnt arg x y (a & s & b & E1 & A1 & S1 & ->) (a' & s' & b' & E2 & A2 & S2 & ->).
  rewrite E1 in E2.
  assert (a = a') as <-.
  { apply (f_equal (firstn (length a))) in E2. rewrite firstn_app, firstn_all, Nat.sub_diag, app_nil_r in E2.
    replace (length a) with (length a') in E2 by lia.
    rewrite firstn_app, firstn_all, Nat.sub_diag in E2. cbn in E2. rewrite app_nil_r in E2. exact E2. }
  apply app_inv_head in E2.
  assert (s = s') as <-.
  { apply (f_equal (firstn (length s))) in E2. rewrite firstn_app, firstn_all, Nat.sub_diag, app_nil_r in E2.
    replace (length s) with (length s') in E2 by lia.
    rewrite firstn_app, firstn_all, Nat.sub_diag in E2. cbn in E2. rewrite app_nil_r in E2. exact E2. }
  apply app_inv_head in E2. subst. reflexivity.
Qed.
Lemma substring_ok : forall h i off cnt, int_sized (n_data (h i)) ->
  (inside (n_data (h i)) off -> 0 <= cnt ->
   exists s, substring_data h i off cnt = Ok h s /\ is_substring (n_data (h i)) off cnt s) /\
  (~ inside (n_data (h i)) off \/ cnt < 0 -> substring_data h i off cnt = Ex INDEX_SIZE h).
Proof.
  intros h i off cnt S. assert (B := bad_offset_spec _ off S). unfold substring_data. split.
  - intros I C. rewrite (proj2 B I). destruct (Z.ltb_spec cnt 0); [lia|]. eexists; split; [reflexivity|].
    apply substr_spec; auto.
  - intros N. destruct (bad_offset (n_data (h i)) off); [reflexivity|].
    destruct (Z.ltb_spec cnt 0); [reflexivity|]. exfalso. destruct N as [N|N]; [apply N, B; reflexivity|lia].
Qed.
Definition edits (h : heap) (i : nat) (r : res unit) (P : str -> Prop) : Prop :=
  exists s, r = Ok (set_data h i s) tt /\ P s.
Lemma replace_data_ok : forall h i off cnt arg, int_sized (n_data (h i)) ->
  (n_ro (h i) = true -> replace_data h i off cnt arg = Ex NO_MODIFICATION h) /\
  (n_ro (h i) = false -> inside (n_data (h i)) off -> 0 <= cnt ->
   edits h i (replace_data h i off cnt arg) (is_replaced (n_data (h i)) off cnt arg)) /\
  (n_ro (h i) = false -> ~ inside (n_data (h i)) off \/ cnt < 0 -> replace_data h i off cnt arg = Ex INDEX_SIZE h).
Proof.
  intros h i off cnt arg S. assert (B := bad_offset_spec _ off S). unfold replace_data, read_only. split; [intros ->; reflexivity|]. split.
  - intros -> I C. rewrite (proj2 B I). destruct (Z.ltb_spec cnt 0); [lia|]. eexists; split; [reflexivity|].
    apply replace_spec; auto.
  - intros -> N. destruct (bad_offset (n_data (h i)) off); [reflexivity|].
    destruct (Z.ltb_spec cnt 0); [reflexivity|]. exfalso. destruct N as [N|N]; [apply N, B; reflexivity|lia].
Qed.
Lemma delete_data_ok : forall h i off cnt, delete_data h i off cnt = replace_data h i off cnt [].
Proof. reflexivity. Qed.
Lemma insert_data_ok : forall h i off arg, int_sized (n_data (h i)) -> insert_data h i off arg = replace_data h i off 0 arg.
Proof. reflexivity. Qed.

(** * Steps that leave the text alone *)
Definition textual (h : heap) (i : nat) : Prop := n_kind (h i) = KText \/ n_kind (h i) = KCData.
Lemma textual_dec : forall h i, {textual h i} + {~ textual h i}.
Proof. intros h i. unfold textual. destruct (n_kind (h i)); (left; auto; fail) || (right; intros [X|X]; discriminate). Qed.
Scheme content_ind2 := Induction for content Sort Prop
  with contents_ind2 := Induction for contents Sort Prop.

Definition piece (h h' : heap) (c : nat) (s : str) : Prop :=
  (textual h c -> s = n_data (h c)) /\ (~ textual h c -> content h' c s).
Lemma contents_pieces : forall h' l ss, Forall2 (fun c s => content h' c s) l ss -> contents h' l (concat ss).
Proof. intros h' l ss F. induction F; cbn; constructor; auto. Qed.
Lemma pieces_content : forall h' l s, contents h' l s -> exists ss, s = concat ss /\ Forall2 (fun c s => content h' c s) l ss.
Proof.
  intros h' l s C. induction C as [|c l s t A B (ss & -> & F)]; [exists []; auto|]. exists (s :: ss). auto.
Qed.

Lemma content_step : forall h h' this,
  (forall i, n_kind (h' i) = n_kind (h i)) ->
  (forall i, i <> this -> ~ textual h i -> kids h' i = kids h i) ->
  (forall i c, i <> this -> ~ textual h i -> In c (kids h i) -> n_data (h' c) = n_data (h c)) ->
  (forall ss, Forall2 (piece h h') (kids h this) ss -> contents h' (kids h' this) (concat ss)) ->
  forall p s, ~ textual h p -> content h p s -> content h' p s.
Proof.
  intros h h' this K KI DI TH p s NT C. revert NT.
  assert (TT : forall i, textual h' i <-> textual h i) by (intro i; unfold textual; rewrite K; tauto).
  induction C as [i T|i s N1 N2 C IH| |c l s t A IH1 B IH2] using content_ind2 with
    (P0 := fun l s _ => exists ss, s = concat ss /\ Forall2 (piece h h') l ss).
  - intro NT; contradiction.
  - intros NT. destruct IH as (ss & -> & F). apply content_node; try (rewrite K; assumption).
    destruct (Nat.eq_dec i this) as [->|NE]; [apply TH, F|].
    rewrite (KI i NE NT). apply contents_pieces.
    assert (D : forall c, In c (kids h i) -> n_data (h' c) = n_data (h c)) by (intros c; apply DI; auto).
    clear -F D TT. induction F as [|c s l ss P F IH]; constructor.
    + destruct P as [P1 P2]. destruct (textual_dec h c) as [T|T]; [|auto].
      rewrite (P1 T), <- D by (left; reflexivity). apply content_text. apply TT, T.
    + apply IH. intros x I. apply D. right; exact I.
  - exists []. split; auto.
  - destruct IH2 as (ss & -> & F). exists (s :: ss). split; [reflexivity|]. constructor; [|exact F]. split; [|exact IH1].
    intro T. inversion A as [|? ? N1 N2]; subst; [reflexivity|]. destruct T; contradiction.
Qed.

(** A step that leaves kinds, the read-only flags and all text contents alone. *)
Record neutral (h h' : heap) : Prop := {
  ne_good : good h';
  ne_kind : forall i, n_kind (h' i) = n_kind (h i);
  ne_ro : forall i, n_ro (h' i) = n_ro (h i);
  ne_less : forall i c, In c (kids h' i) -> In c (kids h i);
  ne_text : forall p s, ~ textual h p -> content h p s -> content h' p s }.
Lemma neutral_refl : forall h, good h -> neutral h h.
Proof. intros h G. constructor; auto. Qed.
Lemma neutral_trans : forall a b c, neutral a b -> neutral b c -> neutral a c.
Proof.
  intros a b c [A1 A2 A3 A4 A5] [B1 B2 B3 B4 B5]. constructor; auto.
  - intro i. rewrite B2; auto.
  - intro i. rewrite B3; auto.
  - intros p s NT C. apply B5; auto. unfold textual in *. rewrite A2. exact NT.
Qed.

Lemma nth_first : forall h p a c b, good h -> n_kids (h p) = a ++ c :: b -> n_next (h c) = first b None.
Proof.
  intros h p a c b [L T] K. assert (CH := l_chain h L p). rewrite K in CH. apply chain_app in CH.
  destruct CH as [_ CH]. cbn [chain] in CH. tauto.
Qed.
Lemma set_data_good : forall h i s, good h -> good (set_data h i s).
Proof. intros h i s. apply good_ext; intro j; unfold set_data; rewrite !upd_at; cbn; rewrite !if_same; auto. Qed.
Lemma set_data_kids : forall h i s j, n_kids (set_data h i s j) = n_kids (h j).
Proof. intros. unfold set_data. rewrite upd_at. cbn. apply if_same. Qed.
Lemma set_data_kind : forall h i s j, n_kind (set_data h i s j) = n_kind (h j).
Proof. intros. unfold set_data. rewrite upd_at. cbn. apply if_same. Qed.
Lemma set_data_ro : forall h i s j, n_ro (set_data h i s j) = n_ro (h j).
Proof. intros. unfold set_data. rewrite upd_at. cbn. apply if_same. Qed.
Lemma set_data_parent : forall h i s j, n_parent (set_data h i s j) = n_parent (h j).
Proof. intros. unfold set_data. rewrite upd_at. cbn. apply if_same. Qed.
Lemma set_data_next : forall h i s j, n_next (set_data h i s j) = n_next (h j).
Proof. intros. unfold set_data. rewrite upd_at. cbn. apply if_same. Qed.
Lemma set_data_changes : forall h i s j, n_changes (set_data h i s j) = n_changes (h j).
Proof. intros. unfold set_data. rewrite upd_at. cbn. apply if_same. Qed.
Lemma set_data_owner : forall h i s j, n_owner (set_data h i s j) = n_owner (h j).
Proof. intros. unfold set_data. rewrite upd_at. cbn. apply if_same. Qed.
Lemma set_data_doctype : forall h i s j, n_doctype (set_data h i s j) = n_doctype (h j).
Proof. intros. unfold set_data. rewrite upd_at. cbn. apply if_same. Qed.
Lemma set_data_data : forall h i s j, n_data (set_data h i s j) = if Nat.eqb j i then s else n_data (h j).
Proof. intros. unfold set_data. rewrite upd_at. destruct (Nat.eqb j i); reflexivity. Qed.
Lemma static_data : forall a b, static a = static b -> n_data a = n_data b.
Proof. unfold static. intros a b E. congruence. Qed.
Lemma kid_parent : forall h p c, good h -> In c (kids h p) -> n_parent (h c) = Some p.
Proof. intros h p c [L T] I. apply (l_parent h L), I. Qed.
Lemma kid_unique : forall h p q c, good h -> In c (kids h p) -> In c (kids h q) -> p = q.
Proof. intros h p q c G A B. apply (kid_parent _ _ _ G) in A. apply (kid_parent _ _ _ G) in B. congruence. Qed.
Lemma owner_not_textual : forall h p c, good h -> In c (kids h p) -> ~ textual h p.
Proof.
  intros h p c G I [T|T]; apply (kid_parent _ _ _ G) in I; assert (X := t_kids h (proj2 G) _ _ I); rewrite T in X; discriminate.
Qed.
Lemma piece_content : forall h h' c s, (forall i, n_kind (h' i) = n_kind (h i)) -> n_data (h' c) = n_data (h c) ->
  piece h h' c s -> content h' c s.
Proof.
  intros h h' c s K D [P1 P2]. destruct (textual_dec h c) as [T|T]; [|auto]. rewrite (P1 T), <- D. apply content_text.
  rewrite K. exact T.
Qed.
Lemma pieces_contents : forall h h' l ss, (forall i, n_kind (h' i) = n_kind (h i)) ->
  (forall c, In c l -> n_data (h' c) = n_data (h c)) -> Forall2 (piece h h') l ss -> Forall2 (fun c s => content h' c s) l ss.
Proof.
  intros h h' l ss K D F. induction F as [|c s l ss P F IH]; constructor.
  - apply piece_content with h; auto. apply D. left; reflexivity.
  - apply IH. intros x I. apply D. right; exact I.
Qed.

(** What a step at [this] did to the lists and the data. *)
Record at_list (h h' : heap) (this : nat) (l : list nat) : Prop := {
  al_kids : kids h' this = l;
  al_other : forall i, i <> this -> kids h' i = kids h i;
  al_data : forall c, ~ In c (kids h this) -> n_data (h' c) = n_data (h c) }.

Lemma merge_step : forall h this t x a b h2 r, good h -> kids h this = a ++ t :: x :: b ->
  n_kind (h t) = KText -> n_kind (h x) = KText ->
  vremove (set_data h t (n_data (h t) ++ n_data (h x))) this (Some x) = Ok h2 r ->
  neutral h h2 /\ at_list h h2 this (a ++ t :: b) /\ n_data (h2 t) = n_data (h t) ++ n_data (h x) /\
  (forall i, i <> t -> n_data (h2 i) = n_data (h i)).
Proof.
  intros h this t x a b h2 r G KT TT TX V. set (h1 := set_data h t _) in *.
  assert (G1 : good h1) by (apply set_data_good, G).
  destruct (vremove_spec _ _ _ _ _ G1 V) as (R & G2 & _ & PC & _).
  assert (K2 : forall i, n_kind (h2 i) = n_kind (h i)).
  { intro i. rewrite (static_kind _ _ (r_static _ _ _ _ R i)). apply set_data_kind. }
  assert (D2 : forall i, n_data (h2 i) = if Nat.eqb i t then n_data (h t) ++ n_data (h x) else n_data (h i)).
  { intro i. rewrite (static_data _ _ (r_static _ _ _ _ R i)). apply set_data_data. }
  assert (KI : forall i, i <> this -> kids h2 i = kids h i).
  { intros i N. unfold kids. rewrite (r_others _ _ _ _ R i N). apply set_data_kids. }
  assert (ND : NoDup (a ++ t :: x :: b)) by (rewrite <- KT; apply (l_nodup h (proj1 G))).
  assert (KN : kids h2 this = a ++ t :: b).
  { destruct (remove_effect _ _ _ _ _ G1 V) as (_ & _ & -> & _). unfold kids. unfold h1. rewrite set_data_kids.
    unfold kids in KT. rewrite KT. replace (a ++ t :: x :: b) with ((a ++ [t]) ++ x :: b) by (rewrite <- app_assoc; reflexivity).
    rewrite without_mid; rewrite <- app_assoc; [reflexivity|exact ND]. }
  assert (IT : In t (kids h this)) by (rewrite KT; apply in_or_app; right; left; reflexivity).
  assert (ND2 := NoDup_remove_2 _ _ _ ND).
  assert (NTA : ~ In t a /\ ~ In t b /\ t <> x).
  { repeat split; intro I; apply ND2; apply in_or_app; [left; exact I|right; right; exact I|right; left; congruence]. }
  destruct NTA as (NA & NB & NX).
  split; [|split; [|split]].
  - constructor; auto.
    + intro i. rewrite (static_ro _ _ (r_static _ _ _ _ R i)). apply set_data_ro.
    + intros i c I. destruct (Nat.eq_dec i this) as [->|N]; [|rewrite <- KI; auto].
      rewrite KN in I. rewrite KT. apply in_app_or in I. apply in_or_app. cbn in *. tauto.
    + apply content_step with this; auto.
      * intros i c N NT I. rewrite D2. destruct (Nat.eqb_spec c t) as [->|]; [|reflexivity].
        exfalso. apply N. apply (kid_unique _ _ _ _ G I IT).
      * intros ss F. rewrite KT in F. rewrite KN. apply Forall2_app_inv_l in F. destruct F as (s1 & s2 & F1 & F2 & ->).
        inversion F2 as [|? st ? s3 PT F3]; subst. inversion F3 as [|? sx ? s4 PX F4]; subst.
        rewrite (proj1 PT (or_introl TT)), (proj1 PX (or_introl TX)), concat_app. cbn [concat].
        rewrite (app_assoc (n_data (h t))). change (concat s1 ++ (n_data (h t) ++ n_data (h x)) ++ concat s4) with
          (concat s1 ++ concat ((n_data (h t) ++ n_data (h x)) :: s4)). rewrite <- concat_app.
        apply contents_pieces. apply Forall2_app.
        -- apply pieces_contents with h; auto. intros c I. rewrite D2. destruct (Nat.eqb_spec c t) as [->|]; [contradiction|reflexivity].
        -- constructor.
           ++ replace (n_data (h t) ++ n_data (h x)) with (n_data (h2 t)) by (rewrite D2, Nat.eqb_refl; reflexivity).
              apply content_text. rewrite K2. auto.
           ++ apply pieces_contents with h; auto. intros c I. rewrite D2. destruct (Nat.eqb_spec c t) as [->|]; [contradiction|reflexivity].
  - constructor; auto. intros c N. rewrite D2. destruct (Nat.eqb_spec c t) as [->|]; [contradiction|reflexivity].
  - rewrite D2, Nat.eqb_refl. reflexivity.
  - intros i N. rewrite D2. destruct (Nat.eqb_spec i t); [contradiction|reflexivity].
Qed.
Lemma drop_step : forall h this t a b h2 r, good h -> kids h this = a ++ t :: b ->
  n_kind (h t) = KText -> n_data (h t) = [] -> vremove h this (Some t) = Ok h2 r ->
  neutral h h2 /\ at_list h h2 this (a ++ b) /\ (forall i, n_data (h2 i) = n_data (h i)).
Proof.
  intros h this t a b h2 r G KT TT E V.
  destruct (vremove_spec _ _ _ _ _ G V) as (R & G2 & _ & PC & _).
  assert (K2 : forall i, n_kind (h2 i) = n_kind (h i)) by (intro i; apply static_kind, (r_static _ _ _ _ R i)).
  assert (D2 : forall i, n_data (h2 i) = n_data (h i)) by (intro i; apply static_data, (r_static _ _ _ _ R i)).
  assert (KI : forall i, i <> this -> kids h2 i = kids h i) by (apply (r_others _ _ _ _ R)).
  assert (ND : NoDup (a ++ t :: b)) by (rewrite <- KT; apply (l_nodup h (proj1 G))).
  assert (KN : kids h2 this = a ++ b).
  { destruct (remove_effect _ _ _ _ _ G V) as (_ & _ & -> & _). rewrite KT. apply without_mid, ND. }
  split; [|split; [|exact D2]].
  - constructor; auto.
    + intro i. apply static_ro, (r_static _ _ _ _ R i).
    + intros i c I. destruct (Nat.eq_dec i this) as [->|N]; [|rewrite <- KI; auto].
      rewrite KN in I. rewrite KT. apply in_app_or in I. apply in_or_app. cbn. tauto.
    + apply content_step with this; auto.
      intros ss F. rewrite KT in F. rewrite KN. apply Forall2_app_inv_l in F. destruct F as (s1 & s2 & F1 & F2 & ->).
      inversion F2 as [|? st ? s3 PT F3]; subst. rewrite (proj1 PT (or_introl TT)), E, concat_app. cbn [concat app].
      rewrite <- concat_app. apply contents_pieces. apply Forall2_app; apply pieces_contents with h; auto.
  - constructor; auto.
Qed.

(** Documents hold no text. *)
Definition texts_ok (h : heap) : Prop := forall d c, n_kind (h d) = KDocument -> In c (kids h d) -> n_kind (h c) <> KText.
Lemma kinds_texts : forall h, kinds_ok h -> texts_ok h.
Proof. intros h K d c KD I KT. assert (X := K d c I). rewrite KD, KT in X. cbn in X. intuition discriminate. Qed.
Lemma remove_text_fails : forall h this x e h', texts_ok h -> good h -> In x (kids h this) -> n_kind (h x) = KText ->
  vremove h this (Some x) = Ex e h' -> n_ro (h this) = true /\ h' = h.
Proof.
  intros h this x e h' TO G I KX V. split; [|apply (vremove_ex _ _ _ _ _ V)].
  assert (ND : has_kind h this KDocument = false).
  { destruct (has_kind h this KDocument) eqn:E; [|reflexivity]. apply has_kind_eq in E. exfalso. apply (TO _ _ E I KX). }
  assert (CL : childless (n_kind (h this)) = false) by (apply (t_kids h (proj2 G) x), kid_parent; auto).
  unfold vremove in V. rewrite CL, ND in V. unfold do_remove in V. destruct (n_ro (h this)); [reflexivity|].
  destruct (erase_in x (n_kids (h this)) I) as (l & E). rewrite E in V. discriminate.
Qed.
Lemma neutral_texts : forall h h', neutral h h' -> texts_ok h -> texts_ok h'.
Proof. intros h h' N T d c. rewrite !(ne_kind _ _ N). intros K I. apply (T d c K), (ne_less _ _ N), I. Qed.
Lemma neutral_frozen : forall h h', neutral h h' -> frozen_down h -> frozen_down h'.
Proof. intros h h' N F p c I. rewrite !(ne_ro _ _ N). apply F, (ne_less _ _ N), I. Qed.

Definition head_not_text (h : heap) (l : list nat) : Prop := match l with c :: _ => n_kind (h c) <> KText | [] => True end.
Lemma merge_spec : forall f h this t next a b, good h -> kids h this = a ++ t :: b -> n_kind (h t) = KText -> next = first b None ->
  match merge_texts f h this t next with
  | Ok h' r => neutral h h' /\ exists b', at_list h h' this (a ++ t :: b') /\ r = first b' None /\ head_not_text h b' /\ incl b' b /\
               (forall i, i <> t -> n_data (h' i) = n_data (h i))
  | Ex e h' => texts_ok h -> frozen_down h -> neutral h h' /\ n_ro (h t) = true
  | Div => True
  end.
Proof.
  induction f as [|f IH]; intros h this t next a b G KT TT EN; [exact I|]. cbn [merge_texts]. subst next.
  destruct b as [|x b]; cbn [first].
  { split; [apply neutral_refl, G|]. exists []. repeat split; auto. intros x I; exact I. }
  destruct (has_kind h x KText) eqn:KX.
  2:{ split; [apply neutral_refl, G|]. exists (x :: b). repeat split; auto; [|apply incl_refl].
      cbn. intro X. apply has_kind_eq in X. congruence. }
  apply has_kind_eq in KX. unfold append_data, read_only.
  destruct (n_ro (h t)) eqn:RO; cbn [rbind]. { intros _ _. split; [apply neutral_refl, G|reflexivity]. }
  destruct (vremove _ this (Some x)) as [h2 r2|e2 h2|] eqn:V; cbn [rbind]; [| |exact I].
  - destruct (merge_step _ _ _ _ _ _ _ _ G KT TT KX V) as (N & AL & D1 & D2).
    assert (NX : n_next (h2 t) = first b None) by (apply nth_first with this a; [apply (ne_good _ _ N)|apply (al_kids _ _ _ _ AL)]).
    assert (IH' := IH h2 this t (n_next (h2 t)) a b (ne_good _ _ N) (al_kids _ _ _ _ AL)).
    rewrite (ne_kind _ _ N) in IH'. specialize (IH' TT NX).
    destruct (merge_texts f h2 this t (n_next (h2 t))) as [h3 r3|e3 h3|]; [| |exact I].
    + destruct IH' as (N3 & b' & AL3 & ER & HN & IN & D3). split; [apply neutral_trans with h2; auto|].
      exists b'. split; [|split; [exact ER|split; [|split]]].
      * constructor; [apply (al_kids _ _ _ _ AL3)| |].
        -- intros i NI. rewrite (al_other _ _ _ _ AL3 i NI). apply (al_other _ _ _ _ AL i NI).
        -- intros c NC. rewrite (al_data _ _ _ _ AL3); [apply (al_data _ _ _ _ AL), NC|].
           intro I3. apply NC. apply (ne_less _ _ N), I3.
      * destruct b' as [|y b']; [exact I|]. cbn in *. rewrite <- (ne_kind _ _ N). exact HN.
      * intros y I3. right. apply IN, I3.
      * intros i NI. rewrite D3, D2; auto.
    + intros TO FD. destruct IH' as (N3 & RO3); [apply neutral_texts with h; auto|apply neutral_frozen with h; auto|].
      split; [apply neutral_trans with h2; auto|]. rewrite (ne_ro _ _ N) in RO3. congruence.
  - intros TO FD. exfalso.
    assert (IX : In x (kids h this)) by (rewrite KT; apply in_or_app; right; right; left; reflexivity).
    assert (IT : In t (kids h this)) by (rewrite KT; apply in_or_app; right; left; reflexivity).
    apply remove_text_fails in V.
    + destruct V as [V _]. rewrite set_data_ro in V. assert (X := FD _ _ IT V). congruence.
    + intros d c. rewrite !set_data_kind. unfold kids. rewrite set_data_kids. apply TO.
    + apply set_data_good, G.
    + unfold kids. rewrite set_data_kids. exact IX.
    + rewrite set_data_kind. exact KX.
Qed.

(** * Above and below *)
Lemma above_snoc : forall h p c d, above h p c -> In d (kids h c) -> above h p d.
Proof.
  intros h p c d A I. induction A as [p c J|p c e J A IH]; [eapply above_trans; [exact J|apply above_child, I]|].
  eapply above_trans; [exact J|apply IH, I].
Qed.
Lemma below_snoc : forall h p c d, at_or_below h p c -> In d (kids h c) -> above h p d.
Proof. intros h p c d [->|A] I; [apply above_child, I|apply (above_snoc _ _ _ _ A I)]. Qed.
Lemma below_parent : forall h c i, above h c i -> exists j, at_or_below h c j /\ In i (kids h j).
Proof.
  intros h c i A. induction A as [p c I|p c d I A (j & [->|B] & J)].
  - exists p. split; [left; reflexivity|exact I].
  - exists c. split; [right; apply above_child, I|exact J].
  - exists j. split; [right; apply above_trans with c; auto|exact J].
Qed.
Lemma below_trans : forall h a b c, at_or_below h a b -> above h b c -> above h a c.
Proof.
  intros h a b c [->|A] B; [exact B|]. induction A as [p q I|p q d I A IH]; [apply above_trans with q; auto|].
  apply above_trans with q; auto.
Qed.
Lemma child_subtrees : forall h this c d i, good h -> In c (kids h this) -> In d (kids h this) ->
  at_or_below h c i -> at_or_below h d i -> c = d.
Proof.
  intros h this c d i G IC ID. assert (AC : acyclic h) by apply (good_tree h G).
  assert (R := l_rooted h (proj1 G) i). induction R as [n P|n p P R IH]; intros B1 B2.
  - assert (TOP : forall x, at_or_below h x n -> x = n).
    { intros x [->|A]; [reflexivity|]. apply below_parent in A. destruct A as (j & _ & J).
      apply (kid_parent _ _ _ G) in J. congruence. }
    rewrite (TOP _ B1), (TOP _ B2). reflexivity.
  - assert (UP : forall x, above h x n -> at_or_below h x p).
    { intros x A. apply below_parent in A. destruct A as (j & B & J). apply (kid_parent _ _ _ G) in J.
      assert (j = p) by congruence. subst. exact B. }
    assert (CYC : forall x, In x (kids h this) -> at_or_below h x this -> False).
    { intros x I B. apply (AC x). apply (below_snoc _ _ _ _ B I). }
    destruct B1 as [->|B1], B2 as [->|B2]; auto.
    + exfalso. apply (kid_parent _ _ _ G) in IC. assert (p = this) by congruence. subst. apply (CYC d); auto.
    + exfalso. apply (kid_parent _ _ _ G) in ID. assert (p = this) by congruence. subst. apply (CYC c); auto.
Qed.
Lemma above_less : forall h h', (forall i c, In c (kids h' i) -> In c (kids h i)) -> forall x y, above h' x y -> above h x y.
Proof. intros h h' L x y A. induction A; [apply above_child; auto|eapply above_trans; eauto]. Qed.
Lemma below_less : forall h h', (forall i c, In c (kids h' i) -> In c (kids h i)) -> forall x y, at_or_below h' x y -> at_or_below h x y.
Proof. intros h h' L x y [->|A]; [left; reflexivity|right; apply above_less with h'; auto]. Qed.

(** A step that changes nothing outside the tree below [c]. *)
Record frame (c : nat) (h h' : heap) : Prop := {
  f_neutral : neutral h h';
  f_kids : forall i, ~ at_or_below h c i -> kids h' i = kids h i;
  f_data : forall i, ~ above h c i -> n_data (h' i) = n_data (h i) }.
Lemma frame_refl : forall c h, good h -> frame c h h.
Proof. intros c h G. constructor; auto. apply neutral_refl, G. Qed.
Lemma frame_trans : forall c h h1 h2, frame c h h1 -> frame c h1 h2 -> frame c h h2.
Proof.
  intros c h h1 h2 [A1 A2 A3] [B1 B2 B3]. constructor.
  - apply neutral_trans with h1; auto.
  - intros i N. rewrite B2, A2; auto. intro B. apply N. apply (below_less _ _ (ne_less _ _ A1)), B.
  - intros i N. rewrite B3, A3; auto. intro B. apply N. apply (above_less _ _ (ne_less _ _ A1)), B.
Qed.
Lemma frame_up : forall this c h h', In c (kids h this) -> frame c h h' -> frame this h h'.
Proof.
  intros this c h h' I [A1 A2 A3]. constructor; auto.
  - intros i N. apply A2. intros [->|B]; apply N; right; [apply above_child, I|apply above_trans with c; auto].
  - intros i N. apply A3. intros B. apply N. apply above_trans with c; auto.
Qed.
Lemma list_frame : forall h h' this l, neutral h h' -> at_list h h' this l -> frame this h h'.
Proof.
  intros h h' this l N [A B C]. constructor; auto.
  - intros i X. apply B. intros ->. apply X. left; reflexivity.
  - intros i X. apply C. intro Y. apply X, above_child, Y.
Qed.
Lemma normal_list_ext : forall h h' l, (forall c, In c l -> n_kind (h' c) = n_kind (h c) /\ n_data (h' c) = n_data (h c)) ->
  normal_list h l -> normal_list h' l.
Proof.
  intros h h' l E [A B]. split.
  - intros c I. destruct (E c I) as [-> ->]. apply A, I.
  - intros a x y b ->. destruct (E x) as [-> _]; [apply in_or_app; right; left; reflexivity|].
    destruct (E y) as [-> _]; [apply in_or_app; right; right; left; reflexivity|]. apply (B a x y b). reflexivity.
Qed.
Lemma normal_frame : forall h h' c d, good h -> frame c h h' -> (forall i, at_or_below h d i -> ~ at_or_below h c i) ->
  normal_below h d -> normal_below h' d.
Proof.
  intros h h' c d G [A1 A2 A3] DJ N n B.
  assert (BH : at_or_below h d n) by (apply (below_less _ _ (ne_less _ _ A1)), B).
  rewrite (A2 n (DJ n BH)). apply normal_list_ext with h; [|apply N, BH].
  intros k I. split; [apply (ne_kind _ _ A1)|]. apply A3. intro X. apply below_parent in X. destruct X as (j & J1 & J2).
  rewrite (kid_unique _ _ _ _ G J2 I) in J1. apply (DJ n BH J1).
Qed.
Lemma text_normal : forall h c, good h -> n_kind (h c) = KText -> normal_below h c.
Proof.
  intros h c G K n B.
  assert (KC : kids h c = []).
  { destruct (kids h c) as [|x l] eqn:E; [reflexivity|]. exfalso. apply (owner_not_textual h c x G); [rewrite E; left; reflexivity|].
    left; exact K. }
  assert (n = c) as ->.
  { destruct B as [->|B]; [reflexivity|]. exfalso. inversion B as [? ? I|? ? ? I]; subst; rewrite KC in I; contradiction. }
  rewrite KC. split; [intros x []|]. intros a x y b E. destruct a; discriminate.
Qed.
Lemma normal_whole : forall h this, good h -> normal_list h (kids h this) ->
  (forall c, In c (kids h this) -> n_kind (h c) <> KText -> normal_below h c) -> normal_below h this.
Proof.
  intros h this G N C n [->|B]; [exact N|].
  inversion B as [? c I|? c ? I A]; subst.
  - destruct (has_kind h n KText) eqn:K.
    + apply has_kind_eq in K. apply (text_normal h n G K). left; reflexivity.
    + apply (C n I); [|left; reflexivity]. intro X. apply has_kind_eq in X. congruence.
  - destruct (has_kind h c KText) eqn:K.
    + apply has_kind_eq in K. apply (text_normal h c G K). right; exact A.
    + apply (C c I); [|right; exact A]. intro X. apply has_kind_eq in X. congruence.
Qed.

(** * normalize *)
Record ready (h : heap) (a b : list nat) : Prop := {
  re_list : normal_list h a;
  re_done : forall c, In c a -> n_kind (h c) <> KText -> normal_below h c;
  re_seam : forall a' x, a = a' ++ [x] -> n_kind (h x) = KText -> head_not_text h b }.
Definition norm_post (h : heap) (this : nat) (r : res unit) : Prop :=
  match r with
  | Ok h' _ => frame this h h' /\ normal_below h' this
  | Ex _ h' => texts_ok h -> frozen_down h -> neutral h h' /\ exists n, at_or_below h this n /\ n_ro (h n) = true
  | Div => True
  end.
Lemma norm_post_trans : forall h h1 this r, frame this h h1 -> norm_post h1 this r -> norm_post h this r.
Proof.
  intros h h1 this [h2 u|e h2|] F; cbn; auto.
  - intros [A B]. split; [apply frame_trans with h1|]; auto.
  - intros N TO FD. destruct N as (A & n & B & C).
    + apply neutral_texts with h; auto. apply F.
    + apply neutral_frozen with h; auto. apply F.
    + split; [apply neutral_trans with h1; [apply F|exact A]|]. exists n. split.
      * apply (below_less _ _ (ne_less _ _ (f_neutral _ _ _ F))), B.
      * rewrite <- (ne_ro _ _ (f_neutral _ _ _ F)). exact C.
Qed.
Lemma normal_list_snoc : forall h a x, normal_list h a -> (n_kind (h x) = KText -> n_data (h x) <> []) ->
  (forall a' y, a = a' ++ [y] -> n_kind (h y) = KText -> n_kind (h x) <> KText) -> normal_list h (a ++ [x]).
Proof.
  intros h a x [A B] X S. split.
  - intros c I. apply in_app_or in I. destruct I as [I|[<-|[]]]; auto.
  - intros l u v m E. destruct (exists_last (l := v :: m)) as (m' & w & EM); [discriminate|].
    rewrite EM in E. assert (E2 : (l ++ u :: m') ++ [w] = a ++ [x]) by (rewrite E, <- app_assoc; reflexivity).
    apply app_inj_tail in E2. destruct E2 as [E2 ->].
    destruct m' as [|v' m'].
    + cbn in EM. injection EM as -> ->. intros [U V]. apply (S l u); auto.
    + cbn in EM. injection EM as <- _. apply (B l u v m'). auto.
Qed.
Lemma unsnoc_inj : forall (a a' : list nat) x y, a ++ [x] = a' ++ [y] -> a = a' /\ x = y.
Proof. intros. apply app_inj_tail; assumption. Qed.

Lemma normalize_spec : forall f,
  (forall h this, good h -> norm_post h this (normalize f h this)) /\
  (forall h this child a b, good h -> kids h this = a ++ b -> child = first b None -> ready h a b ->
     norm_post h this (norm_loop f h this child)).
Proof.
  induction f as [|f [IH1 IH2]]; [split; intros; exact I|]. split.
  - intros h this G. cbn [normalize]. apply (IH2 h this _ [] (kids h this)); auto.
    constructor; [split; [intros c []|intros [|] ? ? ? E; discriminate]|intros c []|intros [|] ? E; discriminate].
  - intros h this child a b G KT -> RD. cbn [norm_loop].
    destruct b as [|c b]; cbn [first].
    { cbn. rewrite app_nil_r in KT. split; [apply frame_refl, G|]. apply normal_whole; auto; rewrite KT; apply RD. }
    assert (IC : In c (kids h this)) by (rewrite KT; apply in_or_app; right; left; reflexivity).
    assert (NX : n_next (h c) = first b None) by (apply nth_first with this a; auto).
    assert (ND : NoDup (a ++ c :: b)) by (rewrite <- KT; apply (l_nodup h (proj1 G))).
    assert (NCA : ~ In c a) by (intro I; apply (NoDup_remove_2 _ _ _ ND), in_or_app; auto).
    destruct (has_kind h c KText) eqn:KC.
    + apply has_kind_eq in KC.
      assert (SEAM : forall a' x, a = a' ++ [x] -> n_kind (h x) <> KText).
      { intros a' x E KX. apply (re_seam _ _ _ RD a' x E KX). exact KC. }
      assert (MS := merge_spec f h this c (n_next (h c)) a b G KT KC NX).
      destruct (merge_texts f h this c (n_next (h c))) as [h1 nx|e1 h1|]; cbn [rbind]; [| |exact I].
      2:{ cbn. intros TO FD. destruct (MS TO FD) as [A B]. split; [exact A|]. exists c. split; [right; apply above_child, IC|exact B]. }
      destruct MS as (N1 & b' & AL & -> & HN & IN & D1).
      assert (F1 : frame this h h1) by (apply (list_frame _ _ _ _ N1 AL)).
      assert (G1 := ne_good _ _ N1).
      assert (HN1 : head_not_text h1 b') by (destruct b' as [|y b']; [exact I|]; cbn in *; rewrite (ne_kind _ _ N1); exact HN).
      assert (KEEP : forall h2, good h2 -> (forall i, n_kind (h2 i) = n_kind (h i)) -> (forall i, i <> this -> kids h2 i = kids h i) ->
        (forall i, i <> c -> n_data (h2 i) = n_data (h i)) -> (forall i x, In x (kids h2 i) -> In x (kids h i)) ->
        normal_list h2 a /\ (forall x, In x a -> n_kind (h2 x) <> KText -> normal_below h2 x)).
      { intros h2 G2 K2 O2 D2 L2. split.
        - apply normal_list_ext with h; [|apply RD]. intros x I. split; auto. apply D2. intros ->. contradiction.
        - intros x I KX n B. assert (BH : at_or_below h x n) by (apply (below_less _ _ L2), B).
          assert (IX : In x (kids h this)) by (rewrite KT; apply in_or_app; left; exact I).
          assert (NT : n <> this).
          { intros ->. apply (proj2 (proj2 (good_tree h G)) x). apply (below_snoc _ _ _ _ BH IX). }
          rewrite (O2 n NT). rewrite K2 in KX. apply normal_list_ext with h; [|apply (re_done _ _ _ RD x I KX n BH)].
          intros k IK. split; auto. apply D2. intros ->. apply NT. apply (kid_unique _ _ _ _ G IK IC). }
      destruct (n_data (h1 c)) as [|z zs] eqn:DC; cbn [rbind].
      * destruct (vremove h1 this (Some c)) as [h2 r2|e2 h2|] eqn:V; cbn [rbind]; [| |exact I].
        -- assert (KC1 : n_kind (h1 c) = KText) by (rewrite (ne_kind _ _ N1); exact KC).
           destruct (drop_step _ _ _ _ _ _ _ G1 (al_kids _ _ _ _ AL) KC1 DC V) as (N2 & AL2 & D2).
           apply norm_post_trans with h2; [apply frame_trans with h1; [exact F1|apply (list_frame _ _ _ _ N2 AL2)]|].
           destruct (KEEP h2) as [R1 R2].
           { apply (ne_good _ _ N2). } { intro i. rewrite (ne_kind _ _ N2). apply (ne_kind _ _ N1). }
           { intros i NI. rewrite (al_other _ _ _ _ AL2 i NI). apply (al_other _ _ _ _ AL i NI). }
           { intros i NI. rewrite D2. apply D1, NI. }
           { intros i x I2. apply (ne_less _ _ N1), (ne_less _ _ N2), I2. }
           apply (IH2 h2 this (first b' None) a b'); auto; [apply (ne_good _ _ N2)|apply (al_kids _ _ _ _ AL2)|].
           constructor; auto. intros a' x E KX. exfalso. apply (SEAM a' x E).
           rewrite <- (ne_kind _ _ N1), <- (ne_kind _ _ N2). exact KX.
        -- cbn. intros TO FD. apply remove_text_fails in V; auto.
           ++ destruct V as [V ->]. split; [exact N1|]. exists this. split; [left; reflexivity|].
              rewrite <- (ne_ro _ _ N1). exact V.
           ++ apply neutral_texts with h; auto.
           ++ rewrite (al_kids _ _ _ _ AL). apply in_or_app; right; left; reflexivity.
           ++ rewrite (ne_kind _ _ N1). exact KC.
      * apply norm_post_trans with h1; [exact F1|].
        destruct (KEEP h1) as [R1 R2]; auto; [apply (ne_kind _ _ N1)|apply (al_other _ _ _ _ AL)|apply (ne_less _ _ N1)|].
        apply (IH2 h1 this (first b' None) (a ++ [c]) b'); auto.
        -- rewrite (al_kids _ _ _ _ AL), <- app_assoc. reflexivity.
        -- constructor.
           ++ apply normal_list_snoc; auto; [intros _; rewrite DC; discriminate|].
              intros a' y E KY. exfalso. apply (SEAM a' y E). rewrite <- (ne_kind _ _ N1). exact KY.
           ++ intros x I. apply in_app_or in I. destruct I as [I|[<-|[]]]; auto. rewrite (ne_kind _ _ N1). contradiction.
           ++ intros a' x E _. exact HN1.
    + assert (KC' : n_kind (h c) <> KText) by (intro X; apply has_kind_eq in X; congruence).
      assert (NP := IH1 h c G).
      destruct (normalize f h c) as [h1 u1|e1 h1|]; cbn [rbind norm_post] in NP |- *; [| |exact I].
      2:{ intros TO FD. destruct (NP TO FD) as (A & n & B & C). split; [exact A|]. exists n. split; [|exact C].
          destruct B as [->|B]; right; [apply above_child, IC|apply above_trans with c; auto]. }
      destruct NP as [F1 NB]. assert (N1 := f_neutral _ _ _ F1).
      apply norm_post_trans with h1; [apply frame_up with c; auto|].
      assert (NTH : ~ at_or_below h c this).
      { intro B. apply (proj2 (proj2 (good_tree h G)) c). apply (below_snoc _ _ _ _ B IC). }
      assert (DK : forall x, In x (kids h this) -> n_data (h1 x) = n_data (h x)).
      { intros x I. apply (f_data _ _ _ F1). intro A. apply below_parent in A. destruct A as (j & J1 & J2).
        rewrite (kid_unique _ _ _ _ G J2 I) in J1. contradiction. }
      rewrite NX. apply (IH2 h1 this (first b None) (a ++ [c]) b); auto; [apply (ne_good _ _ N1)| |].
      * rewrite (f_kids _ _ _ F1 this NTH), KT, <- app_assoc. reflexivity.
      * constructor.
        -- apply normal_list_snoc.
           ++ apply normal_list_ext with h; [|apply RD]. intros x I. split; [apply (ne_kind _ _ N1)|].
              apply DK. rewrite KT. apply in_or_app; left; exact I.
           ++ rewrite (ne_kind _ _ N1). intro X. contradiction.
           ++ intros a' y E KY. rewrite (ne_kind _ _ N1). exact KC'.
        -- intros x I. apply in_app_or in I. destruct I as [I|[<-|[]]]; [|intros _; exact NB].
           rewrite (ne_kind _ _ N1). intro KX.
           assert (IX : In x (kids h this)) by (rewrite KT; apply in_or_app; left; exact I).
           apply normal_frame with h c; auto; [|apply (re_done _ _ _ RD x I KX)].
           intros i B1 B2. apply NCA. rewrite (child_subtrees h this c x i G IC IX B2 B1). exact I.
        -- intros a' x E KX. apply unsnoc_inj in E. destruct E as [_ <-]. rewrite (ne_kind _ _ N1) in KX. contradiction.
Qed.

(** ** A normal tree stays as it is *)
Lemma normal_child : forall h this c, In c (kids h this) -> normal_below h this -> normal_below h c.
Proof.
  intros h this c I N n B. apply N. destruct B as [->|B]; right; [apply above_child, I|apply above_trans with c; auto].
Qed.
Lemma normalize_normal : forall f,
  (forall h this, good h -> normal_below h this -> normalize f h this = Ok h tt \/ normalize f h this = Div) /\
  (forall h this child a b, good h -> normal_below h this -> kids h this = a ++ b -> child = first b None ->
     norm_loop f h this child = Ok h tt \/ norm_loop f h this child = Div).
Proof.
  induction f as [|f [IH1 IH2]]; [split; intros; right; reflexivity|]. split.
  - intros h this G N. cbn [normalize]. apply (IH2 h this _ [] (kids h this)); auto.
  - intros h this child a b G N KT ->. cbn [norm_loop]. destruct b as [|c b]; cbn [first]; [left; reflexivity|].
    assert (IC : In c (kids h this)) by (rewrite KT; apply in_or_app; right; left; reflexivity).
    assert (NX : n_next (h c) = first b None) by (apply nth_first with this a; auto).
    assert (NL := N this (or_introl eq_refl)). destruct NL as [NL1 NL2].
    assert (KT' : kids h this = (a ++ [c]) ++ b) by (rewrite KT, <- app_assoc; reflexivity).
    destruct (has_kind h c KText) eqn:KC.
    + apply has_kind_eq in KC.
      assert (M : merge_texts f h this c (n_next (h c)) = Ok h (first b None) \/ merge_texts f h this c (n_next (h c)) = Div).
      { rewrite NX. destruct f as [|f']; [right; reflexivity|]. cbn [merge_texts].
        destruct b as [|x b]; cbn [first]; [left; reflexivity|].
        destruct (has_kind h x KText) eqn:KX; [|left; reflexivity]. exfalso. apply has_kind_eq in KX.
        apply (NL2 a c x b KT). auto. }
      destruct M as [-> | ->]; cbn [rbind]; [|right; reflexivity].
      destruct (n_data (h c)) as [|z zs] eqn:DC; [exfalso; apply (NL1 c IC KC DC)|]. cbn [rbind].
      apply (IH2 h this _ (a ++ [c]) b); auto.
    + destruct (IH1 h c G (normal_child _ _ _ IC N)) as [-> | ->]; cbn [rbind]; [|right; reflexivity].
      rewrite NX. apply (IH2 h this _ (a ++ [c]) b); auto.
Qed.

(** ** normalize returns *)
Lemma merge_settles : forall n h this t a b, good h -> kids h this = a ++ t :: b -> n_kind (h t) = KText -> length b = n ->
  settles (fun f => merge_texts f h this t (first b None)).
Proof.
  induction n as [|n IH]; intros h this t a b G KT TT LN.
  - destruct b; [|discriminate]. apply settles_S with (fun _ => Ok h None); [reflexivity|]. apply settles_now. discriminate.
  - destruct b as [|x b]; [discriminate|]. cbn [first].
    apply settles_S with (fun f => if has_kind h x KText then
            rbind (append_data h t (n_data (h x))) (fun h _ =>
            rbind (vremove h this (Some x)) (fun h _ => merge_texts f h this t (n_next (h t))))
          else Ok h (Some x)); [reflexivity|].
    destruct (has_kind h x KText) eqn:KX; [|apply settles_now; discriminate]. apply has_kind_eq in KX.
    unfold append_data, read_only. destruct (n_ro (h t)); cbn [rbind]; [apply settles_now; discriminate|].
    destruct (vremove _ this (Some x)) as [h2 r2|e2 h2|] eqn:V; cbn [rbind]; [|apply settles_now; discriminate|exfalso; apply (vremove_div _ _ _ V)].
    destruct (merge_step _ _ _ _ _ _ _ _ G KT TT KX V) as (N & AL & _).
    rewrite (nth_first h2 this a t b (ne_good _ _ N) (al_kids _ _ _ _ AL)).
    apply IH with a; auto; [apply (ne_good _ _ N)|apply (al_kids _ _ _ _ AL)|rewrite (ne_kind _ _ N); exact TT].
Qed.
Lemma NoDup_app_r : forall (a l : list nat), NoDup (a ++ l) -> NoDup l.
Proof. induction a as [|x a IH]; cbn; intros l N; [exact N|]. inversion N; auto. Qed.
Lemma normalize_settles : forall h0 this, finite_below h0 this -> forall h, good h ->
  (forall i c, In c (kids h i) -> In c (kids h0 i)) -> settles (fun f => normalize f h this).
Proof.
  intros h0 this FB. induction FB as [this FB IH]. intros h G LS.
  apply settles_S with (fun f => norm_loop f h this (first_child h this)); [reflexivity|].
  assert (LOOP : forall n h a b, good h -> (forall i c, In c (kids h i) -> In c (kids h0 i)) -> kids h this = a ++ b -> (length b <= n)%nat ->
     settles (fun f => norm_loop f h this (first b None))).
  { clear h G LS. induction n as [|n IHn]; intros h a b G LS KT LN.
    - destruct b; [|cbn in LN; lia]. apply settles_S with (fun _ => Ok h tt); [reflexivity|]. apply settles_now. discriminate.
    - destruct b as [|c b]; [apply settles_S with (fun _ => Ok h tt); [reflexivity|]; apply settles_now; discriminate|].
      cbn [first].
      assert (IC : In c (kids h this)) by (rewrite KT; apply in_or_app; right; left; reflexivity).
      assert (NX : n_next (h c) = first b None) by (apply nth_first with this a; auto).
      apply settles_S with (fun f => if has_kind h c KText then
            rbind (merge_texts f h this c (n_next (h c))) (fun h next =>
            rbind (match n_data (h c) with
                   | [] => rbind (vremove h this (Some c)) (fun h _ => Ok h tt)
                   | _ => Ok h tt
                   end) (fun h _ => norm_loop f h this next))
          else rbind (normalize f h c) (fun h' _ => norm_loop f h' this (n_next (h c)))); [reflexivity|].
      destruct (has_kind h c KText) eqn:KC.
      + apply has_kind_eq in KC.
        apply settles_bind; [rewrite NX; apply merge_settles with (length b) a; auto|].
        intros f h1 nx E. assert (MS := merge_spec f h this c (n_next (h c)) a b G KT KC NX). rewrite E in MS.
        destruct MS as (N1 & b' & AL & -> & HN & IN & D1).
        assert (LB : (length b' <= n)%nat).
        { assert (ND : NoDup (a ++ c :: b')) by (rewrite <- (al_kids _ _ _ _ AL); apply (l_nodup h1 (proj1 (ne_good _ _ N1)))).
          apply NoDup_app_r in ND. inversion ND as [|? ? _ ND']; subst.
          assert (X := NoDup_incl_length ND' IN). cbn in LN. lia. }
        destruct (n_data (h1 c)) as [|z zs] eqn:DC; cbn [rbind].
        * destruct (vremove h1 this (Some c)) as [h2 r2|e2 h2|] eqn:V; cbn [rbind]; [|apply settles_now; discriminate|exfalso; apply (vremove_div _ _ _ V)].
          assert (KC1 : n_kind (h1 c) = KText) by (rewrite (ne_kind _ _ N1); exact KC).
          destruct (drop_step _ _ _ _ _ _ _ (ne_good _ _ N1) (al_kids _ _ _ _ AL) KC1 DC V) as (N2 & AL2 & D2).
          apply IHn with a; auto; [apply (ne_good _ _ N2)| |apply (al_kids _ _ _ _ AL2)].
          intros i x I. apply LS, (ne_less _ _ N1), (ne_less _ _ N2), I.
        * apply IHn with (a ++ [c]); auto; [apply (ne_good _ _ N1)| |].
          -- intros i x I. apply LS, (ne_less _ _ N1), I.
          -- rewrite (al_kids _ _ _ _ AL), <- app_assoc. reflexivity.
      + apply settles_bind; [apply IH; auto|].
        intros f h1 u E. assert (NP := proj1 (normalize_spec f) h c G). rewrite E in NP. destruct NP as [F1 _].
        assert (N1 := f_neutral _ _ _ F1). rewrite NX. apply IHn with (a ++ [c]); auto; [apply (ne_good _ _ N1)| | |cbn in LN; lia].
        * intros i x I. apply LS, (ne_less _ _ N1), I.
        * assert (NTH : ~ at_or_below h c this).
          { intro B. apply (proj2 (proj2 (good_tree h G)) c). apply (below_snoc _ _ _ _ B IC). }
          rewrite (f_kids _ _ _ F1 this NTH), KT, <- app_assoc. reflexivity. }
  unfold first_child. replace (hd_error (n_kids (h this))) with (first (kids h this) None) by (unfold kids; destruct (n_kids (h this)); reflexivity).
  apply (LOOP (length (kids h this)) h [] (kids h this)); auto.
Qed.

(** * splitText *)
Lemma content_fresh : forall h h' new, (forall i, i <> new -> h' i = h i) -> (forall i, ~ In new (kids h i)) ->
  forall q s, q <> new -> content h q s -> content h' q s.
Proof.
  intros h h' new E N q s NE C. revert NE.
  induction C as [i T|i s N1 N2 C IH| |c l s t A IH1 B IH2] using content_ind2 with
    (P0 := fun l s _ => ~ In new l -> contents h' l s).
  - intro NE. rewrite <- (E i NE). apply content_text. rewrite (E i NE). exact T.
  - intro NE. apply content_node; try (rewrite (E i NE); assumption). unfold kids in *. rewrite (E i NE). apply IH, N.
  - constructor.
  - intros NI. constructor; [apply IH1; intros ->; apply NI; left; reflexivity|apply IH2; intro I; apply NI; right; exact I].
Qed.
Lemma new_good : forall h new this p sec, good h -> unused h new -> n_parent (h this) = Some p -> textual h this ->
  good (upd h new (fun _ => split_node h this sec true)).
Proof.
  intros h new this p sec [L T] [U1 U2 U3] P TX. set (h1 := upd h new _).
  assert (NE : forall i, i <> new -> h1 i = h i).
  { intros i N. unfold h1, upd. destruct (Nat.eqb_spec i new); [contradiction|reflexivity]. }
  assert (AT : h1 new = split_node h this sec true) by (unfold h1, upd; rewrite Nat.eqb_refl; reflexivity).
  assert (PK : forall i, n_kids (h1 i) = n_kids (h i) /\ n_parent (h1 i) = n_parent (h i) /\ n_prev (h1 i) = n_prev (h i) /\ n_next (h1 i) = n_next (h i)).
  { intro i. destruct (Nat.eq_dec i new) as [->|N]; [|rewrite (NE i N); auto]. rewrite AT. cbn. rewrite U1, U2.
    destruct (l_lone h L new U1) as [-> ->]. auto. }
  split; [apply links_same with h; auto|].
  assert (KT : forall c q, n_parent (h1 c) = Some q -> c <> new).
  { intros c q X ->. destruct (PK new) as (_ & PN & _). rewrite PN, U1 in X. discriminate. }
  assert (KQ : forall c q, n_parent (h1 c) = Some q -> q <> new).
  { intros c q X ->. destruct (PK c) as (_ & PC & _). rewrite PC in X. apply (l_parent h L) in X. rewrite U2 in X. exact X. }
  assert (NO : n_owner (h this) <> None) by (apply (t_inside h T _ _ P)).
  constructor.
  - intros c q X. assert (N := KT _ _ X). rewrite (NE c N) in X |- *. apply (t_child h T _ _ X).
  - intros d K. destruct (Nat.eq_dec d new) as [->|N]; [|rewrite (NE d N) in K |- *; apply (t_doc h T d K)].
    rewrite AT in K. cbn in K. destruct TX; congruence.
  - intros i O. destruct (Nat.eq_dec i new) as [->|N]; [|rewrite (NE i N) in O |- *; apply (t_owned h T i O)].
    rewrite AT in O. contradiction.
  - intros c q X. assert (N := KT _ _ X). rewrite (NE q (KQ _ _ X)). rewrite (NE c N) in X. apply (t_kids h T _ _ X).
  - intros c q X. assert (N := KT _ _ X). rewrite (NE c N) in X |- *. apply (t_inside h T _ _ X).
  - intros c q X. assert (N := KT _ _ X). rewrite (NE c N) in X |- *. apply (t_in_list h T _ _ X).
  - intros c X. destruct (Nat.eq_dec c new) as [->|N]; [intros _ _; rewrite AT; reflexivity|].
    rewrite (NE c N) in X |- *. apply (t_orphan h T c X).
Qed.
Lemma child_can : forall h c p, good h -> n_parent (h c) = Some p -> get_parent h c = Some p.
Proof. intros h c p G P. rewrite hidden_parent by apply G. exact P. Qed.

Lemma split_spec : forall f h this new off p a b h' r, good h -> unused h new -> textual h this ->
  n_parent (h this) = Some p -> kids h p = a ++ this :: b -> int_sized (n_data (h this)) ->
  split_text f h this new off = Some (Ok h' r) ->
  good h' /\ r = new /\ inside (n_data (h this)) off /\
  kids h' p = a ++ this :: new :: b /\ (forall i, i <> p -> kids h' i = kids h i) /\
  n_data (h this) = n_data (h' this) ++ n_data (h' new) /\ Z.of_nat (length (n_data (h' this))) = off /\
  n_kind (h' new) = n_kind (h this) /\ (forall i, i <> new -> n_kind (h' i) = n_kind (h i)) /\
  (forall i, i <> new -> i <> this -> n_data (h' i) = n_data (h i)) /\
  (forall q s, q <> new -> ~ textual h q -> content h q s -> content h' q s).
Proof.
  intros f h this new off p a b h' r G U TX P KP SZ E. unfold split_text in E.
  set (d := n_data (h this)) in *. set (len := as_int (Z.of_nat (length d))) in *.
  assert (LEN : len = Z.of_nat (length d)) by (apply as_int_small; unfold int_sized in SZ; lia).
  destruct (n_ro (h this)) eqn:RO; [discriminate|].
  unfold substring_data in E. fold d in E. assert (BO := bad_offset_spec d off SZ).
  destruct (bad_offset d off) eqn:BE; [discriminate|]. assert (INS := proj1 BO eq_refl). unfold inside in INS.
  destruct (Z.ltb_spec (len - off) 0) as [|GE]; [lia|].
  unfold delete_data, read_only in E. rewrite RO in E. fold d in E. rewrite BE in E.
  destruct (Z.ltb_spec (len - off) 0) as [|_]; [lia|].
  set (sec := std_substr d off (len - off)) in *. set (fst' := std_replace d off (len - off) []) in *.
  assert (FST : fst' = firstn (Z.to_nat off) d).
  { unfold fst', std_replace. rewrite skipn_all2; [rewrite !app_nil_r; reflexivity|]. rewrite skipn_length. lia. }
  assert (SEC : sec = skipn (Z.to_nat off) d).
  { unfold sec, std_substr. apply firstn_all2. rewrite skipn_length. lia. }
  assert (G1 := set_data_good h this fst' G). set (h1 := set_data h this fst') in *.
  assert (P1 : n_parent (h1 this) = Some p) by (unfold h1; rewrite set_data_parent; exact P).
  rewrite (child_can h1 this p G1 P1) in E.
  assert (U1 : unused h1 new) by (destruct U; constructor; unfold h1; rewrite ?set_data_parent, ?set_data_kids, ?set_data_changes; assumption).
  assert (TX1 : textual h1 this) by (unfold textual, h1; rewrite set_data_kind; exact TX).
  assert (G2 := new_good h1 new this p sec G1 U1 P1 TX1). set (h2 := upd h1 new _) in *.
  assert (NE2 : forall i, i <> new -> h2 i = h1 i).
  { intros i N. unfold h2, upd. destruct (Nat.eqb_spec i new); [contradiction|reflexivity]. }
  assert (AT2 : h2 new = split_node h1 this sec true) by (unfold h2, upd; rewrite Nat.eqb_refl; reflexivity).
  assert (TN : this <> new) by (intros ->; rewrite (un_parent _ _ U) in P; discriminate).
  assert (PN : p <> new).
  { intros ->. unfold kids in KP. rewrite (un_kids _ _ U) in KP. destruct a; discriminate. }
  assert (K2 : forall i, kids h2 i = kids h i).
  { intro i. unfold kids. destruct (Nat.eq_dec i new) as [->|N].
    - rewrite AT2, (un_kids _ _ U). reflexivity.
    - rewrite (NE2 i N). unfold h1. apply set_data_kids. }
  assert (NX : n_next (h2 this) = first b None) by (apply nth_first with p a; auto; fold (kids h2 p); rewrite K2; exact KP).
  rewrite NX in E. destruct (vinsert f h2 p new (first b None)) as [h3 r3|e3 h3|] eqn:V; try discriminate.
  injection E as <- <-.
  assert (KN2 : n_kind (h2 new) = n_kind (h this)) by (rewrite AT2; cbn; unfold h1; apply set_data_kind).
  assert (S3 := proj1 (vinsert_step f) h2 p new (first b None) G2). rewrite V in S3.
  assert (ND3 : n_kind (h2 new) = KDocument -> p <> new) by auto. specialize (S3 ND3).
  assert (NF3 : n_kind (h2 new) <> KFragment) by (rewrite KN2; destruct TX as [-> | ->]; discriminate).
  destruct (vinsert_one _ _ _ _ _ _ _ G2 ND3 NF3 V) as (_ & PK & _).
  assert (NIN : forall i, ~ In new (kids h i)).
  { intros i I. apply (kid_parent _ _ _ G) in I. rewrite (un_parent _ _ U) in I. discriminate. }
  assert (W : forall i, without new (kids h2 i) = kids h i) by (intro i; rewrite K2; apply without_notin, NIN).
  assert (ND : NoDup (a ++ this :: b)) by (rewrite <- KP; apply (l_nodup h (proj1 G))).
  assert (KP3 : kids h3 p = a ++ this :: new :: b).
  { unfold kids at 1. rewrite (pk_kids _ _ _ _ _ PK). fold (kids h2 p). rewrite W, KP. destruct b as [|y b]; cbn [first put].
    - rewrite <- app_assoc. reflexivity.
    - replace (a ++ this :: y :: b) with ((a ++ [this]) ++ y :: b) by (rewrite <- app_assoc; reflexivity).
      rewrite put_before_split; [rewrite <- app_assoc; reflexivity|].
      intro I. replace (a ++ this :: y :: b) with ((a ++ [this]) ++ y :: b) in ND by (rewrite <- app_assoc; reflexivity).
      apply (NoDup_remove_2 _ _ _ ND). apply in_or_app; left; exact I. }
  assert (KO3 : forall i, i <> p -> kids h3 i = kids h i).
  { intros i N. unfold kids at 1. rewrite (pk_others _ _ _ _ _ PK i N). fold (kids h2 i). apply W. }
  assert (ST := proj2 S3).
  assert (D3T : n_data (h3 this) = fst').
  { rewrite (static_data _ _ (ST this)), (NE2 this TN). unfold h1. rewrite set_data_data, Nat.eqb_refl. reflexivity. }
  assert (D3N : n_data (h3 new) = sec) by (rewrite (static_data _ _ (ST new)), AT2; reflexivity).
  assert (D3O : forall i, i <> new -> i <> this -> n_data (h3 i) = n_data (h i)).
  { intros i N1 N2. rewrite (static_data _ _ (ST i)), (NE2 i N1). unfold h1. rewrite set_data_data.
    destruct (Nat.eqb_spec i this); [contradiction|reflexivity]. }
  assert (K3N : n_kind (h3 new) = n_kind (h this)) by (rewrite (static_kind _ _ (ST new)); exact KN2).
  assert (K3O : forall i, i <> new -> n_kind (h3 i) = n_kind (h i)).
  { intros i N. rewrite (static_kind _ _ (ST i)), (NE2 i N). unfold h1. apply set_data_kind. }
  assert (DD : d = n_data (h3 this) ++ n_data (h3 new)) by (rewrite D3T, D3N, FST, SEC; symmetry; apply firstn_skipn).
  assert (OFF : Z.of_nat (length (n_data (h3 this))) = off) by (rewrite D3T, FST, firstn_length; lia).
  split; [apply S3|]. split; [reflexivity|]. split; [exact INS|]. split; [exact KP3|]. split; [exact KO3|].
  split; [exact DD|]. split; [exact OFF|]. split; [exact K3N|]. split; [exact K3O|]. split; [exact D3O|].
  intros q s NQ NT C. set (h0 := upd h new (fun _ => h3 new)).
  assert (NE0 : forall i, i <> new -> h0 i = h i).
  { intros i N. unfold h0, upd. destruct (Nat.eqb_spec i new); [contradiction|reflexivity]. }
  assert (AT0 : h0 new = h3 new) by (unfold h0, upd; rewrite Nat.eqb_refl; reflexivity).
  assert (C0 : content h0 q s) by (apply content_fresh with h new; auto).
  assert (KK : forall i, n_kind (h3 i) = n_kind (h0 i)).
  { intro i. destruct (Nat.eq_dec i new) as [->|N]; [rewrite AT0; reflexivity|]. rewrite (NE0 i N). apply K3O, N. }
  assert (KD : forall i, kids h0 i = kids h i).
  { intro i. unfold kids. destruct (Nat.eq_dec i new) as [->|N]; [|rewrite (NE0 i N); reflexivity].
    rewrite AT0. fold (kids h3 new). rewrite KO3 by auto. reflexivity. }
  assert (T0 : forall i, i <> new -> (textual h0 i <-> textual h i)) by (intros i N; unfold textual; rewrite (NE0 i N); tauto).
  revert C0. apply content_step with p; auto.
  - intros i N _. rewrite KD. apply KO3, N.
  - intros i c N _ I. rewrite KD in I. assert (CN : c <> new) by (intros ->; apply (NIN i I)). rewrite (NE0 c CN). apply D3O; auto.
    intros ->. apply N. apply (kid_unique _ _ _ this G I). rewrite KP. apply in_or_app; right; left; reflexivity.
  - intros ss F. rewrite KD, KP in F. rewrite KP3. apply Forall2_app_inv_l in F. destruct F as (s1 & s2 & F1 & F2 & ->).
    inversion F2 as [|? st ? s3 PT F3]; subst. rewrite (proj1 PT); [|apply T0; auto].
    rewrite (NE0 this TN). fold d. rewrite DD, concat_app. cbn [concat]. rewrite <- app_assoc.
    change (contents h3 (a ++ this :: new :: b) (concat s1 ++ concat (n_data (h3 this) :: n_data (h3 new) :: s3))).
    rewrite <- concat_app. apply contents_pieces.
    assert (NIP : forall c, In c (a ++ b) -> n_data (h3 c) = n_data (h0 c)).
    { intros c I. assert (IK : In c (kids h p)) by (rewrite KP; apply in_app_or in I; apply in_or_app; cbn; tauto).
      assert (CN : c <> new) by (intros ->; apply (NIN p IK)). rewrite (NE0 c CN). apply D3O; auto.
      intros ->. apply (NoDup_remove_2 _ _ _ ND I). }
    apply Forall2_app; [|constructor; [|constructor]].
    + apply pieces_contents with h0; auto. intros c I. apply NIP, in_or_app; auto.
    + apply content_text. rewrite K3O by auto. exact TX.
    + apply content_text. rewrite K3N. exact TX.
    + apply pieces_contents with h0; auto. intros c I. apply NIP, in_or_app; auto.
  - unfold textual in *. rewrite (NE0 q NQ). exact NT.
Qed.
