(** Proofs about normalize with attributes. *)
From Verif.Model Require Import Base Dom DomText NormalizeAll.
From Verif.Spec Require Import DomSpec DomTextSpec NormalizeAllSpec.
From Verif.Proof Require Import DomProof DomProof2 DomProof3 DomTextProof TagListProof TagListProof2.
From Coq Require Import List Lia. Import ListNotations.

Lemma below_root : forall h x i, good h -> n_parent (h i) = None -> at_or_below h x i -> x = i.
Proof.
  intros h x i [L _] P [E|A]; [congruence|]. destruct (below_parent h x i A) as (j & _ & I). apply (l_parent h L) in I. congruence.
Qed.
Lemma below_up : forall h x i p, good h -> n_parent (h i) = Some p -> at_or_below h x i -> x = i \/ at_or_below h x p.
Proof.
  intros h x i p [L _] P [E|A]; [left; congruence|]. right. destruct (below_parent h x i A) as (j & B & I). apply (l_parent h L) in I. congruence.
Qed.
Lemma below_linear : forall h i, good h -> forall a b, at_or_below h a i -> at_or_below h b i -> at_or_below h a b \/ at_or_below h b a.
Proof.
  intros h i G. pose proof (l_rooted h (proj1 G) i) as R. induction R as [i P|i p P R IH]; intros a b A B.
  - rewrite (below_root h a i G P A), (below_root h b i G P B). left. left. reflexivity.
  - destruct (below_up h a i p G P A) as [->|A']; [right; exact B|]. destruct (below_up h b i p G P B) as [->|B']; [left; exact A|]. apply IH; assumption.
Qed.
Lemma below_below : forall h a b c, at_or_below h a b -> at_or_below h b c -> at_or_below h a c.
Proof. intros h a b c A [->|B]; [exact A|]. right. exact (below_trans h a b c A B). Qed.
Definition attribute (h : heap) (a : nat) : Prop := n_kind (h a) = KAttr.
Lemma attribute_root : forall h a, good h -> attribute h a -> n_parent (h a) = None.
Proof. intros h a [_ T] K. destruct (n_parent (h a)) as [p|] eqn:P; [|reflexivity]. apply (t_child h T) in P. unfold attribute in K. rewrite K in P. discriminate. Qed.
Lemma apart_attribute : forall h a x, good h -> attribute h a -> ~ at_or_below h a x -> forall i, at_or_below h x i -> ~ at_or_below h a i.
Proof.
  intros h a x G K N i X A. destruct (below_linear h i G a x A X) as [Q|Q]; [exact (N Q)|]. apply (below_root h x a G (attribute_root h a G K)) in Q. subst. apply N. left. reflexivity.
Qed.
(** What stays outside all of a list. *)
Definition frames (roots : list nat) (h h' : heap) : Prop :=
  neutral h h' /\ (forall i, (forall c, In c roots -> ~ at_or_below h c i) -> kids h' i = kids h i) /\ (forall i, (forall c, In c roots -> ~ above h c i) -> n_data (h' i) = n_data (h i)).
Lemma frames_one : forall c h h', frame c h h' -> frames [c] h h'.
Proof. intros c h h' [A B C]. split; [exact A|]. split; intros i N; [apply B|apply C]; apply N; left; reflexivity. Qed.
Lemma frames_trans : forall l m h h1 h2, frames l h h1 -> frames m h1 h2 -> frames (l ++ m) h h2.
Proof.
  intros l m h h1 h2 (A1 & A2 & A3) (B1 & B2 & B3). split; [exact (neutral_trans _ _ _ A1 B1)|]. split; intros i N.
  - rewrite B2, A2; [reflexivity|intros c C; apply N; apply in_or_app; auto|]. intros c C Q. apply (N c); [apply in_or_app; auto|]. exact (below_less _ _ (ne_less _ _ A1) _ _ Q).
  - rewrite B3, A3; [reflexivity|intros c C; apply N; apply in_or_app; auto|]. intros c C Q. apply (N c); [apply in_or_app; auto|]. exact (above_less _ _ (ne_less _ _ A1) _ _ Q).
Qed.
Lemma each_lemma : forall f attrs h h' u, good h -> NoDup attrs -> Forall (attribute h) attrs -> normalize_each f h attrs = Ok h' u ->
  frames attrs h h' /\ Forall (normal_below h') attrs /\ forall x, Forall (fun a => ~ at_or_below h a x) attrs -> normal_below h x -> normal_below h' x.
Proof.
  intros f. induction attrs as [|a attrs IH]; intros h h' u G ND K E.
  - injection E as <- _. split; [split; [apply neutral_refl; exact G|split; reflexivity]|]. split; [constructor|auto].
  - cbn [normalize_each] in E. inversion ND as [|? ? NI ND']; subst. inversion K as [|? ? KA K']; subst. destruct (normalize f h a) as [h1 u1|e h1|] eqn:E1; cbn [rbind] in E; try discriminate.
    pose proof (proj1 (normalize_spec f) h a G) as P. rewrite E1 in P. destruct P as (F & N). pose proof (f_neutral _ _ _ F) as NE. pose proof (ne_good _ _ NE) as G1.
    assert (K1 : Forall (attribute h1) attrs) by (rewrite Forall_forall in K' |- *; intros x X; unfold attribute; rewrite (ne_kind _ _ NE); apply K'; exact X).
    destruct (IH h1 h' u G1 ND' K1 E) as (FS & NS & KEEP). split; [exact (frames_trans [a] attrs h h1 h' (frames_one _ _ _ F) FS)|].
    assert (AP : Forall (fun b => ~ at_or_below h1 b a) attrs).
    { rewrite Forall_forall in K1 |- *. intros b B Q. apply (below_root h1 b a G1) in Q; [subst; exact (NI B)|]. apply (attribute_root h1 a G1). unfold attribute. rewrite (ne_kind _ _ NE). exact KA. }
    split; [constructor; [apply KEEP; [exact AP|exact N]|exact NS]|]. intros x X NX. inversion X as [|? ? XA X']; subst. apply KEEP.
    + rewrite Forall_forall in X' |- *. intros b B Q. apply (X' b B). exact (below_less _ _ (ne_less _ _ NE) _ _ Q).
    + apply (normal_frame h h1 a x G F); [|exact NX]. exact (apart_attribute h a x G KA XA).
Qed.
Lemma each_raises : forall f attrs h e h', good h -> normalize_each f h attrs = Ex e h' -> texts_ok h -> frozen_down h ->
  neutral h h' /\ exists a n, In a attrs /\ at_or_below h a n /\ n_ro (h n) = true.
Proof.
  intros f. induction attrs as [|a attrs IH]; intros h e h' G E TO FD; [discriminate|]. cbn [normalize_each] in E.
  pose proof (proj1 (normalize_spec f) h a G) as P. destruct (normalize f h a) as [h1 u1|e1 h1|]; cbn [rbind] in E; [|injection E as -> ->; destruct (P TO FD) as (N & n & B & R); split; [exact N|exists a, n; split; [left; reflexivity|auto]]|discriminate].
  destruct P as (F & _). pose proof (f_neutral _ _ _ F) as N. destruct (IH h1 e h' (ne_good _ _ N) E (neutral_texts _ _ N TO) (neutral_frozen _ _ N FD)) as (N' & b & n & I & B & R).
  split; [exact (neutral_trans _ _ _ N N')|]. exists b, n. split; [right; exact I|]. split; [exact (below_less _ _ (ne_less _ _ N) _ _ B)|]. rewrite <- (ne_ro _ _ N). exact R.
Qed.

Section Attrs.
  Variable A : nat -> list nat.
  Lemma attributed_later : forall h h', neutral h h' -> attributed A h -> attributed A h'.
  Proof.
    intros h h' N [K O D I T]. constructor; auto.
    - intros j a X. rewrite (ne_kind _ _ N). exact (K j a X).
    - intros j a b X KB Q. rewrite (ne_kind _ _ N) in KB. exact (I j a b X KB (below_less _ _ (ne_less _ _ N) _ _ Q)).
    - intros j KJ. rewrite (ne_kind _ _ N) in KJ. exact (T j KJ).
  Qed.
  Definition wframe (this : nat) (h h' : heap) : Prop :=
    neutral h h' /\ (forall i, ~ within A h this i -> kids h' i = kids h i) /\ (forall i, ~ strictly_within A h this i -> n_data (h' i) = n_data (h i)).
  Definition attrs_normal (h : heap) (P : nat -> Prop) : Prop := forall j a, P j -> In a (A j) -> normal_below h a.
  Lemma within_less : forall h h' x i, neutral h h' -> within A h' x i -> within A h x i.
  Proof.
    intros h h' x i N [B|(j & a & B & IN & C)]; [left; exact (below_less _ _ (ne_less _ _ N) _ _ B)|]. right. exists j, a. split; [exact (below_less _ _ (ne_less _ _ N) _ _ B)|]. split; [exact IN|exact (below_less _ _ (ne_less _ _ N) _ _ C)].
  Qed.
  Lemma strictly_less : forall h h' x i, neutral h h' -> strictly_within A h' x i -> strictly_within A h x i.
  Proof.
    intros h h' x i N [B|(j & a & B & IN & C)]; [left; exact (above_less _ _ (ne_less _ _ N) _ _ B)|]. right. exists j, a. split; [exact (below_less _ _ (ne_less _ _ N) _ _ B)|]. split; [exact IN|exact (above_less _ _ (ne_less _ _ N) _ _ C)].
  Qed.
  Lemma wframe_refl : forall x h, good h -> wframe x h h.
  Proof. intros x h G. split; [apply neutral_refl; exact G|split; reflexivity]. Qed.
  Lemma wframe_trans : forall x h h1 h2, wframe x h h1 -> wframe x h1 h2 -> wframe x h h2.
  Proof.
    intros x h h1 h2 (A1 & A2 & A3) (B1 & B2 & B3). split; [exact (neutral_trans _ _ _ A1 B1)|]. split; intros i N.
    - rewrite B2, A2; [reflexivity|exact N|]. intros Q. apply N. exact (within_less _ _ _ _ A1 Q).
    - rewrite B3, A3; [reflexivity|exact N|]. intros Q. apply N. exact (strictly_less _ _ _ _ A1 Q).
  Qed.
  Lemma frame_wide : forall x h h', frame x h h' -> wframe x h h'.
  Proof. intros x h h' [N B C]. split; [exact N|]. split; intros i W; [apply B|apply C]; intros Q; apply W; left; exact Q. Qed.
  Lemma frames_wide : forall x h h', frames (A x) h h' -> wframe x h h'.
  Proof.
    intros x h h' (N & B & C). split; [exact N|]. split; intros i W; [apply B|apply C]; intros a I Q; apply W; right; exists x, a; (split; [left; reflexivity|split; assumption]).
  Qed.
  Lemma wframe_up : forall this c h h', In c (kids h this) -> wframe c h h' -> wframe this h h'.
  Proof.
    intros this c h h' IC (N & B & C). assert (UP : forall j, at_or_below h c j -> above h this j) by (intros j [->|Q]; [apply above_child; exact IC|exact (above_trans h this c j IC Q)]).
    split; [exact N|]. split; intros i W; [apply B|apply C]; intros [Q|(j & a & Q & I & R)]; apply W.
    - left. right. exact (UP i Q).
    - right. exists j, a. split; [right; exact (UP j Q)|split; assumption].
    - left. exact (UP i (or_intror Q)).
    - right. exists j, a. split; [right; exact (UP j Q)|split; assumption].
  Qed.
  Lemma normal_wframe : forall h h' c d, good h -> wframe c h h' -> (forall i, at_or_below h d i -> ~ within A h c i) -> normal_below h d -> normal_below h' d.
  Proof.
    intros h h' c d G (N1 & A2 & A3) DJ N n B. assert (BH : at_or_below h d n) by (apply (below_less _ _ (ne_less _ _ N1)), B).
    rewrite (A2 n (DJ n BH)). apply normal_list_ext with h; [|apply N, BH]. intros k IK. split; [apply (ne_kind _ _ N1)|]. apply A3. intros [X|(j & a & X1 & X2 & X)]; apply below_parent in X; destruct X as (q & J1 & J2); rewrite (kid_unique _ _ _ _ G J2 IK) in J1; apply (DJ n BH).
    - left. exact J1.
    - right. exists j, a. auto.
  Qed.
  (** The trees of two children of one node, with their attributes. *)
  Lemma child_apart : forall h this c x, good h -> attributed A h -> In c (kids h this) -> In x (kids h this) -> x <> c -> forall i, at_or_below h x i -> ~ within A h c i.
  Proof.
    intros h this c x G AT IC IX NE i X [B|(j & a & B & IA & R)]; [exact (NE (eq_sym (child_subtrees h this c x i G IC IX B X)))|].
    pose proof (at_kind _ _ AT j a IA) as KA. destruct (below_linear h i G a x R X) as [Q|Q].
    - assert (AX : a <> x) by (intros ->; pose proof (attribute_root h x G KA) as P; rewrite (kid_parent _ _ _ G IX) in P; discriminate).
      destruct (below_up h a x this G (kid_parent _ _ _ G IX) Q) as [E|Q']; [contradiction|]. apply (at_inside _ _ AT j a a IA KA). apply (below_below _ _ this); [exact Q'|]. right. destruct B as [->|B]; [apply above_child; exact IC|exact (above_trans h this c j IC B)].
    - apply (below_root h x a G (attribute_root h a G KA)) in Q. subst. pose proof (attribute_root h a G KA) as P. rewrite (kid_parent _ _ _ G IX) in P. discriminate.
  Qed.
  Lemma attribute_outside : forall h this b k, good h -> attributed A h -> at_or_below h this k -> In b (A k) -> ~ at_or_below h b this.
  Proof. intros h this b k G AT B I Q. exact (at_inside _ _ AT k b b I (at_kind _ _ AT k b I) (below_below _ _ _ _ Q B)). Qed.
  Lemma child_attributes_apart : forall h this c x k b, good h -> attributed A h -> In c (kids h this) -> In x (kids h this) -> x <> c -> at_or_below h x k -> In b (A k) -> forall i, at_or_below h b i -> ~ within A h c i.
  Proof.
    intros h this c x k b G AT IC IX NE XK IB i BI [C|(j & a & B & IA & R)].
    - pose proof (at_kind _ _ AT k b IB) as KB. assert (TK : at_or_below h this k) by (right; destruct XK as [->|XK]; [apply above_child; exact IX|exact (above_trans h this x k IX XK)]).
      apply (apart_attribute h b c G KB) with (i := i); [|exact C|exact BI]. intros Q. destruct (below_up h b c this G (kid_parent _ _ _ G IC) Q) as [->|Q'].
      + pose proof (attribute_root h c G KB) as P. rewrite (kid_parent _ _ _ G IC) in P. discriminate.
      + exact (attribute_outside h this b k G AT TK IB Q').
    - pose proof (at_kind _ _ AT k b IB) as KB. pose proof (at_kind _ _ AT j a IA) as KA. assert (a = b).
      { destruct (below_linear h i G a b R BI) as [Q|Q]; [exact (below_root h a b G (attribute_root h b G KB) Q)|symmetry; exact (below_root h b a G (attribute_root h a G KA) Q)]. }
      subst a. rewrite (at_once _ _ AT j k b IA IB) in B. exact (NE (eq_sym (child_subtrees h this c x k G IC IX B XK))).
  Qed.
  Definition raised (h : heap) (this : nat) (h' : heap) : Prop := texts_ok h -> frozen_down h -> neutral h h' /\ exists n, within A h this n /\ n_ro (h n) = true.
  Lemma raised_later : forall h h1 this h', neutral h h1 -> raised h1 this h' -> raised h this h'.
  Proof.
    intros h h1 this h' N R TO FD. destruct (R (neutral_texts _ _ N TO) (neutral_frozen _ _ N FD)) as (N' & n & W & Q). split; [exact (neutral_trans _ _ _ N N')|]. exists n. split; [exact (within_less _ _ _ _ N W)|]. rewrite <- (ne_ro _ _ N). exact Q.
  Qed.
  Definition loop_post (h : heap) (this : nat) (r : res unit) : Prop :=
    match r with Ok h' _ => wframe this h h' /\ normal_below h' this /\ attrs_normal h' (above h' this) | Ex _ h' => raised h this h' | Div => True end.
  Definition all_post (h : heap) (this : nat) (r : res unit) : Prop :=
    match r with Ok h' _ => wframe this h h' /\ normal_below h' this /\ attrs_normal h' (at_or_below h' this) | Ex _ h' => raised h this h' | Div => True end.
  Lemma loop_post_trans : forall h h1 this r, wframe this h h1 -> loop_post h1 this r -> loop_post h this r.
  Proof. intros h h1 this [h2 u|e h2|] F; cbn; auto; [|exact (raised_later _ _ _ _ (proj1 F))]. intros (B & C). split; [exact (wframe_trans _ _ _ _ F B)|exact C]. Qed.
  Lemma text_alone : forall h c j, good h -> n_kind (h c) = KText -> at_or_below h c j -> j = c.
  Proof. intros h c j G K [->|B]; [reflexivity|]. exfalso. inversion B as [? ? I|? ? ? I]; subst; apply (owner_not_textual h c _ G I); left; exact K. Qed.
  Lemma all_spec : forall f,
    (forall h this, good h -> attributed A h -> all_post h this (normalize_all A f h this)) /\
    (forall h this child a b, good h -> attributed A h -> kids h this = a ++ b -> child = first b None -> ready h a b -> (forall x, In x a -> attrs_normal h (at_or_below h x)) ->
       loop_post h this (all_loop A f h this child)).
  Proof.
    induction f as [|f [IH1 IH2]]; [split; intros; exact I|]. split.
    - intros h this G AT. cbn [normalize_all]. assert (LP : loop_post h this (all_loop A f h this (first_child h this))).
      { apply (IH2 h this _ [] (kids h this)); auto; [|intros x []]. constructor; [split; [intros c []|intros [|] ? ? ? E; discriminate]|intros c []|intros [|] ? E; discriminate]. }
      destruct (all_loop A f h this (first_child h this)) as [h1 u1|e1 h1|]; cbn [rbind]; [|exact LP|exact I]. destruct LP as (F & N & AN). pose proof (proj1 F) as NE. pose proof (ne_good _ _ NE) as G1. pose proof (attributed_later _ _ NE AT) as AT1.
      destruct (normalize_each f h1 (A this)) as [h2 u2|e2 h2|] eqn:E; cbn; [| |exact I].
      2:{ apply raised_later with h1; [exact NE|]. intros TO FD. destruct (each_raises f (A this) h1 e2 h2 G1 E TO FD) as (N' & b & n & IB & B & R). split; [exact N'|]. exists n. split; [|exact R]. right. exists this, b. split; [left; reflexivity|auto]. }
      destruct (each_lemma f (A this) h1 h2 u2 G1 (at_nodup _ _ AT1 this)) as (FS & NS & KEEP); [apply Forall_forall; intros b I; exact (at_kind _ _ AT1 this b I)|exact E|].
      split; [exact (wframe_trans _ _ _ _ F (frames_wide _ _ _ FS))|]. split.
      + apply KEEP; [|exact N]. apply Forall_forall. intros b I. apply (attribute_outside h1 this b this G1 AT1); [left; reflexivity|exact I].
      + intros j b B IB. pose proof (below_less _ _ (ne_less _ _ (proj1 FS)) _ _ B) as B1. destruct B1 as [->|B1]; [rewrite Forall_forall in NS; exact (NS b IB)|]. apply KEEP; [|exact (AN j b B1 IB)].
        apply Forall_forall. intros b' I Q. assert (b' = b) by exact (below_root h1 b' b G1 (attribute_root h1 b G1 (at_kind _ _ AT1 j b IB)) Q). subst b'. rewrite (at_once _ _ AT1 j this b IB I) in B1. exact (proj2 (proj2 (good_tree h1 G1)) this B1).
    - intros h this child a b G AT KT -> RD AD. cbn [all_loop].
      destruct b as [|c b]; cbn [first].
      { cbn. rewrite app_nil_r in KT. split; [apply wframe_refl, G|]. split; [apply normal_whole; auto; rewrite KT; apply RD|]. intros j b B IB. rewrite <- KT in AD. clear KT RD. inversion B as [? ? IJ|? x ? IJ Q]; subst; [apply (AD j IJ j b); [left; reflexivity|exact IB]|apply (AD x IJ j b); [right; exact Q|exact IB]]. }
      assert (IC : In c (kids h this)) by (rewrite KT; apply in_or_app; right; left; reflexivity).
      assert (NX : n_next (h c) = first b None) by (apply nth_first with this a; auto).
      assert (ND : NoDup (a ++ c :: b)) by (rewrite <- KT; apply (l_nodup h (proj1 G))).
      assert (NCA : ~ In c a) by (intro I; apply (NoDup_remove_2 _ _ _ ND), in_or_app; auto).
      assert (INA : forall x, In x a -> In x (kids h this)) by (intros x I; rewrite KT; apply in_or_app; left; exact I).
      assert (KEEPA : forall h2, frame this h h2 -> forall x, In x a -> attrs_normal h2 (at_or_below h2 x)).
      { intros h2 F2 x IX j b' B IB. pose proof (below_less _ _ (ne_less _ _ (f_neutral _ _ _ F2)) _ _ B) as BH. apply (normal_frame h h2 this b' G F2); [|exact (AD x IX j b' BH IB)].
        assert (TJ : at_or_below h this j) by (right; destruct BH as [->|BH]; [apply above_child; exact (INA x IX)|exact (above_trans h this x j (INA x IX) BH)]).
        intros i BI TI. exact (apart_attribute h b' this G (at_kind _ _ AT j b' IB) (attribute_outside h this b' j G AT TJ IB) i TI BI). }
      destruct (has_kind h c KText) eqn:KC.
      + apply has_kind_eq in KC.
        assert (SEAM : forall a' x, a = a' ++ [x] -> n_kind (h x) <> KText).
        { intros a' x E KX. apply (re_seam _ _ _ RD a' x E KX). exact KC. }
        assert (MS := merge_spec f h this c (n_next (h c)) a b G KT KC NX).
        destruct (merge_texts f h this c (n_next (h c))) as [h1 nx|e1 h1|]; cbn [rbind]; [|intros TO FD; destruct (MS TO FD) as (N' & R); split; [exact N'|]; exists c; split; [left; right; apply above_child; exact IC|exact R]|exact I].
        destruct MS as (N1 & b' & AL & -> & HN & IN & D1).
        assert (F1 : frame this h h1) by (apply (list_frame _ _ _ _ N1 AL)).
        assert (G1 := ne_good _ _ N1).
        assert (HN1 : head_not_text h1 b') by (destruct b' as [|y b']; [exact I|]; cbn in *; rewrite (ne_kind _ _ N1); exact HN).
        assert (KEEP : forall h2, good h2 -> (forall i, n_kind (h2 i) = n_kind (h i)) -> (forall i, i <> this -> kids h2 i = kids h i) ->
          (forall i, i <> c -> n_data (h2 i) = n_data (h i)) -> (forall i x, In x (kids h2 i) -> In x (kids h i)) ->
          normal_list h2 a /\ (forall x, In x a -> n_kind (h2 x) <> KText -> normal_below h2 x)).
        { intros h2 G2 K2 O2 D2 L2. split.
          - apply normal_list_ext with h; [|apply RD]. intros x I. split; auto. apply D2. intros ->. contradiction.
          - intros x I KX n B. assert (BH : at_or_below h x n) by (apply (below_less _ _ L2), B).
            assert (IX : In x (kids h this)) by (rewrite KT; apply in_or_app; left; exact I).
            assert (NT : n <> this).
            { intros ->. apply (proj2 (proj2 (good_tree h G)) x). apply (below_snoc _ _ _ _ BH IX). }
            rewrite (O2 n NT). rewrite K2 in KX. apply normal_list_ext with h; [|apply (re_done _ _ _ RD x I KX n BH)].
            intros k IK. split; auto. apply D2. intros ->. apply NT. apply (kid_unique _ _ _ _ G IK IC). }
        destruct (n_data (h1 c)) as [|z zs] eqn:DC; cbn [rbind].
        * destruct (vremove h1 this (Some c)) as [h2 r2|e2 h2|] eqn:V; cbn [rbind]; [| |exact I].
          2:{ cbn. intros TO FD. apply remove_text_fails in V; [|apply neutral_texts with h; auto|exact G1|rewrite (al_kids _ _ _ _ AL); apply in_or_app; right; left; reflexivity|rewrite (ne_kind _ _ N1); exact KC].
              destruct V as [V ->]. split; [exact N1|]. exists this. split; [left; left; reflexivity|]. rewrite <- (ne_ro _ _ N1). exact V. }
          assert (KC1 : n_kind (h1 c) = KText) by (rewrite (ne_kind _ _ N1); exact KC).
          destruct (drop_step _ _ _ _ _ _ _ G1 (al_kids _ _ _ _ AL) KC1 DC V) as (N2 & AL2 & D2).
          assert (F2 : frame this h h2) by (apply frame_trans with h1; [exact F1|apply (list_frame _ _ _ _ N2 AL2)]).
          apply loop_post_trans with h2; [apply frame_wide; exact F2|].
          destruct (KEEP h2) as [R1 R2].
          { apply (ne_good _ _ N2). } { intro i. rewrite (ne_kind _ _ N2). apply (ne_kind _ _ N1). }
          { intros i NI. rewrite (al_other _ _ _ _ AL2 i NI). apply (al_other _ _ _ _ AL i NI). }
          { intros i NI. rewrite D2. apply D1, NI. }
          { intros i x I2. apply (ne_less _ _ N1), (ne_less _ _ N2), I2. }
          apply (IH2 h2 this (first b' None) a b'); auto; [apply (ne_good _ _ N2)|exact (attributed_later _ _ (f_neutral _ _ _ F2) AT)|apply (al_kids _ _ _ _ AL2)|].
          constructor; auto. intros a' x E KX. exfalso. apply (SEAM a' x E).
          rewrite <- (ne_kind _ _ N1), <- (ne_kind _ _ N2). exact KX.
        * apply loop_post_trans with h1; [apply frame_wide; exact F1|].
          destruct (KEEP h1) as [R1 R2]; auto; [apply (ne_kind _ _ N1)|apply (al_other _ _ _ _ AL)|apply (ne_less _ _ N1)|].
          apply (IH2 h1 this (first b' None) (a ++ [c]) b'); auto.
          -- exact (attributed_later _ _ N1 AT).
          -- rewrite (al_kids _ _ _ _ AL), <- app_assoc. reflexivity.
          -- constructor.
             ++ apply normal_list_snoc; auto; [intros _; rewrite DC; discriminate|].
                intros a' y E KY. exfalso. apply (SEAM a' y E). rewrite <- (ne_kind _ _ N1). exact KY.
             ++ intros x I. apply in_app_or in I. destruct I as [I|[<-|[]]]; auto. rewrite (ne_kind _ _ N1). contradiction.
             ++ intros a' x E _. exact HN1.
          -- intros x I. apply in_app_or in I. destruct I as [I|[<-|[]]]; [exact (KEEPA h1 F1 x I)|]. intros j b0 B IB. assert (KC1 : n_kind (h1 c) = KText) by (rewrite (ne_kind _ _ N1); exact KC). rewrite (text_alone h1 c j G1 KC1 B), (at_text _ _ AT c KC) in IB. contradiction.
      + assert (KC' : n_kind (h c) <> KText) by (intro X; apply has_kind_eq in X; congruence).
        assert (NP := IH1 h c G AT).
        destruct (normalize_all A f h c) as [h1 u1|e1 h1|]; cbn [rbind all_post] in NP |- *; [| |exact I].
        2:{ intros TO FD. destruct (NP TO FD) as (N' & n & W & R). split; [exact N'|]. exists n. split; [|exact R]. assert (UP : forall j, at_or_below h c j -> at_or_below h this j) by (intros j [->|Q]; right; [apply above_child; exact IC|exact (above_trans h this c j IC Q)]).
            destruct W as [B|(j & a0 & B & IA & Q)]; [left; exact (UP n B)|]. right. exists j, a0. split; [exact (UP j B)|auto]. }
        destruct NP as (F1 & NB & AN). assert (N1 := proj1 F1).
        apply loop_post_trans with h1; [apply wframe_up with c; auto|].
        assert (NTH : ~ within A h c this).
        { intros [B|(j & a0 & B & IA & R)]; [apply (proj2 (proj2 (good_tree h G)) c); apply (below_snoc _ _ _ _ B IC)|]. apply (attribute_outside h c a0 j G AT B IA). apply (below_below _ _ this); [exact R|]. right. apply above_child. exact IC. }
        assert (DK : forall x, In x (kids h this) -> n_data (h1 x) = n_data (h x)).
        { intros x I. apply (proj2 (proj2 F1)). intros [X|(j0 & a0 & X1 & X2 & X)]; apply below_parent in X; destruct X as (j & J1 & J2); rewrite (kid_unique _ _ _ _ G J2 I) in J1; apply NTH; [left; exact J1|right; exists j0, a0; auto]. }
        rewrite NX. apply (IH2 h1 this (first b None) (a ++ [c]) b); auto; [apply (ne_good _ _ N1)|exact (attributed_later _ _ N1 AT)| | |].
        * rewrite (proj1 (proj2 F1) this NTH), KT, <- app_assoc. reflexivity.
        * constructor.
          -- apply normal_list_snoc.
             ++ apply normal_list_ext with h; [|apply RD]. intros x I. split; [apply (ne_kind _ _ N1)|].
                apply DK. rewrite KT. apply in_or_app; left; exact I.
             ++ rewrite (ne_kind _ _ N1). intro X. contradiction.
             ++ intros a' y E KY. rewrite (ne_kind _ _ N1). exact KC'.
          -- intros x I. apply in_app_or in I. destruct I as [I|[<-|[]]]; [|intros _; exact NB].
             rewrite (ne_kind _ _ N1). intro KX. apply normal_wframe with h c; auto; [|apply (re_done _ _ _ RD x I KX)].
             apply (child_apart h this c x G AT IC (INA x I)). intros ->. contradiction.
          -- intros a' x E KX. apply unsnoc_inj in E. destruct E as [_ <-]. rewrite (ne_kind _ _ N1) in KX. contradiction.
        * intros x I. apply in_app_or in I. destruct I as [I|[<-|[]]]; [|exact AN]. intros j b0 B IB. pose proof (below_less _ _ (ne_less _ _ N1) _ _ B) as BH. apply normal_wframe with h c; auto; [|exact (AD x I j b0 BH IB)].
          apply (child_attributes_apart h this c x j b0 G AT IC (INA x I)); [intros ->; contradiction|exact BH|exact IB].
  Qed.
End Attrs.
Lemma all_lemma : forall A f h this h' u, good h -> attributed A h -> normalize_all A f h this = Ok h' u ->
  normal_below h' this /\ (forall j a, at_or_below h' this j -> In a (A j) -> normal_below h' a) /\ (forall q s, ~ textual h q -> content h q s -> content h' q s) /\
  (forall i, ~ within A h this i -> kids h' i = kids h i) /\ (forall i, ~ strictly_within A h this i -> n_data (h' i) = n_data (h i)).
Proof.
  intros A f h this h' u G AT E. pose proof (proj1 (all_spec A f) h this G AT) as P. rewrite E in P. destruct P as ((N & B & C) & D & F). split; [exact D|]. split; [exact F|]. split; [exact (ne_text _ _ N)|]. split; assumption.
Qed.
Lemma each_settles : forall h0, (forall x, finite_below h0 x) -> forall attrs h, good h -> (forall i c, In c (kids h i) -> In c (kids h0 i)) ->
  settles (fun f => normalize_each f h attrs).
Proof.
  intros h0 FB. induction attrs as [|a attrs IH]; intros h G S; [exists O, (Ok h tt); split; [discriminate|reflexivity]|].
  destruct (normalize_settles h0 a (FB a) h G S) as (f1 & r1 & N1 & E1). destruct r1 as [h1 u1|e h1|]; [|exists f1, (Ex e h1); split; [discriminate|intros f L; cbn [normalize_each]; rewrite (E1 f L); reflexivity]|contradiction].
  pose proof (proj1 (normalize_spec f1) h a G) as P. rewrite (E1 f1 (le_n f1)) in P. destruct P as (F & _).
  destruct (IH h1 (ne_good _ _ (f_neutral _ _ _ F)) (fun i c I => S i c (ne_less _ _ (f_neutral _ _ _ F) i c I))) as (f2 & r2 & N2 & E2). exists (Nat.max f1 f2), r2. split; [exact N2|]. intros f L. cbn [normalize_each]. rewrite E1 by lia. cbn [rbind]. apply E2. lia.
Qed.
Lemma all_settles_from : forall A h0, (forall x, finite_below h0 x) -> forall this, finite_below h0 this -> forall h, good h -> attributed A h ->
  (forall i c, In c (kids h i) -> In c (kids h0 i)) -> settles (fun f => normalize_all A f h this).
Proof.
  intros A h0 FIN this FB. induction FB as [this FB IH]. intros h G AT LS.
  apply settles_S with (fun f => rbind (all_loop A f h this (first_child h this)) (fun h _ => normalize_each f h (A this))); [reflexivity|].
  assert (LOOP : forall n h a b, good h -> attributed A h -> (forall i c, In c (kids h i) -> In c (kids h0 i)) -> kids h this = a ++ b -> (length b <= n)%nat ->
     settles (fun f => all_loop A f h this (first b None)) /\ forall f h' u, all_loop A f h this (first b None) = Ok h' u -> neutral h h').
  { clear h G AT LS. induction n as [|n IHn]; intros h a b G AT LS KT LN.
    - destruct b; [|cbn in LN; lia]. split; [apply settles_S with (fun _ => Ok h tt); [reflexivity|]; apply settles_now; discriminate|]. intros [|f] h' u E; [discriminate|]. injection E as <- _. apply neutral_refl. exact G.
    - destruct b as [|c b]; [split; [apply settles_S with (fun _ => Ok h tt); [reflexivity|]; apply settles_now; discriminate|]; intros [|f] h' u E; [discriminate|]; injection E as <- _; apply neutral_refl; exact G|].
      cbn [first].
      assert (IC : In c (kids h this)) by (rewrite KT; apply in_or_app; right; left; reflexivity).
      assert (NX : n_next (h c) = first b None) by (apply nth_first with this a; auto).
      assert (TEXT : n_kind (h c) = KText -> forall f h1 nx, merge_texts f h this c (n_next (h c)) = Ok h1 nx -> forall h2 v,
          match n_data (h1 c) with [] => rbind (vremove h1 this (Some c)) (fun h _ => Ok h tt) | _ => Ok h1 tt end = Ok h2 v -> neutral h h2 /\ exists a' b', nx = first b' None /\ kids h2 this = a' ++ b' /\ (length b' <= n)%nat).
      { intros KC f h1 nx E h2 v E2. assert (MS := merge_spec f h this c (n_next (h c)) a b G KT KC NX). rewrite E in MS.
        destruct MS as (N1 & b' & AL & -> & HN & IN & D1).
        assert (LB : (length b' <= n)%nat).
        { assert (ND : NoDup (a ++ c :: b')) by (rewrite <- (al_kids _ _ _ _ AL); apply (l_nodup h1 (proj1 (ne_good _ _ N1)))).
          apply NoDup_app_r in ND. inversion ND as [|? ? _ ND']; subst.
          assert (X := NoDup_incl_length ND' IN). cbn in LN. lia. }
        destruct (n_data (h1 c)) as [|z zs] eqn:DC; cbn [rbind] in E2.
        - destruct (vremove h1 this (Some c)) as [h3 r2|e2 h3|] eqn:V; cbn [rbind] in E2; try discriminate. injection E2 as <- _.
          assert (KC1 : n_kind (h1 c) = KText) by (rewrite (ne_kind _ _ N1); exact KC).
          destruct (drop_step _ _ _ _ _ _ _ (ne_good _ _ N1) (al_kids _ _ _ _ AL) KC1 DC V) as (N2 & AL2 & D2).
          split; [exact (neutral_trans _ _ _ N1 N2)|]. exists a, b'. split; [reflexivity|]. split; [apply (al_kids _ _ _ _ AL2)|exact LB].
        - injection E2 as <- _. split; [exact N1|]. exists (a ++ [c]), b'. split; [reflexivity|]. split; [rewrite (al_kids _ _ _ _ AL), <- app_assoc; reflexivity|exact LB]. }
      assert (STEP : forall h2 a' b', neutral h h2 -> kids h2 this = a' ++ b' -> (length b' <= n)%nat -> settles (fun f => all_loop A f h2 this (first b' None)) /\ forall f h' u, all_loop A f h2 this (first b' None) = Ok h' u -> neutral h h').
      { intros h2 a' b' N2 K2 L2. destruct (IHn h2 a' b' (ne_good _ _ N2) (attributed_later A _ _ N2 AT) (fun i x I => LS i x (ne_less _ _ N2 i x I)) K2 L2) as (P & Q). split; [exact P|]. intros f h' u E. exact (neutral_trans _ _ _ N2 (Q f h' u E)). }
      assert (CHILD : forall f h1 u, normalize_all A f h c = Ok h1 u -> neutral h h1 /\ kids h1 this = (a ++ [c]) ++ b).
      { intros f h1 u E. pose proof (proj1 (all_spec A f) h c G AT) as NP. rewrite E in NP. destruct NP as (F1 & _). split; [exact (proj1 F1)|]. rewrite (proj1 (proj2 F1)), KT, <- app_assoc; [reflexivity|].
        intros [B|(j & a0 & B & IA & R)]; [apply (proj2 (proj2 (good_tree h G)) c); apply (below_snoc _ _ _ _ B IC)|]. apply (attribute_outside A h c a0 j G AT B IA). apply (below_below _ _ this); [exact R|]. right. apply above_child. exact IC. }
      assert (LB : (length b <= n)%nat) by (cbn in LN; lia).
      split.
      + apply settles_S with (fun f => if has_kind h c KText then
            rbind (merge_texts f h this c (n_next (h c))) (fun h next =>
            rbind (match n_data (h c) with
                   | [] => rbind (vremove h this (Some c)) (fun h _ => Ok h tt)
                   | _ => Ok h tt
                   end) (fun h _ => all_loop A f h this next))
          else rbind (normalize_all A f h c) (fun h' _ => all_loop A f h' this (n_next (h c)))); [reflexivity|].
        destruct (has_kind h c KText) eqn:KC.
        * apply has_kind_eq in KC. apply settles_bind; [rewrite NX; apply merge_settles with (length b) a; auto|].
          intros f h1 nx E. apply settles_bind.
          { destruct (n_data (h1 c)); [|apply settles_now; discriminate]. destruct (vremove h1 this (Some c)) as [h3 r2|e2 h3|] eqn:V; cbn [rbind]; [apply settles_now; discriminate|apply settles_now; discriminate|exfalso; apply (vremove_div _ _ _ V)]. }
          intros f' h2 v E2. destruct (TEXT KC f h1 nx E h2 v E2) as (N2 & a' & b' & -> & K2 & L2). exact (proj1 (STEP h2 a' b' N2 K2 L2)).
        * apply settles_bind; [apply IH; auto|]. intros f h1 u E. destruct (CHILD f h1 u E) as (N1 & K1). rewrite NX. exact (proj1 (STEP h1 (a ++ [c]) b N1 K1 LB)).
      + intros [|f] h' u E; [discriminate|]. cbn [all_loop] in E. destruct (has_kind h c KText) eqn:KC.
        * apply has_kind_eq in KC. destruct (merge_texts f h this c (n_next (h c))) as [h1 nx|e1 h1|] eqn:E1; cbn [rbind] in E; try discriminate.
          destruct (match n_data (h1 c) with [] => rbind (vremove h1 this (Some c)) (fun h _ => Ok h tt) | _ => Ok h1 tt end) as [h2 v|e2 h2|] eqn:E2; cbn [rbind] in E; try discriminate.
          destruct (TEXT KC f h1 nx E1 h2 v E2) as (N2 & a' & b' & -> & K2 & L2). exact (proj2 (STEP h2 a' b' N2 K2 L2) f h' u E).
        * destruct (normalize_all A f h c) as [h1 u1|e1 h1|] eqn:E1; cbn [rbind] in E; try discriminate. destruct (CHILD f h1 u1 E1) as (N1 & K1). rewrite NX in E. exact (proj2 (STEP h1 (a ++ [c]) b N1 K1 LB) f h' u E). }
  destruct (LOOP (length (kids h this)) h [] (kids h this) G AT LS eq_refl (le_n _)) as (P & Q). apply settles_bind; [exact P|]. intros f h1 u E. pose proof (Q f h1 u E) as N1. apply each_settles with h0; [exact FIN|exact (ne_good _ _ N1)|]. intros i x I. apply LS, (ne_less _ _ N1), I.
Qed.
Lemma all_settles : forall A h this, good h -> attributed A h -> (forall x, finite_below h x) -> exists f0 r, r <> Div /\ forall f, (f0 <= f)%nat -> normalize_all A f h this = r.
Proof. intros A h this G AT FB. exact (all_settles_from A h FB this (FB this) h G AT (fun i c I => I)). Qed.
Lemma all_raises : forall A f h this e h', good h -> attributed A h -> kinds_ok h -> frozen_down h -> normalize_all A f h this = Ex e h' ->
  (forall q s, ~ textual h q -> content h q s -> content h' q s) /\ exists n, within A h this n /\ n_ro (h n) = true.
Proof.
  intros A f h this e h' G AT KO FD E. pose proof (proj1 (all_spec A f) h this G AT) as P. rewrite E in P. destruct (P (kinds_texts h KO) FD) as (N & R). split; [exact (ne_text _ _ N)|exact R].
Qed.
(** A second time. *)
Lemma each_normal : forall f attrs h, good h -> Forall (normal_below h) attrs -> normalize_each f h attrs = Ok h tt \/ normalize_each f h attrs = Div.
Proof.
  intros f. induction attrs as [|a attrs IH]; intros h G N; [left; reflexivity|]. inversion N as [|? ? NA NR]; subst. cbn [normalize_each]. destruct (proj1 (normalize_normal f) h a G NA) as [-> | ->]; cbn [rbind]; [exact (IH h G NR)|right; reflexivity].
Qed.
Lemma all_normal : forall A f,
  (forall h this, good h -> normal_below h this -> attrs_normal A h (at_or_below h this) -> normalize_all A f h this = Ok h tt \/ normalize_all A f h this = Div) /\
  (forall h this child a b, good h -> normal_below h this -> attrs_normal A h (at_or_below h this) -> kids h this = a ++ b -> child = first b None ->
     all_loop A f h this child = Ok h tt \/ all_loop A f h this child = Div).
Proof.
  intros A. induction f as [|f [IH1 IH2]]; [split; intros; right; reflexivity|]. split.
  - intros h this G N AN. cbn [normalize_all]. destruct (IH2 h this (first_child h this) [] (kids h this) G N AN eq_refl eq_refl) as [-> | ->]; cbn [rbind]; [|right; reflexivity]. apply each_normal; [exact G|]. apply Forall_forall. intros a IA. apply (AN this a); [left; reflexivity|exact IA].
  - intros h this child a b G N AN KT ->. cbn [all_loop]. destruct b as [|c b]; cbn [first]; [left; reflexivity|].
    assert (IC : In c (kids h this)) by (rewrite KT; apply in_or_app; right; left; reflexivity).
    assert (NX : n_next (h c) = first b None) by (apply nth_first with this a; auto).
    assert (NL := N this (or_introl eq_refl)). destruct NL as [NL1 NL2].
    assert (KT' : kids h this = (a ++ [c]) ++ b) by (rewrite KT, <- app_assoc; reflexivity).
    destruct (has_kind h c KText) eqn:KC.
    + apply has_kind_eq in KC.
      assert (M : merge_texts f h this c (n_next (h c)) = Ok h (first b None) \/ merge_texts f h this c (n_next (h c)) = Div).
      { rewrite NX. destruct f as [|f']; [right; reflexivity|]. cbn [merge_texts].
        destruct b as [|x b]; cbn [first]; [left; reflexivity|].
        destruct (has_kind h x KText) eqn:KX; [|left; reflexivity]. exfalso. apply has_kind_eq in KX.
        apply (NL2 a c x b KT). auto. }
      destruct M as [-> | ->]; cbn [rbind]; [|right; reflexivity].
      destruct (n_data (h c)) as [|z zs] eqn:DC; [exfalso; apply (NL1 c IC KC DC)|]. cbn [rbind].
      apply (IH2 h this _ (a ++ [c]) b); auto.
    + assert (UP : forall j, at_or_below h c j -> at_or_below h this j) by (intros j [->|Q]; right; [apply above_child; exact IC|exact (above_trans h this c j IC Q)]).
      destruct (IH1 h c G (normal_child _ _ _ IC N) (fun j a0 B => AN j a0 (UP j B))) as [-> | ->]; cbn [rbind]; [|right; reflexivity].
      rewrite NX. apply (IH2 h this _ (a ++ [c]) b); auto.
Qed.
Lemma all_again : forall A f f2 h this h' u, good h -> attributed A h -> normalize_all A f h this = Ok h' u -> normalize_all A f2 h' this = Ok h' tt \/ normalize_all A f2 h' this = Div.
Proof.
  intros A f f2 h this h' u G AT E. pose proof (proj1 (all_spec A f) h this G AT) as P. rewrite E in P. destruct P as ((N & _) & D & F). exact (proj1 (all_normal A f2) h' this (ne_good _ _ N) D F).
Qed.
Lemma all_good : forall A f h this h' u, good h -> attributed A h -> normalize_all A f h this = Ok h' u -> good h' /\ attributed A h' /\ forall i, n_kind (h' i) = n_kind (h i).
Proof.
  intros A f h this h' u G AT E. pose proof (proj1 (all_spec A f) h this G AT) as P. rewrite E in P. destruct P as ((N & _) & _). split; [exact (ne_good _ _ N)|]. split; [exact (attributed_later A _ _ N AT)|exact (ne_kind _ _ N)].
Qed.
Lemma all_succeeds : forall A h this, good h -> attributed A h -> kinds_ok h -> frozen_down h -> (forall x, finite_below h x) -> (forall n, within A h this n -> n_ro (h n) = false) ->
  exists f0 h', forall f, (f0 <= f)%nat -> normalize_all A f h this = Ok h' tt.
Proof.
  intros A h this G AT KO FD FB RO. destruct (all_settles A h this G AT FB) as (f0 & r & ND & E). destruct r as [h' []|e h'|]; [exists f0, h'; exact E| |contradiction].
  exfalso. destruct (all_raises A f0 h this e h' G AT KO FD (E f0 (le_n f0))) as (_ & n & W & R). rewrite (RO n W) in R. discriminate.
Qed.
