From Coq Require Import String List ZArith Bool Lia.
From Coq Require Import List.
Import ListNotations.
Open Scope Z_scope.
From Verif.Model Require Import Base Attrs Sax XSort Garden.

(** Every parser comes to an end, at or after the place where it began. *)
Section Ends.
  Context (n : nat).
  Definition safe (m : nat) (p : parser) : Prop := forall g s, (length s < m)%nat ->
    exists ok g' r, p g s = Res ok g' r /\ (length r <= length s)%nat.
  Definition eats (m : nat) (p : parser) : Prop := forall g s, (length s < m)%nat ->
    exists ok g' r, p g s = Res ok g' r /\ (length r <= length s)%nat /\ (ok = true -> (length r < length s)%nat).
  Ltac fin := split; [reflexivity|split; [cbn [length] in *; lia|first [discriminate|intros _; cbn [length] in *; lia]]].
  Lemma eats_safe m p : eats m p -> safe m p.
  Proof. intros E g s L. destruct (E g s L) as (ok & g' & r & H & K & _). eauto 6. Qed.
  Lemma safe_seq m a b : safe m a -> safe m b -> safe m (seq a b).
  Proof.
    intros A B g s L. unfold seq. destruct (A g s L) as ([] & g' & r & -> & K); [|eauto 6].
    destruct (B g' r) as (ok & g2 & r2 & -> & K2); [lia|]. exists ok, g2, r2. split; [reflexivity|lia].
  Qed.
  Lemma eats_seq m a b : eats m a -> safe m b -> eats m (seq a b).
  Proof.
    intros A B g s L. unfold seq. destruct (A g s L) as ([] & g' & r & -> & K & K').
    - destruct (B g' r) as (ok & g2 & r2 & -> & K2); [lia|]. specialize (K' eq_refl).
      exists ok, g2, r2. split; [reflexivity|split; [lia|intros _; lia]].
    - exists false, g', r. fin.
  Qed.
  (** After something was eaten there is less to read. *)
  Lemma eats_then m a b : eats (S m) a -> safe m b -> eats (S m) (seq a b).
  Proof.
    intros A B g s L. unfold seq. destruct (A g s L) as ([] & g' & r & -> & K & K').
    - specialize (K' eq_refl). destruct (B g' r) as (ok & g2 & r2 & -> & K2); [lia|].
      exists ok, g2, r2. split; [reflexivity|split; [lia|intros _; lia]].
    - exists false, g', r. fin.
  Qed.
  Lemma eats_seq_r m a b : safe m a -> eats m b -> eats m (seq a b).
  Proof.
    intros A B g s L. unfold seq. destruct (A g s L) as ([] & g' & r & -> & K).
    - destruct (B g' r) as (ok & g2 & r2 & -> & K2 & K3); [lia|].
      exists ok, g2, r2. split; [reflexivity|split; [lia|intro H; specialize (K3 H); lia]].
    - exists false, g', r. fin.
  Qed.
  Lemma safe_alt m a b : safe m a -> safe m b -> safe m (alt a b).
  Proof.
    intros A B g s L. unfold alt. destruct (A g s L) as ([] & g' & r & -> & K); [eauto 6|]. apply B, L.
  Qed.
  Lemma eats_alt m a b : eats m a -> eats m b -> eats m (alt a b).
  Proof.
    intros A B g s L. unfold alt. destruct (A g s L) as ([] & g' & r & -> & K); [eauto 8|]. apply B, L.
  Qed.
  Lemma safe_opt m a : safe m a -> safe m (opt a).
  Proof.
    intros A g s L. unfold opt. destruct (A g s L) as ([] & g' & r & -> & K); eauto 6.
  Qed.
  Lemma safe_act m f a : safe m a -> safe m (act f a).
  Proof. intros A g s L. unfold act. destruct (A g s L) as ([] & g' & r & -> & K); eauto 6. Qed.
  Lemma eats_act m f a : eats m a -> eats m (act f a).
  Proof. intros A g s L. unfold act. destruct (A g s L) as ([] & g' & r & -> & K); eauto 8. Qed.
  Lemma eats_chr m p : eats m (chr p).
  Proof.
    intros g [|c s] L; cbn.
    - exists false, g, []. fin.
    - destruct (p c); [exists true, g, s|exists false, g, (c :: s)]; fin.
  Qed.
  Lemma safe_text m f t : safe m (text_p f t).
  Proof.
    intros g s L. clear L. revert s. induction t as [|c t IH]; intros [|d s]; cbn [text_p].
    - exists true, g, []. split; [reflexivity|lia].
    - exists true, g, (d :: s). split; [reflexivity|lia].
    - exists false, g, []. split; [reflexivity|lia].
    - destruct (c =? f d); [|exists false, g, (d :: s); split; [reflexivity|lia]].
      destruct (IH s) as (ok & g' & r & E & K). exists ok, g', r. split; [exact E|cbn [length]; lia].
  Qed.
  Lemma eats_text m f c t : eats m (text_p f (c :: t)).
  Proof.
    intros g [|d s] L; cbn [text_p].
    - exists false, g, []. fin.
    - destruct (c =? f d).
      + cbn [length] in L. destruct (safe_text m f t g s) as (ok & g' & r & E & K); [lia|].
        exists ok, g', r. split; [exact E|]. cbn [length]. split; [lia|intros _; lia].
      + exists false, g, (d :: s). fin.
  Qed.
  Lemma safe_diff m a b : safe m a -> safe m b -> safe m (diff a b).
  Proof.
    intros A B g s L. unfold diff. destruct (A g s L) as ([] & g' & r & -> & K); [|eauto 6].
    destruct (B g' s L) as ([] & g2 & r2 & -> & K2); [destruct (_ <? _)%nat|]; eauto 6.
  Qed.
  Lemma eats_diff m a b : eats m a -> safe m b -> eats m (diff a b).
  Proof.
    intros A B g s L. unfold diff. destruct (A g s L) as ([] & g' & r & -> & K).
    - destruct (B g' s L) as ([] & g2 & r2 & -> & K2); [destruct (_ <? _)%nat|]; eauto 8.
      exists false, g2, r2. fin.
    - exists false, g', r. tauto.
  Qed.
  Lemma safe_star a : eats n a -> safe n (star n a).
  Proof.
    intros A. assert (K : forall f g s, (length s < n)%nat -> (length s < f)%nat ->
      exists ok g' r, star f a g s = Res ok g' r /\ (length r <= length s)%nat).
    { induction f as [|f IH]; intros g s L F; [lia|]. cbn [star].
      destruct (A g s L) as ([] & g' & r & -> & K & K'); [|exists true, g', s; split; [reflexivity|lia]].
      specialize (K' eq_refl). destruct (IH g' r) as (ok & g2 & r2 & E & K2); [lia|lia|].
      exists ok, g2, r2. split; [exact E|lia]. }
    intros g s L. apply K; exact L.
  Qed.
  Lemma eats_plus a : eats n a -> eats n (plus n a).
  Proof. intro A. apply eats_seq; [exact A|apply safe_star, A]. Qed.

  Context (signed has_content has_errors : bool).
  Lemma eats_lit m (t : str) : (exists c u, t = c :: u) -> eats m (str_p t).
  Proof. intros (c & u & ->). apply eats_text. Qed.
  Ltac lit := apply eats_lit; (eexists; eexists; reflexivity).
  Lemma eats_spaces : eats n (Spaces n).
  Proof. apply eats_plus, eats_chr. Qed.
  Lemma eats_name : eats n (Name n).
  Proof. apply eats_seq; [apply eats_chr|apply safe_star, eats_chr]. Qed.
  Lemma safe_lit m t : safe m (str_p t).
  Proof. apply safe_text. Qed.
  Lemma safe_eq : safe n (Eq n).
  Proof.
    apply safe_seq; [apply safe_opt, eats_safe, eats_spaces|].
    apply safe_seq; [apply eats_safe, eats_chr|apply safe_opt, eats_safe, eats_spaces].
  Qed.
  Lemma safe_chardata : safe n (CharData has_content n).
  Proof. apply safe_act, safe_star, eats_diff; [apply eats_chr|apply safe_lit]. Qed.
  Lemma eats_comment : eats n (Comment_ signed n).
  Proof.
    apply eats_seq; [lit|]. apply safe_seq; [|apply safe_lit].
    apply safe_star, eats_alt; [apply eats_chr|]. apply eats_seq; [apply eats_chr|apply eats_safe, eats_chr].
  Qed.
  Lemma eats_pi : eats n (PI_ signed has_content n).
  Proof.
    apply eats_seq; [lit|].
    apply safe_seq; [apply safe_act, safe_diff; [apply eats_safe, eats_name|apply safe_text]|].
    apply safe_seq; [apply safe_opt, eats_safe, eats_spaces|].
    apply safe_seq; [|apply safe_act, safe_lit].
    apply safe_act, safe_opt, safe_seq; [apply safe_opt, eats_safe, eats_spaces|].
    apply safe_star, eats_diff; [apply eats_chr|apply safe_lit].
  Qed.
  Lemma eats_section : eats n (CDSect signed has_content n).
  Proof.
    apply eats_seq; [lit|]. apply safe_seq; [|apply safe_lit].
    apply safe_act, safe_star, eats_diff; [apply eats_chr|apply safe_lit].
  Qed.
  Lemma eats_reference : eats n (Reference has_content has_errors n).
  Proof.
    apply eats_alt.
    - apply eats_seq; [apply eats_chr|].
      apply safe_act, safe_seq; [apply eats_safe, eats_name|apply eats_safe, eats_chr].
    - apply eats_alt.
      + apply eats_seq; [lit|].
        apply safe_act, safe_seq; [apply eats_safe, eats_plus, eats_chr|apply eats_safe, eats_chr].
      + apply eats_seq; [lit|].
        apply safe_act, safe_seq; [apply eats_safe, eats_plus, eats_chr|apply eats_safe, eats_chr].
  Qed.
  Lemma safe_value q : safe n (value_until has_content has_errors n q).
  Proof. apply safe_star, eats_alt; [apply eats_chr|apply eats_reference]. Qed.
  Lemma safe_attribute : safe n (Attribute has_content has_errors n).
  Proof.
    apply safe_seq; [apply safe_act, eats_safe, eats_name|].
    apply safe_seq; [apply safe_eq|].
    apply safe_alt; (apply safe_seq; [apply eats_safe, eats_chr|]);
      (apply safe_seq; [apply safe_act, safe_value|apply eats_safe, eats_chr]).
  Qed.
  Lemma eats_stag : eats n (STag has_content has_errors n).
  Proof.
    apply eats_seq; [apply eats_chr|].
    apply safe_seq; [apply safe_act, eats_safe, eats_name|].
    apply safe_seq; [|apply safe_opt, eats_safe, eats_spaces].
    apply safe_star, eats_seq; [apply eats_spaces|apply safe_attribute].
  Qed.
  Lemma safe_etag : safe n (ETag has_content has_errors n).
  Proof.
    apply safe_act, safe_seq; [apply safe_lit|].
    apply safe_seq; [apply safe_act, eats_safe, eats_name|].
    apply safe_seq; [apply safe_opt, eats_safe, eats_spaces|apply eats_safe, eats_chr].
  Qed.

  (** Elements: the depth runs out no sooner than the text. *)
  Definition within_ (m : nat) (p : parser) : Prop := forall g s, (length s < n)%nat -> (length s < m)%nat ->
    exists ok g' r, p g s = Res ok g' r /\ (length r <= length s)%nat /\ (ok = true -> (length r < length s)%nat).
  Lemma within_content m e : within_ m e -> forall g s, (length s < n)%nat -> (length s < m)%nat ->
    exists ok g' r, content signed has_content has_errors n e g s = Res ok g' r /\ (length r <= length s)%nat.
  Proof.
    intros E g s L M. unfold content, seq at 1.
    destruct (safe_opt n _ safe_chardata g s L) as ([] & g1 & r1 & -> & K1); [|eauto 6].
    set (item := seq (alt e (alt (Reference has_content has_errors n) (alt (CDSect signed has_content n)
      (alt (Comment_ signed n) (PI_ signed has_content n))))) (opt (CharData has_content n))).
    assert (I : within_ m item).
    { intros g0 s0 L0 M0. unfold item, seq, alt at 1.
      assert (O : eats n (alt (Reference has_content has_errors n) (alt (CDSect signed has_content n)
        (alt (Comment_ signed n) (PI_ signed has_content n))))).
      { apply eats_alt; [apply eats_reference|]. apply eats_alt; [apply eats_section|].
        apply eats_alt; [apply eats_comment|apply eats_pi]. }
      assert (F : forall g s, (length s < n)%nat -> exists ok g' r, opt (CharData has_content n) g s = Res ok g' r
                  /\ (length r <= length s)%nat) by (exact (safe_opt n _ safe_chardata)).
      destruct (E g0 s0 L0 M0) as ([] & g2 & r2 & -> & K2 & K3).
      - specialize (K3 eq_refl). destruct (F g2 r2) as (ok & g3 & r3 & -> & K4); [lia|].
        exists ok, g3, r3. split; [reflexivity|split; [lia|intros _; lia]].
      - destruct (O g2 s0 L0) as ([] & g3 & r3 & -> & K4 & K5).
        + specialize (K5 eq_refl). destruct (F g3 r3) as (ok & g4 & r4 & -> & K6); [lia|].
          exists ok, g4, r4. split; [reflexivity|split; [lia|intros _; lia]].
        + exists false, g3, r3. fin. }
    assert (K : forall f g s, (length s < n)%nat -> (length s < m)%nat -> (length s < f)%nat ->
      exists ok g' r, star f item g s = Res ok g' r /\ (length r <= length s)%nat).
    { induction f as [|f IH]; intros g2 s2 L2 M2 F2; [lia|]. cbn [star].
      destruct (I g2 s2 L2 M2) as ([] & g' & r & -> & Q & Q'); [|exists true, g', s2; split; [reflexivity|lia]].
      specialize (Q' eq_refl). destruct (IH g' r) as (ok & g3 & r3 & X & K3); [lia|lia|lia|].
      exists ok, g3, r3. split; [exact X|lia]. }
    destruct (K n g1 r1) as (ok & g2 & r2 & X & K2); [lia|lia|lia|].
    exists ok, g2, r2. split; [exact X|lia].
  Qed.
  Lemma within_element d : within_ d (element signed has_content has_errors n d).
  Proof.
    induction d as [|d IH]; intros g s L M; [lia|]. cbn [element]. unfold seq at 1.
    destruct (eats_stag g s L) as ([] & g1 & r1 & -> & K & K').
    2:{ exists false, g1, r1. fin. }
    specialize (K' eq_refl). unfold alt at 1.
    assert (X : eats n (EmptyElemTag has_content)) by (apply eats_act; lit).
    destruct (X g1 r1) as ([] & g2 & r2 & -> & K2 & _); [lia| |].
    { exists true, g2, r2. split; [reflexivity|split; [lia|intros _; lia]]. }
    unfold seq at 1.
    assert (Y : eats n (act (close_element has_content) (str_p [62]))) by (apply eats_act; lit).
    destruct (Y g2 r1) as ([] & g3 & r3 & -> & K3 & _); [lia| |].
    2:{ exists false, g3, r3. fin. }
    unfold seq at 1.
    destruct (within_content d _ IH g3 r3) as ([] & g4 & r4 & -> & K4); [lia|lia| |].
    2:{ exists false, g4, r4. fin. }
    destruct (safe_etag g4 r4) as (ok & g5 & r5 & -> & K5); [lia|].
    exists ok, g5, r5. split; [reflexivity|split; [lia|intros _; lia]].
  Qed.

  Lemma eats_misc : eats n (Misc signed has_content n).
  Proof. apply eats_alt; [apply eats_comment|]. apply eats_alt; [apply eats_spaces|apply eats_pi]. Qed.
  Lemma safe_two a b p : safe n p -> safe n (alt (seq (chr a) (seq p (chr a))) (seq (chr b) (seq p (chr b)))).
  Proof.
    intro P. apply safe_alt; (apply safe_seq; [apply eats_safe, eats_chr|]);
      (apply safe_seq; [exact P|apply eats_safe, eats_chr]).
  Qed.
  Lemma safe_prolog : safe n (prolog signed has_content n).
  Proof.
    assert (V : forall nm a b p, safe n p ->
      safe n (seq (Spaces n) (seq (str_p nm) (seq (Eq n)
        (alt (seq (chr a) (seq p (chr a))) (seq (chr b) (seq p (chr b)))))))).
    { intros nm a b p P. apply safe_seq; [apply eats_safe, eats_spaces|].
      apply safe_seq; [apply safe_lit|]. apply safe_seq; [apply safe_eq|apply safe_two, P]. }
    apply safe_seq.
    - apply safe_opt, safe_seq; [apply safe_lit|].
      apply safe_seq; [apply V, eats_safe, eats_plus, eats_chr|].
      apply safe_seq; [apply safe_opt, V, safe_seq; [apply eats_safe, eats_chr|apply safe_star, eats_chr]|].
      apply safe_seq; [apply safe_opt, V, safe_alt; apply safe_lit|].
      apply safe_seq; [apply safe_opt, eats_safe, eats_spaces|apply safe_lit].
    - apply safe_seq; [apply safe_star, eats_misc|].
      apply safe_opt, safe_seq; [|apply safe_star, eats_misc].
      apply safe_seq; [apply safe_lit|]. apply safe_seq; [apply safe_star, eats_chr|].
      apply safe_seq; [|apply eats_safe, eats_chr].
      apply safe_opt, safe_seq; [apply eats_safe, eats_chr|].
      apply safe_seq; [apply safe_star, eats_chr|apply eats_safe, eats_chr].
  Qed.
  Lemma document_ends d g s : (length s < n)%nat -> (length s < d)%nat ->
    exists ok g' r, document signed has_content has_errors n d g s = Res ok g' r /\ (length r <= length s)%nat.
  Proof.
    intros L D. unfold document, seq at 1.
    destruct (safe_prolog g s L) as ([] & g1 & r1 & -> & K1); [|eauto 6].
    unfold seq. destruct (within_element d g1 r1) as ([] & g2 & r2 & -> & K2 & _); [lia|lia| |].
    2:{ exists false, g2, r2. split; [reflexivity|lia]. }
    destruct (safe_star _ eats_misc g2 r2) as (ok & g3 & r3 & -> & K3); [lia|].
    exists ok, g3, r3. split; [reflexivity|lia].
  Qed.
End Ends.

Lemma parse_ends signed has_content has_errors s : parse signed has_content has_errors s <> NoFuel.
Proof.
  unfold parse.
  destruct (document_ends (S (length s)) signed has_content has_errors (S (length s))
              (say has_content StartDocument new_garden) s) as (ok & g & r & -> & _); [lia|lia|].
  destruct ok, r; try destruct (_ <? _)%nat; discriminate.
Qed.
Lemma parse_short signed has_content has_errors s ok l :
  (length s < 50)%nat -> parse signed has_content has_errors s = Val (ok, l) -> ok = true.
Proof.
  intro L. unfold parse.
  destruct (document_ends (S (length s)) signed has_content has_errors (S (length s))
              (say has_content StartDocument new_garden) s) as (k & g & r & -> & K); [lia|lia|].
  assert (B : (length r <? 50)%nat = true) by (apply Nat.ltb_lt; lia).
  destruct k, r as [|c r]; try (intros [= <- _]; reflexivity); rewrite B; discriminate.
Qed.
Lemma parse_short' signed has_content has_errors s :
  (length s < 50)%nat ->
  parse signed has_content has_errors s = UB \/ exists l, parse signed has_content has_errors s = Val (true, l).
Proof.
  intro L. pose proof (parse_ends signed has_content has_errors s) as N.
  pose proof (parse_short signed has_content has_errors s) as K.
  destruct (parse signed has_content has_errors s) as [[ok l]| |]; [right|left; reflexivity|contradiction].
  exists l. rewrite (K ok l L eq_refl). reflexivity.
Qed.
