From Verif.Model Require Import Base Chars.
From Verif.Spec Require Import XmlChars.
From Verif.Proof Require Import Tac.

Definition member (c : Z) (rs : list (Z * Z)) : bool :=
  existsb (fun r => within (fst r) (snd r) c) rs.

Lemma member_among c rs : member c rs = true <-> among c rs.
Proof.
  unfold member, among. rewrite existsb_exists. split.
  - intros ((lo, hi) & H1 & H2). exists lo, hi. unfold within in H2. cbn in H2. split; [exact H1|lia].
  - intros (lo & hi & H1 & H2). exists (lo, hi). split; [exact H1|]. unfold within. cbn. lia.
Qed.

Lemma member_app c a b : member c (a ++ b) = member c a || member c b.
Proof. unfold member. apply existsb_app. Qed.

(** A table whose rows are non-empty and increasing loses nothing to the early exit. *)
Fixpoint sorted_from (k : Z) (t : list (Z * Z)) : bool :=
  match t with
  | [] => true
  | (lo, hi) :: t' => (k <? lo) && (lo <=? hi) && sorted_from hi t'
  end.
Lemma sorted_below t : forall k c, sorted_from k t = true -> c <= k -> member c t = false.
Proof.
  induction t as [|[lo hi] t IH]; intros k c H L; [reflexivity|].
  cbn [sorted_from] in H. bsplit. cbn [member existsb fst snd].
  fold (member c t). rewrite (IH hi) by (assumption || lia). unfold within. lia.
Qed.
Lemma base_scan_member t : forall k c, 0 <= k -> sorted_from k t = true ->
  base_scan (t ++ [(0, 0)]) c = member c t.
Proof.
  induction t as [|[lo hi] t IH]; intros k c Hk H; [reflexivity|].
  cbn [sorted_from] in H. bsplit. cbn [app base_scan member existsb fst snd]. fold (member c t).
  destruct (lo =? 0) eqn:E0; [lia|].
  unfold within. destruct (c <? lo) eqn:E1.
  - rewrite (sorted_below t hi) by (assumption || lia). lia.
  - destruct ((lo <=? c) && (c <=? hi)) eqn:E2; [reflexivity|].
    cbn [orb]. apply (IH hi); (assumption || lia).
Qed.

Lemma base_char_spec c : is_base_char c = true <-> among c BaseChar.
Proof.
  rewrite <- member_among. unfold is_base_char.
  replace base_char_ranges with (BaseChar ++ [(0, 0)]) by reflexivity.
  rewrite (base_scan_member BaseChar 0); [reflexivity|lia|vm_compute; reflexivity].
Qed.

Lemma within_one c x : (c =? x) = within x x c.
Proof. unfold within. lia. Qed.
Ltac classes :=
  intros; rewrite <- member_among; match goal with |- ?a = true <-> ?b = true =>
    assert (a = b) as ->; [|reflexivity] end;
  unfold member; cbn [existsb fst snd app]; rewrite ?within_one, ?orb_assoc, ?orb_false_r;
  reflexivity.

Lemma ideographic_spec c : is_ideographic c = true <-> among c Ideographic.
Proof. unfold is_ideographic, Ideographic. classes. Qed.
Lemma digit_spec c : is_digit c = true <-> among c Digit.
Proof. unfold is_digit, Digit. classes. Qed.
Lemma combining_spec c : is_combining_char c = true <-> among c CombiningChar.
Proof. unfold is_combining_char, CombiningChar. classes. Qed.
Lemma extender_spec c : is_extender c = true <-> among c Extender.
Proof. unfold is_extender, Extender. classes. Qed.
Lemma char_spec c : is_char c = true <-> among c Char.
Proof. unfold is_char, Char. classes. Qed.
Lemma space_spec c : is_space c = true <-> among c White.
Proof. unfold is_space, White. classes. Qed.

Lemma among_app c a b : among c (a ++ b) <-> among c a \/ among c b.
Proof. rewrite <- !member_among, member_app, orb_true_iff. tauto. Qed.
Lemma among_one c x : among c [(x, x)] <-> c = x.
Proof. rewrite <- member_among. unfold member. cbn. rewrite orb_false_r, <- within_one. lia. Qed.
Lemma among_cons c r rs : among c (r :: rs) <-> among c [r] \/ among c rs.
Proof. apply (among_app c [r] rs). Qed.

Lemma letter_spec c : is_letter c = true <-> among c Letter.
Proof.
  unfold is_letter, Letter. rewrite among_app, orb_true_iff, base_char_spec, ideographic_spec.
  tauto.
Qed.
Lemma name_char_spec c : is_name_char c = true <-> among c NameChar.
Proof.
  unfold is_name_char, NameChar. rewrite !among_app, !orb_true_iff, letter_spec, digit_spec,
    combining_spec, extender_spec, !Z.eqb_eq.
  rewrite (among_cons c _ [(45, 45); _; _]), (among_cons c _ [(95, 95); _]),
    (among_cons c _ [(58, 58)]), !among_one. tauto.
Qed.
Lemma ncname_char_spec c : is_ncname_char c = true <-> among c NCNameChar.
Proof.
  unfold is_ncname_char, NCNameChar. rewrite !among_app, !orb_true_iff, letter_spec, digit_spec,
    combining_spec, extender_spec, !Z.eqb_eq.
  rewrite (among_cons c _ [(45, 45); _]), (among_cons c _ [(95, 95)]), !among_one. tauto.
Qed.

(** Table-level inclusion and disjointness, decided by computation. *)
Definition covered (a b : list (Z * Z)) : bool :=
  forallb (fun r => existsb (fun q => (fst q <=? fst r) && (snd r <=? snd q)) b) a.
Lemma covered_among a b c : covered a b = true -> among c a -> among c b.
Proof.
  unfold covered. rewrite forallb_forall. intros H (lo & hi & H1 & H2).
  specialize (H _ H1). apply existsb_exists in H. destruct H as ((l2 & h2) & H3 & H4).
  cbn in H4. exists l2, h2. split; [exact H3|lia].
Qed.
Definition apart (a b : list (Z * Z)) : bool :=
  forallb (fun r => forallb (fun q => (snd r <? fst q) || (snd q <? fst r)) b) a.
Lemma apart_among a b c : apart a b = true -> among c a -> among c b -> False.
Proof.
  unfold apart. rewrite forallb_forall. intros H (lo & hi & H1 & H2) (l2 & h2 & H3 & H4).
  specialize (H _ H1). rewrite forallb_forall in H. specialize (H _ H3). cbn in H. lia.
Qed.

Lemma name_char_is_char c : is_name_char c = true -> is_char c = true /\ is_space c = false.
Proof.
  rewrite name_char_spec, char_spec. intros H. split.
  - revert H. apply covered_among. vm_compute. reflexivity.
  - destruct (is_space c) eqn:E; [|reflexivity]. exfalso. rewrite space_spec in E.
    revert H E. apply apart_among. vm_compute. reflexivity.
Qed.
Lemma classes_disjoint c :
  (is_letter c = true -> is_digit c = false /\ is_combining_char c = false /\ is_extender c = false)
  /\ (is_digit c = true -> is_combining_char c = false /\ is_extender c = false)
  /\ (is_combining_char c = true -> is_extender c = false)
  /\ (is_base_char c = true -> is_ideographic c = false).
Proof.
  assert (K : forall (b : bool) (P : Prop), (b = true -> P) -> (P -> False) -> b = false).
  { intros [|] P F G; [exfalso; auto|reflexivity]. }
  assert (D : forall a b f, apart a b = true -> (f c = true <-> among c b) ->
              among c a -> f c = false).
  { intros a b f A E M. apply (K _ (among c b)); [apply E|].
    intros M2. exact (apart_among a b c A M M2). }
  rewrite letter_spec. repeat split; try (intros H).
  - apply (D Letter Digit); [vm_compute; reflexivity|apply digit_spec|exact H].
  - apply (D Letter CombiningChar); [vm_compute; reflexivity|apply combining_spec|exact H].
  - apply (D Letter Extender); [vm_compute; reflexivity|apply extender_spec|exact H].
  - apply (D Digit CombiningChar); [vm_compute; reflexivity|apply combining_spec|].
    apply digit_spec; exact H.
  - apply (D Digit Extender); [vm_compute; reflexivity|apply extender_spec|].
    apply digit_spec; exact H.
  - apply (D CombiningChar Extender); [vm_compute; reflexivity|apply extender_spec|].
    apply combining_spec; exact H.
  - apply (D BaseChar Ideographic); [vm_compute; reflexivity|apply ideographic_spec|].
    apply base_char_spec; exact H.
Qed.
