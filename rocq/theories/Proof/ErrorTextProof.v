From Coq Require Import String.
From Verif.Model Require Import Base XSort ErrorText.
From Verif.Spec Require Import ErrorTextSpec.
From Coq Require Import Lia List ZArith. Import ListNotations. Open Scope Z_scope.

(** * Numbers *)
Lemma decimal_ok : forall fuel n, 0 <= n < 10 ^ Z.of_nat (S fuel) -> is_decimal (decimal_digits (S fuel) n) n.
Proof.
  assert (ONE : forall n, 0 <= n < 10 -> is_decimal [48 + n mod 10] n).
  { intros n H. rewrite Z.mod_small by lia. split; [discriminate|]. split; [constructor; [lia|constructor]|]. split; [cbn [fold_left]; lia|].
    destruct (Z.eq_dec n 0) as [->|N]; [left; reflexivity|right; cbn [hd]; lia]. }
  induction fuel as [|fuel IH]; intros n H.
  - change (10 ^ Z.of_nat 1) with 10 in H. cbn [decimal_digits]. rewrite (Z.div_small n 10) by lia. apply ONE. lia.
  - remember (S fuel) as k eqn:K. cbn [decimal_digits]. destruct (n / 10 =? 0) eqn:E.
    + apply Z.eqb_eq in E. apply ONE. pose proof (Z.div_mod n 10 ltac:(lia)). pose proof (Z.mod_pos_bound n 10 ltac:(lia)). lia.
    + apply Z.eqb_neq in E. pose proof (Z.div_mod n 10 ltac:(lia)) as D. pose proof (Z.mod_pos_bound n 10 ltac:(lia)) as M.
      destruct (IH (n / 10)) as [NE [F [V L]]].
      { split; [apply Z.div_pos; lia|]. apply Z.div_lt_upper_bound; [lia|]. rewrite Nat2Z.inj_succ, Z.pow_succ_r in H by lia. lia. }
      split; [destruct (decimal_digits k (n / 10)); discriminate|]. split; [apply Forall_app; split; [exact F|constructor; [lia|constructor]]|].
      split; [rewrite fold_left_app, V; cbn [fold_left]; lia|]. right. destruct L as [L|L].
      * rewrite L in V. cbn in V. lia.
      * destruct (decimal_digits k (n / 10)) as [|c r]; [congruence|exact L].
Qed.
Lemma decimal_size n : 0 <= n < 2 ^ 64 -> is_decimal (decimal n) n.
Proof. intro H. apply (decimal_ok 63). split; [lia|]. apply Z.lt_trans with (2 ^ 64); [lia|reflexivity]. Qed.

(** * One exception *)
Lemma c_string_whole s : no_nul s -> c_string s = s.
Proof.
  induction s as [|c s IH]; intro N; [reflexivity|]. cbn [c_string]. destruct (c =? 0) eqn:E; [apply Z.eqb_eq in E; subst; elim N; left; reflexivity|].
  f_equal. apply IH. intro I. apply N. right. exact I.
Qed.
Lemma digits_no_nul s n : is_decimal s n -> no_nul s.
Proof. intros [_ [F _]] I. rewrite Forall_forall in F. specialize (F 0 I). lia. Qed.
Lemma no_nul_app a b : no_nul a -> no_nul b -> no_nul (a ++ b).
Proof. intros A B I. apply in_app_iff in I. destruct I as [I|I]; [apply A, I|apply B, I]. Qed.
Lemma made_shows m p y l c : problem_ok (Problem m p y l c) -> shows (make_exception m p y l c) (Problem m p y l c).
Proof.
  intros [N [L C]]. cbn [p_message p_line p_column] in *. unfold make_exception, size_bits. rewrite !Z.mod_small by assumption.
  unfold shows, what. cbn [e_msg e_public e_system e_line e_column p_public p_system p_line p_column]. split; [|repeat split].
  exists (decimal l), (decimal c). cbn [p_line p_column p_message]. pose proof (decimal_size l L) as DL. pose proof (decimal_size c C) as DC. split; [exact DL|]. split; [exact DC|].
  unfold message_text. rewrite (c_string_whole m N). rewrite c_string_whole; [reflexivity|].
  apply no_nul_app; [vm_compute; intuition discriminate|]. apply no_nul_app; [eapply digits_no_nul, DL|]. apply no_nul_app; [intros [E|[]]; discriminate E|].
  apply no_nul_app; [eapply digits_no_nul, DC|]. apply no_nul_app; [intros [E|[]]; discriminate E|exact N].
Qed.
Lemma copied_shows e p : shows e p -> shows (copy_exception e) p.
Proof. intro H. exact H. Qed.
Lemma assigned_shows a e p : shows e p -> shows (assign_exception a e) p.
Proof. intro H. exact H. Qed.
Lemma kept l : forall s t, Forall step_ok l -> (forall v, shows (s v) (t v)) -> forall v, shows (exception_run s l v) (problem_run t l v).
Proof.
  induction l as [|o l IH]; intros s t F H v; [apply H|]. inversion F as [|? ? O F']; subst. cbn [exception_run problem_run fold_left]. apply IH; [exact F'|]. clear v. intro v.
  destruct o as [w m p y ln c|w f|w f]; cbn [exception_run1 problem_run1]; unfold exception_at; (destruct (Nat.eqb v w); [|apply H]).
  - apply made_shows, O.
  - apply copied_shows, H.
  - apply assigned_shows, H.
Qed.

(** * The texts told apart *)
Lemma split_at (P : Z -> Prop) x : ~ P x -> forall a a' b b', Forall P a -> Forall P a' -> a ++ x :: b = a' ++ x :: b' -> a = a' /\ b = b'.
Proof.
  intros N. induction a as [|c a IH]; intros [|c' a'] b b' F F' E; cbn [app] in E.
  - injection E as ->. split; reflexivity.
  - injection E as -> _. inversion F'; contradiction.
  - injection E as <- _. inversion F; contradiction.
  - injection E as -> E. inversion F; inversion F'; subst. destruct (IH a' b b') as [-> ->]; auto.
Qed.
Lemma says_apart s p s' p' r r' : says s p -> says s' p' -> s ++ r = s' ++ r' -> p_line p = p_line p' /\ p_column p = p_column p' /\ p_message p ++ r = p_message p' ++ r'.
Proof.
  intros [l [c [[_ [L1 [L2 _]]] [[_ [C1 [C2 _]]] ->]]]] [l' [c' [[_ [L1' [L2' _]]] [[_ [C1' [C2' _]]] ->]]]] E. rewrite <- !app_assoc in E. apply app_inv_head in E.
  destruct (split_at (fun c => 48 <= c <= 57) 44 ltac:(cbn; lia) l l' _ _ L1 L1' E) as [-> E2].
  destruct (split_at (fun c => 48 <= c <= 57) 10 ltac:(cbn; lia) c c' _ _ C1 C1' E2) as [-> E3]. split; [congruence|]. split; [congruence|exact E3].
Qed.
(** A text that begins with the phrase, or nothing. *)
Definition next (r : str) : Prop := r = [] \/ exists z, r = phrase ++ z.
Lemma prefix_cases (a b c d : str) : a ++ b = c ++ d -> (exists l, a = c ++ l /\ d = l ++ b) \/ (exists l, l <> [] /\ c = a ++ l /\ b = l ++ d).
Proof.
  revert c. induction a as [|x a IH]; intros [|y c] E; cbn [app] in E.
  - left. exists []. split; [reflexivity|]. exact (eq_sym E).
  - right. exists (y :: c). split; [discriminate|]. split; [reflexivity|exact E].
  - left. exists (x :: a). split; [reflexivity|]. exact (eq_sym E).
  - injection E as <- E. destruct (IH c E) as [[l [-> ->]]|[l [NE [-> ->]]]]; [left; exists l; split; reflexivity|right; exists l; split; [exact NE|split; reflexivity]].
Qed.
Lemma message_no_longer m m' r r' l : m' = m ++ l -> r = l ++ r' -> ~ contains phrase m' -> next r -> next r' -> l = [].
Proof.
  intros EM ER NC N N'. destruct l as [|c l]; [reflexivity|]. exfalso. destruct N as [->|[z ->]]; [discriminate ER|].
  destruct (prefix_cases _ _ _ _ ER) as [[k [EP EZ]]|[k [NE [EL _]]]].
  - destruct k as [|d k].
    + rewrite app_nil_r in EP. apply NC. exists m, []. rewrite EM, EP, !app_nil_r. reflexivity.
    + destruct N' as [->|[z' ->]]; [discriminate EZ|]. assert (d = 80) as -> by (unfold phrase in EZ; cbn in EZ; injection EZ as <- _; reflexivity).
      assert (In 80 (tl phrase)) as I by (rewrite EP; cbn [tl app]; apply in_or_app; right; left; reflexivity). vm_compute in I. intuition discriminate.
  - apply NC. exists m, k. rewrite EM, EL. reflexivity.
Qed.
Lemma message_apart m m' r r' : ~ contains phrase m -> ~ contains phrase m' -> next r -> next r' -> m ++ r = m' ++ r' -> m = m' /\ r = r'.
Proof.
  intros C C' N N' E. destruct (prefix_cases _ _ _ _ E) as [[l [EM ER]]|[l [_ [EM ER]]]].
  - assert (l = []) as -> by (eapply message_no_longer; eassumption). rewrite app_nil_r in EM. split; [exact EM|symmetry; exact ER].
  - assert (l = []) as -> by (eapply message_no_longer; eassumption). rewrite app_nil_r in EM. split; [symmetry; exact EM|exact ER].
Qed.
Lemma texts_next es ps : Forall2 shows es ps -> next (concat (map what es)).
Proof. intros [|e p es' ps' [[l [c [_ [_ E]]]] _] _]; [left; reflexivity|right]. cbn [map concat]. rewrite E. eexists. rewrite <- !app_assoc. reflexivity. Qed.
Lemma texts_apart es ps : Forall2 shows es ps -> forall es' ps', Forall2 shows es' ps' -> Forall (fun p => ~ contains phrase (p_message p)) ps -> Forall (fun p => ~ contains phrase (p_message p)) ps' ->
  concat (map what es) = concat (map what es') -> map told ps = map told ps'.
Proof.
  induction 1 as [|e p es ps S F IH]; intros es' ps' F' C C' E; destruct F' as [|e' p' es' ps' S' F'].
  - reflexivity.
  - destruct S' as [[l [c [_ [_ EW]]]] _]. cbn [map concat] in E. rewrite EW in E. discriminate E.
  - destruct S as [[l [c [_ [_ EW]]]] _]. cbn [map concat] in E. rewrite EW in E. discriminate E.
  - inversion C; inversion C'; subst. cbn [map concat] in *. destruct (says_apart _ _ _ _ _ _ (proj1 S) (proj1 S') E) as [E1 [E2 E3]].
    destruct (message_apart (p_message p) (p_message p') (concat (map what es)) (concat (map what es'))) as [E4 E5]; try assumption; try (eapply texts_next; eassumption).
    unfold told at 1 3. rewrite E1, E2, E4. f_equal. eapply IH; eassumption.
Qed.

(** * The handler *)
Lemma catch_since l : forall held errors, errors = concat (map what held) -> fold_left catch1 l errors = concat (map what (since l held)).
Proof.
  induction l as [|o l IH]; intros held errors E; [exact E|].
  assert (forall e, hold errors e = concat (map what (held ++ [e]))) as H by (intro e; unfold hold; rewrite map_app, concat_app, E; cbn [map concat]; rewrite app_nil_r; reflexivity).
  destruct o as [e|e|e|]; cbn [fold_left catch1 since]; apply IH; try apply H; reflexivity.
Qed.
Lemma catch_texts l : catch l = concat (map what (since l [])).
Proof. apply catch_since. reflexivity. Qed.
Lemma reported l : Forall (fun e => exists p, shows e p) (since l []) -> (errors_reported (catch l) = true <-> since l [] <> []).
Proof.
  intro F. rewrite catch_texts. destruct F as [|e es [p [[a [c [_ [_ E]]]] _]] _]; [cbn; split; [discriminate|congruence]|]. cbn [map concat]. rewrite E. split; [discriminate|reflexivity].
Qed.
Lemma handlers_apart l l' ps ps' : Forall2 shows (since l []) ps -> Forall2 shows (since l' []) ps' -> Forall (fun p => ~ contains phrase (p_message p)) ps -> Forall (fun p => ~ contains phrase (p_message p)) ps' ->
  catch l = catch l' -> map told ps = map told ps'.
Proof. intros F F' C C' E. rewrite !catch_texts in E. exact (texts_apart _ _ F _ _ F' C C' E). Qed.
Lemma one_apart e p e' p' : shows e p -> shows e' p' -> what e = what e' -> told p = told p'.
Proof.
  intros S S' E. destruct (says_apart _ _ _ _ [] [] (proj1 S) (proj1 S')) as [A [B C]]; [rewrite E; reflexivity|]. rewrite !app_nil_r in C. unfold told. congruence.
Qed.
