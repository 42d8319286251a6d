(** Escaping in comments and processing instructions. *)
From Coq Require Import String.
From Verif.Model Require Import Base Uri Attrs XSort XOutput.
From Verif.Spec Require Import XOutputSpec.
From Verif.Proof Require Import Tac.
From Coq Require Import List Lia.
Import ListNotations.
Open Scope Z_scope.

Section Escape.
  Variable x y : Z.
  Hypothesis X : x <> 32.
  Hypothesis Y : y <> 32.
  Fixpoint esc (s : str) : str :=
    match s with
    | a :: r => match r with b :: _ => if (a =? x) && (b =? y) then x :: 32 :: esc r else a :: esc r | [] => [a] end
    | [] => []
    end.
  Lemma scan_ok : forall s pos, match scan_sub [x; y] s pos with
    | None => esc s = s
    | Some q => exists a b, q = (pos + length a)%nat /\ s = a ++ x :: y :: b /\ esc s = a ++ x :: 32 :: esc (y :: b)
    end.
  Proof.
    induction s as [|c s IH]; intros pos; [reflexivity|]. cbn [scan_sub is_prefix]. destruct s as [|d s].
    - rewrite andb_false_r. reflexivity.
    - rewrite andb_true_r. rewrite (Z.eqb_sym x c), (Z.eqb_sym y d). destruct ((c =? x) && (d =? y)) eqn:E.
      + apply andb_prop in E. destruct E as (E1 & E2). apply Z.eqb_eq in E1, E2. subst c d. exists [], s. split; [cbn [length]; lia|]. split; [reflexivity|]. cbn [esc app]. rewrite !Z.eqb_refl. reflexivity.
      + specialize (IH (S pos)). assert (F : esc (c :: d :: s) = c :: esc (d :: s)) by (cbn [esc]; rewrite E; reflexivity). destruct (scan_sub [x; y] (d :: s) (S pos)) as [q|].
        * destruct IH as (a & b & -> & E1 & E2). exists (c :: a), b. split; [cbn [length]; lia|]. split; [rewrite E1; reflexivity|]. rewrite F, E2. reflexivity.
        * rewrite F, IH. reflexivity.
  Qed.
  Lemma loop_ok : forall n s, (length s <= n)%nat -> forall pre from fuel, (from <= length pre)%nat ->
    scan_sub [x; y] (skipn from (pre ++ s)) from = scan_sub [x; y] s (length pre) -> (length s <= fuel)%nat -> escape_loop fuel [x; y] [x; 32; y] (pre ++ s) from = Some (pre ++ esc s).
  Proof.
    induction n as [|n IH]; intros s LN pre from fuel FR H FU.
    - destruct s; [|cbn in LN; lia]. assert (E : find_sub [x; y] (pre ++ []) from = None).
      { unfold find_sub. destruct (Nat.ltb (length (pre ++ [])) from); [reflexivity|]. rewrite H. reflexivity. }
      destruct fuel; cbn [escape_loop]; rewrite E; reflexivity.
    - assert (E : find_sub [x; y] (pre ++ s) from = scan_sub [x; y] s (length pre)). { unfold find_sub. destruct (Nat.ltb_spec (length (pre ++ s)) from); [rewrite app_length in *; lia|exact H]. }
      pose proof (scan_ok s (length pre)) as SO. destruct (scan_sub [x; y] s (length pre)) as [q|] eqn:ES.
      + destruct SO as (a & b & -> & -> & E2). rewrite app_length in LN, FU. cbn [length] in LN, FU. destruct fuel as [|fuel]; [lia|]. cbn [escape_loop]. rewrite E. cbn [length].
        assert (A : firstn (length pre + length a) (pre ++ a ++ x :: y :: b) ++ [x; 32; y] ++ skipn (length pre + length a + 2) (pre ++ a ++ x :: y :: b) = ((pre ++ a) ++ [x; 32]) ++ y :: b).
        { replace (pre ++ a ++ x :: y :: b) with ((pre ++ a) ++ x :: y :: b) by (rewrite <- app_assoc; reflexivity). rewrite <- app_length. rewrite firstn_app, Nat.sub_diag, firstn_all, firstn_O, app_nil_r. rewrite skipn_app. rewrite skipn_all2 by lia. replace (length (pre ++ a) + 2 - length (pre ++ a))%nat with 2%nat by lia. rewrite <- !app_assoc. reflexivity. }
        rewrite A. rewrite IH.
        * rewrite E2, <- !app_assoc. reflexivity.
        * cbn [length]. lia.
        * rewrite !app_length. lia.
        * rewrite <- app_length. rewrite <- (app_assoc (pre ++ a)). rewrite skipn_app, skipn_all, Nat.sub_diag, skipn_O. cbn [app]. rewrite (app_length (pre ++ a)). cbn [length scan_sub is_prefix]. 
          replace (y =? 32) with false by (symmetry; apply Z.eqb_neq; exact Y). replace (x =? 32) with false by (symmetry; apply Z.eqb_neq; exact X). rewrite andb_false_r. cbn [andb]. replace (length (pre ++ a) + 2)%nat with (S (S (length (pre ++ a)))) by lia. reflexivity.
        * cbn [length]. lia.
      + destruct fuel; cbn [escape_loop]; rewrite E, SO; reflexivity.
  Qed.
  Lemma escape_ok : forall s, escape [x; y] [x; 32; y] s = Some (esc s).
  Proof. intros s. unfold escape. apply (loop_ok (length s) s (le_n _) [] O); auto. Qed.
  Lemma esc_head : forall s, match s with [] => esc s = [] | a :: _ => exists r, esc s = a :: r end.
  Proof. intros [|a [|b r]]; cbn [esc]; eauto. destruct ((a =? x) && (b =? y)) eqn:E; [apply andb_prop in E; destruct E as (E1 & _); apply Z.eqb_eq in E1; subst a; eauto|eauto]. Qed.
  Lemma esc_free : forall s, ~ occurs [x; y] (esc s).
  Proof.
    induction s as [|a s IH]; intros (u & v & E); [destruct u; discriminate|]. destruct s as [|b s].
    - destruct u as [|? [|? ?]]; discriminate.
    - pose proof (esc_head (b :: s)) as (r & HR). assert (K : forall c t, esc (a :: b :: s) = c :: t -> occurs [x; y] t -> occurs [x; y] (esc (b :: s)) \/ exists t', t = 32 :: t' /\ t' = esc (b :: s)).
      { intros c t ET O. cbn [esc] in ET. destruct ((a =? x) && (b =? y)); injection ET as _ ET; [right; eauto|left; cbn [esc]; rewrite ET; exact O]. }
      destruct u as [|c u].
      + cbn [app] in E. cbn [esc] in E. fold (esc (b :: s)) in E. destruct ((a =? x) && (b =? y)) eqn:B; [injection E; intros; congruence|]. change (a :: esc (b :: s) = x :: y :: v) in E. rewrite HR in E. injection E as -> -> _. rewrite !Z.eqb_refl in B. discriminate.
      + destruct (K c (u ++ [x; y] ++ v) E) as [O|(t' & T & ->)]; [exists u, v; reflexivity|exact (IH O)|]. destruct u as [|c' u]; [injection T as T; congruence|]. injection T as _ T. apply IH. exists u, v. exact (eq_sym T).
  Qed.
  Lemma esc_spaced : forall s, spaced s (esc s).
  Proof.
    induction s as [|a s IH]; [constructor|]. destruct s as [|b s]; [repeat constructor|]. cbn [esc]. destruct ((a =? x) && (b =? y)) eqn:E.
    - apply andb_prop in E. destruct E as (E1 & _). apply Z.eqb_eq in E1. subst a. constructor. constructor. exact IH.
    - constructor. exact IH.
  Qed.
End Escape.

Lemma spaced_end : forall s r, spaced s r -> spaced s (r ++ [32]).
Proof. intros s r H. induction H; cbn [app]; repeat constructor; assumption. Qed.
Lemma ends_ok : forall c s, ends_in c s = true <-> last_is c s.
Proof.
  intros c s. unfold ends_in, last_is. split.
  - intros H. destruct (rev s) as [|d r] eqn:E; [discriminate|]. apply Z.eqb_eq in H. subst d. exists (rev r). rewrite <- (rev_involutive s), E. reflexivity.
  - intros (a & ->). rewrite rev_app_distr. cbn [rev app]. apply Z.eqb_refl.
Qed.
Lemma comment_lemma : forall s, exists r, comment_text s = Some r /\ comment_ok r /\ spaced s r.
Proof.
  intros s. unfold comment_text. change (ascii_str "--") with [45; 45]. change (ascii_str "- -") with [45; 32; 45]. rewrite escape_ok by discriminate. set (c := esc 45 45 s). assert (F : ~ occurs [45; 45] c) by (apply esc_free; discriminate). assert (SP : spaced s c) by (apply esc_spaced). eexists. split; [reflexivity|]. destruct (ends_in 45 c) eqn:E.
  - split; [split|apply spaced_end; exact SP].
    + change (ascii_str "--") with [45; 45]. intros (a & b & H). destruct b as [|z b] using rev_ind; [|clear IHb].
      * apply ends_ok in E. rewrite app_nil_r in H. change [45; 45] with ([45] ++ [45]) in H. rewrite app_assoc in H. apply app_inj_tail in H. destruct H as (_ & H). discriminate.
      * rewrite !app_assoc in H. apply app_inj_tail in H. destruct H as (H & _). apply F. exists a, b. rewrite H, <- app_assoc. reflexivity.
    + intros (a & H). apply app_inj_tail in H. destruct H as (_ & H). discriminate.
  - split; [split; [exact F|]|exact SP]. intros L. apply ends_ok in L. congruence.
Qed.
Lemma pi_lemma : forall s, exists r, pi_text s = Some r /\ pi_ok r /\ spaced s r.
Proof.
  intros s. unfold pi_text. change (ascii_str "?>") with [63; 62]. change (ascii_str "? >") with [63; 32; 62]. rewrite escape_ok by discriminate. eexists. split; [reflexivity|]. split; [apply esc_free; discriminate|apply esc_spaced].
Qed.
