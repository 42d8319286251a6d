From Coq Require Import Lia.
From Verif.Proof Require Import XRunProof.
From Verif.Model Require Import Base XNode XOutput Precedence Template XRun.
From Verif.Spec Require Import PrecedenceSpec TemplateSpec XRunSpec.
From Coq Require Import List.
Import ListNotations.
Open Scope Z_scope.

(** * More fuel *)
Definition same (r r' : result) : Prop := r <> Exhausted -> r' = r.
Lemma same_refl : forall r, same r r.
Proof. intros r _. reflexivity. Qed.
Lemma same_after : forall r r' k k', same r r' -> (forall s, same (k s) (k' s)) -> same (after r k) (after r' k').
Proof.
  intros r r' k k' R K N. destruct r as [o s| |]; cbn [after] in *; [|rewrite R by discriminate; reflexivity|congruence].
  rewrite R by discriminate. cbn [after]. destruct (k s) eqn:E; [| |congruence]; rewrite (K s), E; try reflexivity; rewrite E; discriminate.
Qed.
Lemma same_wrap : forall g r r', same r r' -> same (wrap g r) (wrap g r').
Proof. intros g r r' R N. destruct r; cbn [wrap] in *; [rewrite R by discriminate; reflexivity|rewrite R by discriminate; reflexivity|congruence]. Qed.
Lemma same_restore : forall n r r', same r r' -> same (restore_last n r) (restore_last n r').
Proof. intros n r r' R N. destruct r; cbn [restore_last] in *; [rewrite R by discriminate; reflexivity|rewrite R by discriminate; reflexivity|congruence]. Qed.
Lemma same_value {A} : forall (o : option A) k k', (forall v, same (k v) (k' v)) -> same (with_value o k) (with_value o k').
Proof. intros [v|] k k' K; [apply K|apply same_refl]. Qed.
Lemma same_start : forall k p l u s b b', same (b tt) (b' tt) -> same (start k p l u s b) (start k p l u s b').
Proof. intros k p l u s b b' B. unfold start. destruct (k_inside k); [apply same_refl|apply same_wrap; exact B]. Qed.

Lemma steady : forall f h n,
  (forall k x a s, same (perform f h n k x a s) (perform f h (S n) k x a s)) /\
  (forall k x l s, same (perform_all f h n k x l s) (perform_all f h (S n) k x l s)) /\
  (forall k l nodes p s, same (perform_each f h n k l nodes p s) (perform_each f h (S n) k l nodes p s)) /\
  (forall k mode nodes p s, same (apply_each f h n k mode nodes p s) (apply_each f h (S n) k mode nodes p s)) /\
  (forall k g mode x s, same (apply_rule f h n k g mode x s) (apply_rule f h (S n) k g mode x s)).
Proof.
  intros f h n. induction n as [|n (One & All & Each & Appl & Rule)].
  { repeat apply conj; intros; intros N; exfalso; apply N; reflexivity. }
  split; [|split; [|split; [|split]]].
  - intros k x a s. remember (S n) as m eqn:Em. cbn [perform]. rewrite Em at 1. cbn [perform].
    destruct a as [d t|d g|g l|g l|l|g l|g l|ws ot|g l|[g|] md| |name|l|g|te l]; try apply same_refl; try (apply same_value; intros v); subst m.
    + destruct v as [[p lo] u]. apply same_start, All.
    + destruct v as [[p lo] u]. apply same_wrap, All.
    + apply same_wrap, All.
    + apply same_wrap, All.
    + destruct v; [apply All|apply same_refl].
    + apply All.
    + apply same_restore, Each.
    + apply same_restore, Appl.
    + destruct (kid_nodes f x) as [|y ys]; [apply same_refl|]. apply same_restore, Appl.
    + apply Rule.
    + apply All.
    + unfold copy_shallow in *. destruct (tree_at f x) as [[i at_ ks]|]; [|apply same_refl]. destruct (i_kind i); try apply same_refl; [apply All|apply All|apply same_start, All].
    + intros N. pose proof (All (to_message k) x l s) as Al. unfold same in Al. destruct (perform_all f h n (to_message k) x l s) as [o1 s1| |]; [| |congruence]; rewrite Al by discriminate; reflexivity.
  - intros k x l s. remember (S n) as m eqn:Em. cbn [perform_all]. rewrite Em at 1. cbn [perform_all]. subst m. destruct l as [|a l]; [apply same_refl|]. apply same_after; [apply One|intros s1; apply All].
  - intros k l nodes p s. remember (S n) as m eqn:Em. cbn [perform_each]. rewrite Em at 1. cbn [perform_each]. subst m. destruct nodes as [|x nodes]; [apply same_refl|]. apply same_after; [apply All|intros s1; apply Each].
  - intros k mode nodes p s. remember (S n) as m eqn:Em. cbn [apply_each]. rewrite Em at 1. cbn [apply_each]. subst m. destruct nodes as [|x nodes]; [apply same_refl|]. apply same_after; [apply Rule|intros s1; apply Appl].
  - intros k g mode x s. remember (S n) as m eqn:Em. cbn [apply_rule]. rewrite Em at 1. cbn [apply_rule]. subst m. destruct (choose (h_rules h) g mode x) as [[t p]|]; [apply All|].
    destruct (tree_at f x) as [[i at_ ks]|]; [|apply same_refl]. destruct (i_kind i); try apply same_refl; apply same_restore, Appl.
Qed.
Lemma steady_from (r : nat -> result) : (forall n, same (r n) (r (S n))) -> forall n m, (n <= m)%nat -> same (r n) (r m).
Proof.
  intros H n m L. induction L as [|m L IH]; [apply same_refl|]. intros N. rewrite (H m); [apply IH; exact N|rewrite (IH N); exact N].
Qed.

(** * Ends *)
Definition ends (r : nat -> result) : Prop := exists n, r n <> Exhausted.
Lemma ends_after : forall (r : nat -> result) (k : nat -> state -> result),
  (forall n, same (r n) (r (S n))) -> (forall n s, same (k n s) (k (S n) s)) -> ends r -> (forall s, ends (fun n => k n s)) -> ends (fun n => after (r n) (k n)).
Proof.
  intros r k R K [n N] H. destruct (r n) as [o s| |] eqn:E; [| |congruence].
  - destruct (H s) as [m M]. exists (max n m).
    rewrite (steady_from r R n (max n m) (Nat.le_max_l _ _)), E by (rewrite E; discriminate). cbn [after].
    rewrite (steady_from (fun n => k n s) (fun n => K n s) m (max n m) (Nat.le_max_r _ _) M). destruct (k m s); [discriminate|discriminate|congruence].
  - exists n. rewrite E. discriminate.
Qed.
Lemma ends_wrap : forall g r, ends r -> ends (fun n => wrap g (r n)).
Proof. intros g r [n N]. exists n. destruct (r n); [discriminate|discriminate|congruence]. Qed.
Lemma ends_restore : forall z r, ends r -> ends (fun n => restore_last z (r n)).
Proof. intros g r [n N]. exists n. destruct (r n); [discriminate|discriminate|congruence]. Qed.
Lemma ends_succ : forall (r r' : nat -> result), (forall n, r (S n) = r' n) -> ends r' -> ends r.
Proof. intros r r' E [n N]. exists (S n). rewrite E. exact N. Qed.
Lemma ends_now : forall x, x <> Exhausted -> ends (fun _ => x).
Proof. intros x N. exists O. exact N. Qed.

Fixpoint action_size (a : action) : nat :=
  match a with
  | AElement _ l | AAttribute _ l | AComment l | APi _ l | AIf _ l | ACopy l | AMessage _ l | AForEach _ l => S (list_sum (map action_size l))
  | AChoose whens otherwise => S (list_sum (map (fun b => list_sum (map action_size (snd b))) whens) + list_sum (map action_size otherwise))
  | _ => 1
  end.
Lemma in_sum {A} : forall (g : A -> nat) l a, In a l -> (g a <= list_sum (map g l))%nat.
Proof.
  intros g l a. induction l as [|b l IH]; intros I; [destruct I|]. unfold list_sum. cbn [map fold_right]. fold (list_sum (map g l)).
  destruct I as [<-|I]; [lia|specialize (IH I); lia].
Qed.
Lemma each_in : forall P l, each P l <-> forall a, In a l -> P a.
Proof.
  intros P l. induction l as [|a l IH]; cbn [each]; [split; [intros _ a []|auto]|]. split.
  - intros [H H'] b [<-|I]; [exact H|apply IH; assumption].
  - intros H. split; [apply H; left; reflexivity|apply IH; intros b I; apply H; right; exact I].
Qed.

Section Ends.
Context (f : forest) (h : sheet).
Lemma ends_all : forall k x l, (forall a, In a l -> forall s, ends (fun n => perform f h n k x a s)) -> forall s, ends (fun n => perform_all f h n k x l s).
Proof.
  intros k x l. induction l as [|a l IH]; intros H s.
  - apply (ends_succ _ (fun _ => Done [] s)); [reflexivity|apply ends_now; discriminate].
  - apply (ends_succ _ (fun n => after (perform f h n k x a s) (fun s => perform_all f h n k x l s))); [reflexivity|].
    apply (ends_after (fun n => perform f h n k x a s) (fun n s => perform_all f h n k x l s)).
    + intros n. apply steady.
    + intros n s1. apply steady.
    + apply H. left. reflexivity.
    + apply IH. intros b I. apply H. right. exact I.
Qed.
Lemma ends_each : forall k l nodes, (forall x, In x nodes -> forall s, ends (fun n => perform_all f h n k x l s)) -> forall p s, ends (fun n => perform_each f h n k l nodes p s).
Proof.
  intros k l nodes. induction nodes as [|x nodes IH]; intros H p s.
  - apply (ends_succ _ (fun _ => Done [] s)); [reflexivity|apply ends_now; discriminate].
  - apply (ends_succ _ (fun n => after (perform_all f h n k x l (set_position x p s)) (fun s => perform_each f h n k l nodes (p + 1) s))); [reflexivity|].
    apply (ends_after (fun n => perform_all f h n k x l (set_position x p s)) (fun n s => perform_each f h n k l nodes (p + 1) s)).
    + intros n. apply steady.
    + intros n s1. apply steady.
    + apply H. left. reflexivity.
    + intros s1. apply IH. intros b I. apply H. right. exact I.
Qed.
Lemma ends_apply : forall k mode nodes, (forall x, In x nodes -> forall s, ends (fun n => apply_rule f h n k frozen_precedence mode x s)) ->
  forall p s, ends (fun n => apply_each f h n k mode nodes p s).
Proof.
  intros k mode nodes. induction nodes as [|x nodes IH]; intros H p s.
  - apply (ends_succ _ (fun _ => Done [] s)); [reflexivity|apply ends_now; discriminate].
  - apply (ends_succ _ (fun n => after (apply_rule f h n k frozen_precedence mode x (set_position x p s)) (fun s => apply_each f h n k mode nodes (p + 1) s))); [reflexivity|].
    apply (ends_after (fun n => apply_rule f h n k frozen_precedence mode x (set_position x p s)) (fun n s => apply_each f h n k mode nodes (p + 1) s)).
    + intros n. apply steady.
    + intros n s1. apply steady.
    + apply H. left. reflexivity.
    + intros s1. apply IH. intros b I. apply H. right. exact I.
Qed.

Lemma below_trans : forall x y z, below f x y -> below f y z -> below f x z.
Proof.
  intros x y z (E & _ & p & P & Dp & Sy) (E' & N & q & Q & Dq & Sz). split; [congruence|]. split; [exact N|]. exists (q ++ p). split; [destruct q; [congruence|discriminate]|].
  split; [apply Forall_app; split; assumption|]. rewrite Sz, Sy, app_assoc. reflexivity.
Qed.
Lemma kids_below : forall x y, In y (kid_nodes f x) -> below f x y.
Proof.
  intros x y I. unfold kid_nodes in I. destruct (tree_at f x) as [t|] eqn:E; [|destruct I]. apply in_map_iff in I. destruct I as (i & <- & I). apply in_seq in I.
  split; [reflexivity|]. split.
  - unfold tree_at in *. cbn [fst snd subtree]. rewrite E. apply nth_error_Some. lia.
  - exists [Kid i]. split; [discriminate|]. split; [repeat constructor|reflexivity].
Qed.

Lemma when_in : forall v whens otherwise l, choose_when v whens otherwise = Some l -> l = otherwise \/ exists g, In (g, l) whens.
Proof.
  intros v whens otherwise l. induction whens as [|[g b] whens IH]; cbn [choose_when]; intros H; [left; congruence|].
  destruct (g v) as [[|]|]; [injection H as <-; right; exists g; left; reflexivity| |discriminate].
  destruct (IH H) as [->|[g' I]]; [left; reflexivity|right; exists g'; right; exact I].
Qed.
Lemma in_whens_descends : forall whens, (fix go (l : list (expression bool * list action)) : Prop :=
  match l with [] => True | (_, b) :: l => each (descends f) b /\ go l end) whens -> forall g l, In (g, l) whens -> each (descends f) l.
Proof.
  induction whens as [|[g0 b] whens IH]; intros T g l I; [destruct I|]. destruct T as [T1 T2]. destruct I as [E|I]; [injection E as _ <-; exact T1|exact (IH T2 g l I)].
Qed.

Definition ready (x : xnode) : Prop := forall y, below f x y -> forall k g mode s, ends (fun n => apply_rule f h n k g mode y s).
Lemma ends_one : forall m a, (action_size a < m)%nat -> forall k x, (stays a = true \/ (descends f a /\ ready x)) -> forall s, ends (fun n => perform f h n k x a s).
Proof.
  induction m as [|m IH]; [lia|]. intros a M k x H s.
  assert (List_ : forall k y l s, (list_sum (map action_size l) < m)%nat -> (forallb stays l = true \/ (each (descends f) l /\ ready y)) -> ends (fun n => perform_all f h n k y l s)).
  { intros k' y l s' Ml Hl. apply ends_all. intros b I s1. apply IH.
    - pose proof (in_sum action_size l b I). lia.
    - destruct Hl as [Hl|[Hl R]]; [left; rewrite forallb_forall in Hl; apply Hl; exact I|right; split; [apply (proj1 (each_in _ l) Hl b I)|exact R]]. }
  destruct a as [d t|d g|g l|g l|l|g l|g l|ws ot|g l|[g|] md| |name|l|g|te l]; cbn [action_size] in M; cbn [stays descends] in H.
  - exists 1%nat. discriminate.
  - exists 1%nat. cbn [perform]. destruct (g (look x s)); discriminate.
  - destruct (g (look x s)) as [[[p lo] u]|] eqn:G; [|exists 1%nat; cbn [perform]; rewrite G; discriminate].
    destruct (k_inside k) eqn:K; [exists 1%nat; cbn [perform]; rewrite G; cbn [with_value]; unfold start; rewrite K; discriminate|].
    eapply ends_succ; [intros n; cbn [perform]; rewrite G; cbn [with_value]; unfold start; rewrite K; reflexivity|]. apply ends_wrap, List_; [lia|exact H].
  - destruct (g (look x s)) as [[[p lo] u]|] eqn:G; [|exists 1%nat; cbn [perform]; rewrite G; discriminate].
    eapply ends_succ; [intros n; cbn [perform]; rewrite G; reflexivity|]. apply ends_wrap, List_; [lia|exact H].
  - eapply ends_succ; [intros n; cbn [perform]; reflexivity|]. apply ends_wrap, List_; [lia|exact H].
  - destruct (g (look x s)) as [t|] eqn:G; [|exists 1%nat; cbn [perform]; rewrite G; discriminate].
    eapply ends_succ; [intros n; cbn [perform]; rewrite G; reflexivity|]. apply ends_wrap, List_; [lia|exact H].
  - destruct (g (look x s)) as [[|]|] eqn:G; [|exists 1%nat; cbn [perform]; rewrite G; discriminate|exists 1%nat; cbn [perform]; rewrite G; discriminate].
    eapply ends_succ; [intros n; cbn [perform]; rewrite G; reflexivity|]. apply List_; [lia|exact H].
  - destruct (choose_when (look x s) ws ot) as [l|] eqn:C; [|exists 1%nat; cbn [perform]; rewrite C; discriminate].
    eapply ends_succ; [intros n; cbn [perform]; rewrite C; reflexivity|]. cbn [with_value]. destruct (when_in _ _ _ _ C) as [->|[g I]].
    + apply List_; [lia|]. destruct H as [H|[[_ H] R]]; [left; apply andb_prop in H; exact (proj2 H)|right; split; assumption].
    + apply List_; [pose proof (in_sum (fun b : expression bool * list action => list_sum (map action_size (snd b))) ws (g, l) I) as X; cbn [snd] in X; lia|].
      destruct H as [H|[[H _] R]]; [left; apply andb_prop in H; destruct H as [H _]; rewrite forallb_forall in H; exact (H (g, l) I)|right; split; [exact (in_whens_descends ws H g l I)|exact R]].
  - destruct (g (look x s)) as [nodes|] eqn:G; [|exists 1%nat; cbn [perform]; rewrite G; discriminate].
    eapply ends_succ; [intros n; cbn [perform]; rewrite G; reflexivity|]. cbn [with_value]. apply ends_restore, ends_each. intros y I s1. apply List_; [lia|].
    destruct H as [H|[[H|[B H]] R]]; [left; exact H|left; exact H|right]. split; [exact H|]. specialize (B _ _ G). rewrite Forall_forall in B. specialize (B y I).
    intros z Z. apply R. eapply below_trans; [exact B|exact Z].
  - destruct H as [H|[B R]]; [discriminate|]. destruct (g (look x s)) as [nodes|] eqn:G; [|exists 1%nat; cbn [perform]; rewrite G; discriminate].
    eapply ends_succ; [intros n; cbn [perform]; rewrite G; reflexivity|]. cbn [with_value]. apply ends_restore, ends_apply. intros y I s1. apply R.
    specialize (B _ _ G). rewrite Forall_forall in B. exact (B y I).
  - destruct H as [H|[_ R]]; [discriminate|]. destruct (kid_nodes f x) as [|y ys] eqn:K; [exists 1%nat; cbn [perform]; rewrite K; discriminate|].
    eapply ends_succ; [intros n; cbn [perform]; rewrite K; reflexivity|]. apply ends_restore, ends_apply. intros z I s1. apply R. apply kids_below. rewrite K. exact I.
  - destruct H as [H|[[] _]]; discriminate.
  - destruct H as [H|[[] _]]; discriminate.
  - destruct (tree_at f x) as [[i at_ ks]|] eqn:E; [|exists 1%nat; cbn [perform]; unfold copy_shallow; rewrite E; discriminate].
    assert (B : ends (fun n => perform_all f h n k x l s)) by (apply List_; [lia|exact H]).
    eapply ends_succ; [intros n; cbn [perform]; unfold copy_shallow; rewrite E; reflexivity|].
    destruct (i_kind i); try (apply ends_now; discriminate); try exact B. unfold start. destruct (k_inside k); [apply ends_now; discriminate|apply ends_wrap; exact B].
  - exists 1%nat. cbn [perform]. destruct (g (look x s)); discriminate.
  - destruct (List_ (to_message k) x l s) as [n N]; [lia|exact H|]. exists (S n). cbn [perform]. destruct (perform_all f h n (to_message k) x l s); [destruct te; discriminate|discriminate|congruence].
Qed.
Lemma ends_list : forall k x l, each (descends f) l -> ready x -> forall s, ends (fun n => perform_all f h n k x l s).
Proof.
  intros k x l H R s. apply ends_all. intros a I s1. apply (ends_one (S (action_size a))); [lia|]. right. split; [apply (proj1 (each_in _ l) H a I)|exact R].
Qed.

Lemma down_smaller : forall p t q u w, subtree t q = Some u -> subtree t (p ++ q) = Some w -> Forall down p -> (tree_size w <= tree_size u)%nat /\ (p <> [] -> (tree_size w < tree_size u)%nat).
Proof.
  induction p as [|st p IH]; intros t q u w U W D; cbn [app] in W.
  - rewrite U in W. injection W as <-. split; [lia|congruence].
  - inversion D as [|? ? D1 D2]; subst. cbn [subtree] in W. destruct (subtree t (p ++ q)) as [v|] eqn:V; [|discriminate].
    destruct (IH t q u v U V D2) as [L _].
    assert (S1 : (tree_size w < tree_size v)%nat).
    { destruct v as [i a k]. cbn [tree_size]. destruct st; [| |destruct D1]; cbn [t_kids t_attrs] in W; apply nth_error_In in W.
      - pose proof (in_sum tree_size k w W). lia.
      - pose proof (in_sum tree_size a w W). lia. }
    split; [lia|intros _; lia].
Qed.
Lemma ends_rule : (forall n, each (descends f) (h_body h n)) -> forall m x t, tree_at f x = Some t -> (tree_size t < m)%nat -> forall k g mode s, ends (fun n => apply_rule f h n k g mode x s).
Proof.
  intros D. induction m as [|m IH]; [lia|]. intros x t E M k g mode s.
  assert (R : ready x).
  { intros y (E1 & N & p & P & Dp & Sy) k' g' mode' s'. destruct (tree_at f y) as [w|] eqn:W; [|congruence].
    apply (IH y w W). unfold tree_at in E, W. rewrite E1, Sy in W. pose proof (proj2 (down_smaller p _ _ _ _ E W Dp) P). lia. }
  destruct (choose (h_rules h) g mode x) as [[t' p]|] eqn:C.
  - eapply ends_succ; [intros n; cbn [apply_rule]; rewrite C; reflexivity|]. apply ends_list; [apply D|exact R].
  - eapply ends_succ; [intros n; cbn [apply_rule]; rewrite C, E; reflexivity|]. destruct t as [i at_ ks].
    assert (B : forall z s, ends (fun n => restore_last z (apply_each f h n k mode (kid_nodes f x) 1 s))).
    { intros z s1. apply ends_restore, ends_apply. intros y I s2. apply R, kids_below, I. }
    destruct (i_kind i); try (apply ends_now; discriminate); apply B.
Qed.
End Ends.
Lemma transform_ends : forall f h x mode g, (forall n, each (descends f) (h_body h n)) -> tree_at f x <> None -> exists fuel, transform f h fuel mode g x <> Exhausted.
Proof.
  intros f h x mode g D E. destruct (tree_at f x) as [t|] eqn:T; [|congruence]. unfold transform. apply ends_restore, ends_apply.
  intros y [<-|[]] s. apply (ends_rule f h D (S (tree_size t)) x t T). lia.
Qed.
