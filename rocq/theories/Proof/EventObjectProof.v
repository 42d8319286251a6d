(** Proofs about DOM events and their handles. *)
From Coq Require Import String.
From Verif.Model Require Import Base Containers EventObject.
From Verif.Spec Require Import EventObjectSpec.
From Verif.Proof Require Import ContainersProof UriProof.
From Coq Require Import List Bool ZArith Lia. Import ListNotations. Open Scope Z_scope.

(** * Lists of events *)
Lemma put_object_length : forall l i o, length (put_object l i o) = length l.
Proof. induction l as [|x l IH]; intros [|i] o; cbn; auto. Qed.
Lemma put_object_same : forall l i o x, nth_error l i = Some x -> nth_error (put_object l i o) i = Some o.
Proof. induction l as [|y l IH]; intros [|i] o x E; cbn in *; try discriminate; [reflexivity|eauto]. Qed.
Lemma put_object_other : forall l i j o, j <> i -> nth_error (put_object l i o) j = nth_error l j.
Proof. induction l as [|y l IH]; intros [|i] [|j] o N; cbn; try reflexivity; try congruence. apply IH. congruence. Qed.

(** * Counting handles *)
Definition b2z (b : bool) : Z := if b then 1 else 0.
Fixpoint cnt (f : nat -> option nat) (n : nat) (i : nat) : Z :=
  match n with O => 0 | S n => cnt f n i + b2z (is_event (f n) i) end.
Lemma cnt_ext : forall f g n i, (forall v, f v = g v) -> cnt f n i = cnt g n i.
Proof. intros f g n i E. induction n as [|n IH]; cbn; [reflexivity|]. rewrite IH, E. reflexivity. Qed.
Lemma cnt_nonneg : forall f n i, 0 <= cnt f n i.
Proof. intros f n i. induction n as [|n IH]; cbn; [lia|]. unfold b2z. destruct (is_event _ _); lia. Qed.
Lemma is_event_ok : forall x i, is_event x i = true <-> x = Some i.
Proof. intros [j|] i; cbn; split; intros E; try discriminate; [apply Nat.eqb_eq in E; congruence|injection E as ->; apply Nat.eqb_refl]. Qed.
Lemma cnt_zero : forall f n i, cnt f n i = 0 <-> forall v, (v < n)%nat -> f v <> Some i.
Proof.
  intros f n i. induction n as [|n IH]; cbn; [split; [intros _ v L; lia|reflexivity]|]. pose proof (cnt_nonneg f n i). unfold b2z. destruct (is_event (f n) i) eqn:E.
  - split; [lia|]. intros A. apply is_event_ok in E. destruct (A n ltac:(lia) E).
  - assert (NE : f n <> Some i) by (intros Q; apply is_event_ok in Q; congruence). rewrite Z.add_0_r, IH. split; intros A v L; [destruct (Nat.eq_dec v n) as [->|]; [exact NE|apply A; lia]|apply A; lia].
Qed.
Lemma cnt_put_out : forall f v x n i, (n <= v)%nat -> cnt (put_var f v x) n i = cnt f n i.
Proof. intros f v x n i. induction n as [|n IH]; intros L; cbn; [reflexivity|]. rewrite IH by lia. unfold put_var. destruct (Nat.eqb_spec n v); [lia|reflexivity]. Qed.
Lemma cnt_put : forall f v x n i, (v < n)%nat -> cnt (put_var f v x) n i = cnt f n i - b2z (is_event (f v) i) + b2z (is_event x i).
Proof.
  intros f v x n i. induction n as [|n IH]; intros L; [lia|]. cbn [cnt]. destruct (Nat.eq_dec v n) as [->|N].
  - rewrite cnt_put_out by lia. unfold put_var at 1. rewrite Nat.eqb_refl. lia.
  - rewrite IH by lia. unfold put_var. destruct (Nat.eqb_spec n v); [lia|]. lia.
Qed.
Lemma cnt_more : forall f n m i, (forall v, (n <= v)%nat -> f v = None) -> (n <= m)%nat -> cnt f m i = cnt f n i.
Proof.
  intros f n m i A L. induction m as [|m IH]; [replace n with 0%nat by lia; reflexivity|]. destruct (Nat.eq_dec n (S m)) as [->|]; [reflexivity|]. cbn [cnt]. rewrite IH, A by lia. cbn. lia.
Qed.

(** * The counts of events: [x] is what a temporary refers to *)
Definition right_count (f : nat -> option nat) (n : nat) (x : option nat) (i : nat) (o : object) : Prop :=
  o_count o = cnt f n i + b2z (is_event x i) /\ o_freed o = (o_count o =? 0).
Definition good (x : option nat) (n : nat) (s : estate) : Prop :=
  (forall v, (n <= v)%nat -> e_vars s v = None) /\ (forall v i, e_vars s v = Some i -> (i < length (e_objects s))%nat) /\
  forall i o, nth_error (e_objects s) i = Some o -> right_count (e_vars s) n x i o.
Definition core (o : object) : object := counted o 0 false.
Definition same_cores (l m : list object) : Prop := length l = length m /\ forall i, option_map core (nth_error l i) = option_map core (nth_error m i).
Lemma same_cores_trans : forall l m k, same_cores l m -> same_cores m k -> same_cores l k.
Proof. intros l m k (A & B) (C & D). split; [congruence|]. intros i. rewrite B. apply D. Qed.
Lemma core_put : forall l i o o', nth_error l i = Some o -> core o' = core o -> same_cores (put_object l i o') l.
Proof.
  intros l i o o' E C. split; [apply put_object_length|]. intros j. destruct (Nat.eq_dec j i) as [->|N]; [|rewrite put_object_other by exact N; reflexivity]. rewrite (put_object_same _ _ _ _ E), E. cbn. congruence.
Qed.
Lemma good_wider : forall x n m s, good x n s -> (n <= m)%nat -> good x m s.
Proof.
  intros x n m s (A & B & C) L. split; [intros v V; apply A; lia|]. split; [exact B|]. intros i o E. destruct (C i o E) as (D & F). split; [|exact F]. rewrite (cnt_more _ n m i A L). exact D.
Qed.
Lemma released : forall x n s v i, good x n s -> e_vars s v = Some i -> exists s', release_ref s i = Val s' /\ e_vars s' = e_vars s /\
  good x n (EState (put_var (e_vars s') v None) (e_objects s')) /\ same_cores (e_objects s') (e_objects s).
Proof.
  intros x n s v i (A & B & C) V. assert (VN : (v < n)%nat) by (destruct (Nat.lt_ge_cases v n) as [|L]; [assumption|rewrite (A v L) in V; discriminate]).
  destruct (nth_error (e_objects s) i) as [o|] eqn:E; [|apply nth_error_None in E; specialize (B v i V); lia]. destruct (C i o E) as (CT & FR).
  assert (P : 1 <= cnt (e_vars s) n i). { pose proof (cnt_nonneg (e_vars s) n i). destruct (Z.eq_dec (cnt (e_vars s) n i) 0) as [Q|]; [|lia]. destruct (proj1 (cnt_zero _ _ _) Q v VN V). }
  assert (NB : 0 <= b2z (is_event x i)) by (unfold b2z; destruct (is_event x i); lia).
  unfold release_ref, on_object. rewrite E, FR. destruct (Z.eqb_spec (o_count o) 0); [lia|]. cbn [obind]. eexists. split; [reflexivity|]. cbn [e_vars e_objects]. split; [reflexivity|]. split; [|apply (core_put _ _ _ _ E); reflexivity].
  split; [|split]; cbn [e_vars e_objects].
  - intros w W. unfold put_var. destruct (Nat.eqb_spec w v); [reflexivity|apply A; exact W].
  - intros w j W. rewrite put_object_length. unfold put_var in W. destruct (Nat.eqb w v); [discriminate|]. exact (B w j W).
  - intros j o' E'. unfold right_count. rewrite (cnt_put _ v None n j VN), V. cbn [is_event]. destruct (Nat.eq_dec j i) as [->|N].
    + rewrite (put_object_same _ _ _ _ E) in E'. injection E' as <-. cbn [o_count o_freed counted]. rewrite Nat.eqb_refl. cbn [b2z]. split; [lia|reflexivity].
    + rewrite put_object_other in E' by exact N. destruct (C j o' E') as (D & F). destruct (Nat.eqb_spec i j); [congruence|]. cbn [b2z]. split; [lia|exact F].
Qed.
Lemma added : forall x n s v j, good x n s -> (v < n)%nat -> e_vars s v = None -> (j < length (e_objects s))%nat -> cnt (e_vars s) n j + b2z (is_event x j) <> 0 ->
  exists s', add_ref s j = Val s' /\ e_vars s' = e_vars s /\ good x n (EState (put_var (e_vars s') v (Some j)) (e_objects s')) /\ same_cores (e_objects s') (e_objects s).
Proof.
  intros x n s v j (A & B & C) VN V J NZ. destruct (nth_error (e_objects s) j) as [o|] eqn:E; [|apply nth_error_None in E; lia]. destruct (C j o E) as (CT & FR).
  pose proof (cnt_nonneg (e_vars s) n j). assert (NB : 0 <= b2z (is_event x j)) by (unfold b2z; destruct (is_event x j); lia).
  unfold add_ref, on_object. rewrite E, FR. destruct (Z.eqb_spec (o_count o) 0); [lia|]. cbn [obind]. eexists. split; [reflexivity|]. cbn [e_vars e_objects]. split; [reflexivity|]. split; [|apply (core_put _ _ _ _ E); reflexivity].
  split; [|split]; cbn [e_vars e_objects].
  - intros w W. unfold put_var. destruct (Nat.eqb_spec w v); [lia|apply A; exact W].
  - intros w i W. rewrite put_object_length. unfold put_var in W. destruct (Nat.eqb w v); [injection W as <-; exact J|]. exact (B w i W).
  - intros i o' E'. unfold right_count. rewrite (cnt_put _ v (Some j) n i VN), V. cbn [is_event b2z]. destruct (Nat.eq_dec i j) as [->|N].
    + rewrite (put_object_same _ _ _ _ E) in E'. injection E' as <-. cbn [o_count o_freed counted]. rewrite Nat.eqb_refl. cbn [b2z]. split; [lia|]. destruct (Z.eqb_spec (o_count o + 1) 0); [lia|reflexivity].
    + rewrite put_object_other in E' by exact N. destruct (C i o' E') as (D & F). destruct (Nat.eqb_spec j i); [congruence|]. cbn [b2z]. split; [lia|exact F].
Qed.
Lemma add_freed : forall x n s j, good x n s -> cnt (e_vars s) n j + b2z (is_event x j) = 0 -> add_ref s j = UB.
Proof.
  intros x n s j (_ & _ & C) Z. unfold add_ref, on_object. destruct (nth_error (e_objects s) j) as [o|] eqn:E; [|reflexivity]. destruct (C j o E) as (CT & ->). rewrite CT, Z. reflexivity.
Qed.
(** What is left when the old one is released. *)
Definition left_over (x : option nat) (n : nat) (s : estate) (v j : nat) : Z := cnt (put_var (e_vars s) v None) n j + b2z (is_event x j).
Lemma set_impl_ok : forall x n s v impl, good x n s -> (v < n)%nat -> match impl with None => True | Some j => (j < length (e_objects s))%nat /\ left_over x n s v j <> 0 end ->
  exists s', set_impl s v impl = Val s' /\ (forall w, e_vars s' w = put_var (e_vars s) v impl w) /\ good x n s' /\ same_cores (e_objects s') (e_objects s).
Proof.
  intros x n s v impl G VN H. unfold set_impl.
  assert (R : exists s1, match e_vars s v with None => Val s | Some i => obind (release_ref s i) (fun s => Val (EState (put_var (e_vars s) v None) (e_objects s))) end = Val s1 /\
    (forall w, e_vars s1 w = put_var (e_vars s) v None w) /\ good x n s1 /\ same_cores (e_objects s1) (e_objects s)).
  { destruct (e_vars s v) as [i|] eqn:V.
    - destruct (released x n s v i G V) as (s' & -> & EV & G' & SC). cbn [obind]. eexists. split; [reflexivity|]. cbn [e_vars e_objects]. rewrite EV in G' |- *. auto.
    - exists s. split; [reflexivity|]. split; [|split; [exact G|split; reflexivity]]. intros w. unfold put_var. destruct (Nat.eqb_spec w v) as [->|]; auto. }
  destruct R as (s1 & -> & E1 & G1 & C1). cbn [obind]. destruct impl as [j|]; [|exists s1; auto]. destruct H as (J & NZ). unfold left_over in NZ.
  destruct (added x n s1 v j G1 VN) as (s2 & -> & E2 & G2 & C2); [rewrite E1; unfold put_var; rewrite Nat.eqb_refl; reflexivity|rewrite (proj1 C1); exact J|rewrite (cnt_ext _ _ n j E1); exact NZ|].
  cbn [obind]. eexists. split; [reflexivity|]. cbn [e_vars e_objects]. split; [|split; [exact G2|exact (same_cores_trans _ _ _ C2 C1)]]. intros w. rewrite E2. unfold put_var in *. specialize (E1 w). destruct (Nat.eqb w v); [reflexivity|exact E1].
Qed.
Lemma set_impl_ub : forall n s v j, good None n s -> (v < n)%nat -> left_over None n s v j = 0 -> e_vars s v = Some j -> set_impl s v (Some j) = UB.
Proof.
  intros n s v j G VN LO V. unfold set_impl. rewrite V. destruct (released None n s v j G V) as (s' & -> & EV & G' & SC). cbn [obind].
  rewrite (add_freed None n _ j G'); [reflexivity|]. cbn [e_vars]. rewrite EV. exact LO.
Qed.

(** * The whole state *)
Definition content (h : list op) (i : nat) (o : object) : Prop :=
  (match initialised h i with
   | Some (t, b, c) => o_type o = t /\ o_bubbles o = Some b /\ o_cancelable o = Some c
   | None => o_type o = [] /\ o_bubbles o = None /\ o_cancelable o = None
   end) /\
  (match mutation h i with
  | Some (p, n, a, ch) => o_prev o = p /\ o_next o = n /\ o_attr o = a /\ o_change o = Some ch
  | None => o_prev o = [] /\ o_next o = [] /\ o_attr o = [] /\ o_change o = None
  end) /\
  o_stopped o = stopped h i /\ o_prevented o = prevented h i.
Definition holds (h : list op) (s : estate) : Prop :=
  (forall v, e_vars s v = refers h v) /\ length (e_objects s) = made h /\ (exists n, good None n s) /\ forall i o, nth_error (e_objects s) i = Some o -> content h i o.
Lemma content_core : forall h i o o', core o = core o' -> content h i o -> content h i o'.
Proof.
  intros h i o o' C. unfold core, counted in C. injection C as C1 C2 C3 C4 C5 C6 C7 C8 C9. unfold content. rewrite C1, C2, C3, C4, C5, C6, C7, C8, C9. auto.
Qed.
Lemma contents_core : forall h l m, same_cores l m -> (forall i o, nth_error m i = Some o -> content h i o) -> forall i o, nth_error l i = Some o -> content h i o.
Proof.
  intros h l m (L & C) H i o E. specialize (C i). rewrite E in C. cbn in C. destruct (nth_error m i) as [o'|] eqn:E'; [|discriminate]. pose proof (f_equal (fun x => match x with Some y => y | None => core o end) C) as C'. cbv beta iota in C'. apply (content_core h i o' o); [exact (eq_sym C')|]. apply H. exact E'.
Qed.
Lemma room : forall n s v, good None n s -> exists m, good None m s /\ (v < m)%nat.
Proof. intros n s v G. exists (Nat.max n (S v)). split; [apply (good_wider None n); [exact G|lia]|lia]. Qed.
(** Through a handle. *)
Lemma through : forall h s v g, holds h s -> match refers h v with
  | None => on_handle s v g = UB
  | Some i => exists o, nth_error (e_objects s) i = Some o /\ o_freed o = false /\ asked s v = Val o /\ on_handle s v g = obind (g o) (fun o => Val (EState (e_vars s) (put_object (e_objects s) i o)))
  end.
Proof.
  intros h s v g (EV & _ & (n & A & B & C) & _). unfold on_handle, asked. rewrite (EV v). destruct (refers h v) as [i|] eqn:R; [|reflexivity]. rewrite <- EV in R. destruct (nth_error (e_objects s) i) as [o|] eqn:E; [|apply nth_error_None in E; specialize (B v i R); lia].
  destruct (C i o E) as (CT & FR). assert (F : o_freed o = false). { rewrite FR, CT. cbn [is_event b2z]. apply Z.eqb_neq. intros Z. rewrite Z.add_0_r in Z. destruct (Nat.lt_ge_cases v n) as [L|L]; [destruct (proj1 (cnt_zero _ _ _) Z v L R)|rewrite (A v L) in R; discriminate]. }
  exists o. split; [reflexivity|]. split; [exact F|]. unfold on_object. rewrite E, F. split; reflexivity.
Qed.
Lemma touched : forall h s v i o o' c, holds h s -> refers h v = Some i -> nth_error (e_objects s) i = Some o -> o_count o' = o_count o -> o_freed o' = o_freed o ->
  (forall w, refers (c :: h) w = refers h w) -> made (c :: h) = made h -> content (c :: h) i o' -> (forall j x, j <> i -> content h j x -> content (c :: h) j x) ->
  holds (c :: h) (EState (e_vars s) (put_object (e_objects s) i o')).
Proof.
  intros h s v i o o' c (EV & LN & (n & A & B & C) & CO) R E EC EF RF MD CI CJ. split; [|split; [|split]]; cbn [e_vars e_objects].
  - intros w. rewrite RF. apply EV.
  - rewrite put_object_length, MD. exact LN.
  - exists n. split; [exact A|]. split; [intros w j W; cbn [e_objects] in *; rewrite put_object_length; exact (B w j W)|]. cbn [e_vars e_objects]. intros j x X. destruct (Nat.eq_dec j i) as [->|N].
    + rewrite (put_object_same _ _ _ _ E) in X. injection X as <-. destruct (C i o E) as (D & F). split; [rewrite EC; exact D|rewrite EF, EC; exact F].
    + rewrite put_object_other in X by exact N. exact (C j x X).
  - intros j x X. destruct (Nat.eq_dec j i) as [->|N].
    + rewrite (put_object_same _ _ _ _ E) in X. injection X as <-. exact CI.
    + rewrite put_object_other in X by exact N. apply CJ; [exact N|]. exact (CO j x X).
Qed.
Lemma is_event_same : forall i, is_event (Some i) i = true.
Proof. intros i. apply Nat.eqb_refl. Qed.
Lemma is_event_other : forall i j, j <> i -> is_event (Some i) j = false.
Proof. intros i j N. apply Nat.eqb_neq. congruence. Qed.
Lemma refers_made : forall h v i, refers h v = Some i -> (i < made h)%nat.
Proof.
  induction h as [|c h IH]; intros v i R; [discriminate|]. destruct c as [w kind|w u|w|w t b c|w t b c p q a ch|w|w]; cbn [refers made] in *; eauto.
  - destruct (Nat.eqb v w); destruct (str_eqb kind mutation_name); try discriminate; [injection R as <-; lia|specialize (IH v i R); lia|eauto].
  - destruct (Nat.eqb v w); eauto.
  - destruct (Nat.eqb v w); [discriminate|eauto].
Qed.
Lemma init_made : forall h i, (made h <= i)%nat -> initialised h i = None /\ mutation h i = None /\ stopped h i = false /\ prevented h i = false.
Proof.
  induction h as [|c h IH]; intros i L; [repeat split|].
  assert (NR : forall w, (made h <= i)%nat -> is_event (refers h w) i = false) by (intros w M; destruct (is_event (refers h w) i) eqn:E; [apply is_event_ok in E; apply refers_made in E; lia|reflexivity]).
  assert (M : (made h <= i)%nat) by (destruct c as [w kind|w u|w|w t b c|w t b c p q a ch|w|w]; cbn [made] in L; try exact L; destruct (str_eqb kind mutation_name); lia).
  destruct (IH i M) as (A & B & C & D). destruct c as [w kind|w u|w|w t b c|w t b c p q a ch|w|w]; cbn [initialised mutation stopped prevented]; rewrite ?(NR w M), ?A, ?B, ?C, ?D; repeat split.
Qed.
Lemma moved : forall h s c v impl s', holds h s -> (exists n, good None n s') -> (forall w, e_vars s' w = put_var (e_vars s) v impl w) -> same_cores (e_objects s') (e_objects s) ->
  (forall w, refers (c :: h) w = put_var (refers h) v impl w) -> made (c :: h) = made h -> (forall i, initialised (c :: h) i = initialised h i /\ mutation (c :: h) i = mutation h i /\ stopped (c :: h) i = stopped h i /\ prevented (c :: h) i = prevented h i) -> holds (c :: h) s'.
Proof.
  intros h s c v impl s' (EV & LN & _ & CO) G E SC RF MD SAME. split; [|split; [|split]].
  - intros w. rewrite E, RF. unfold put_var. destruct (Nat.eqb w v); [reflexivity|apply EV].
  - rewrite (proj1 SC), MD. exact LN.
  - exact G.
  - intros i o X. pose proof (contents_core h _ _ SC CO i o X) as H. unfold content in *. destruct (SAME i) as (-> & -> & -> & ->). exact H.
Qed.
Lemma create_ok : forall h s v kind, holds h s -> exists s', step s (Create v kind) = Val s' /\ holds (Create v kind :: h) s'.
Proof.
  intros h s v kind H. pose proof H as (EV & LN & (n0 & G0) & CO). destruct (room n0 s v G0) as (n & G & VN). clear n0 G0. cbn [step]. destruct (str_eqb kind mutation_name) eqn:K.
  - set (i := length (e_objects s)). assert (NI : nth_error (e_objects s ++ [new_object]) i = Some new_object) by (unfold i; rewrite nth_error_app2, Nat.sub_diag by lia; reflexivity).
    assert (FI : cnt (e_vars s) n i = 0). { apply cnt_zero. intros w _ W. destruct G as (_ & B & _). specialize (B w i W). unfold i in B. lia. }
    set (s1 := EState (e_vars s) (put_object (e_objects s ++ [new_object]) i (counted new_object 1 false))).
    assert (A1 : add_ref (EState (e_vars s) (e_objects s ++ [new_object])) i = Val s1) by (unfold add_ref, on_object; cbn [e_objects]; rewrite NI; reflexivity).
    assert (L1 : length (e_objects s1) = S i) by (unfold s1; cbn [e_objects]; rewrite put_object_length, app_length; unfold i; cbn; lia).
    assert (O1 : forall j o, nth_error (e_objects s1) j = Some o -> (j = i /\ o = counted new_object 1 false) \/ (j <> i /\ nth_error (e_objects s) j = Some o)).
    { intros j o E. unfold s1 in E. cbn [e_objects] in E. destruct (Nat.eq_dec j i) as [->|N]; [left; rewrite (put_object_same _ _ _ _ NI) in E; injection E as <-; auto|right]. split; [exact N|]. rewrite put_object_other in E by exact N.
      assert (LT : (j < S i)%nat) by (assert (Q : nth_error (e_objects s ++ [new_object]) j <> None) by congruence; apply nth_error_Some in Q; rewrite app_length in Q; unfold i; cbn in Q; lia). rewrite nth_error_app1 in E by (unfold i in *; lia). exact E. }
    assert (G1 : good (Some i) n s1).
    { destruct G as (A & B & C). split; [exact A|]. split; [intros w j W; rewrite L1; specialize (B w j W); unfold i; lia|]. intros j o E. destruct (O1 j o E) as [(-> & ->)|(N & E')].
      - split; [|reflexivity]. unfold s1. cbn [e_vars o_count counted]. rewrite FI, is_event_same. reflexivity.
      - destruct (C j o E') as (D & F). split; [|exact F]. rewrite (is_event_other i j N), D. reflexivity. }
    rewrite A1. cbn [obind]. destruct (set_impl_ok (Some i) n s1 v (Some i) G1 VN) as (s2 & -> & E2 & G2 & C2).
    { split; [rewrite L1; lia|]. unfold left_over. rewrite is_event_same. pose proof (cnt_nonneg (put_var (e_vars s1) v None) n i). cbn [b2z]. lia. }
    cbn [obind]. destruct G2 as (A2 & B2 & D2). destruct (nth_error (e_objects s2) i) as [o|] eqn:E; [|apply nth_error_None in E; rewrite (proj1 C2), L1 in E; lia]. destruct (D2 i o E) as (CT & FR). rewrite is_event_same in CT. cbn [b2z] in CT.
    assert (PV : 1 <= cnt (e_vars s2) n i). { pose proof (cnt_nonneg (e_vars s2) n i). destruct (Z.eq_dec (cnt (e_vars s2) n i) 0) as [Q|]; [|lia]. destruct (proj1 (cnt_zero _ _ _) Q v VN). rewrite E2. unfold put_var. rewrite Nat.eqb_refl. reflexivity. }
    unfold release_ref, on_object. rewrite E, FR. destruct (Z.eqb_spec (o_count o) 0); [lia|]. cbn [obind]. eexists. split; [reflexivity|].
    assert (SC : same_cores (put_object (e_objects s2) i (counted o (o_count o - 1) (o_count o - 1 =? 0))) (e_objects s1)) by (apply (same_cores_trans _ (e_objects s2)); [apply (core_put _ _ _ _ E); reflexivity|exact C2]).
    split; [|split; [|split]]; cbn [e_vars e_objects].
    + intros w. rewrite E2. unfold s1, put_var. cbn [e_vars refers]. rewrite K. destruct (Nat.eqb w v); [rewrite <- LN; reflexivity|apply EV].
    + rewrite (proj1 SC), L1. cbn [made]. rewrite K, <- LN. reflexivity.
    + exists n. split; [exact A2|]. split; [intros w j W; cbn [e_objects e_vars] in *; rewrite put_object_length; exact (B2 w j W)|]. cbn [e_vars e_objects]. intros j x X. destruct (Nat.eq_dec j i) as [->|N].
      * rewrite (put_object_same _ _ _ _ E) in X. injection X as <-. split; [|reflexivity]. cbn [o_count counted is_event b2z]. lia.
      * rewrite put_object_other in X by exact N. destruct (D2 j x X) as (D & F). split; [|exact F]. rewrite (is_event_other i j N) in D. cbn [is_event]. exact D.
    + apply (contents_core _ _ _ SC). intros j x X. assert (Q : content h j x).
      { destruct (O1 j x X) as [(-> & ->)|(_ & X')]; [|exact (CO j x X')]. destruct (init_made h i) as (I1 & I2 & I3 & I4); [rewrite <- LN; unfold i; lia|]. unfold content. rewrite I1, I2, I3, I4. cbn. auto 10. }
      exact Q.
  - destruct (set_impl_ok None n s v None G VN I) as (s' & -> & E & G' & SC). exists s'. split; [reflexivity|]. apply (moved h s _ v None s' H (ex_intro _ n G') E SC); [|cbn [made]; rewrite K; reflexivity|intros i; repeat split; reflexivity].
    intros w. cbn [refers]. rewrite K. unfold put_var. destruct (Nat.eqb w v); reflexivity.
Qed.
Lemma drop_ok : forall h s v, holds h s -> exists s', step s (Drop v) = Val s' /\ holds (Drop v :: h) s'.
Proof.
  intros h s v H. pose proof H as (EV & LN & (n0 & G0) & CO). destruct (room n0 s v G0) as (n & G & VN). cbn [step]. destruct (set_impl_ok None n s v None G VN I) as (s' & -> & E & G' & SC). exists s'. split; [reflexivity|].
  apply (moved h s _ v None s' H (ex_intro _ n G') E SC); [|reflexivity|intros i; repeat split; reflexivity]. intros w. cbn [refers]. unfold put_var. destruct (Nat.eqb w v); reflexivity.
Qed.
Lemma others_left : forall h s n v j, holds h s -> good None n s -> (v < n)%nat -> (left_over None n s v j <> 0 <-> exists w, w <> v /\ refers h w = Some j).
Proof.
  intros h s n v j (EV & _) (A & _) VN. unfold left_over. cbn [is_event b2z]. rewrite Z.add_0_r. split.
  - intros NZ. destruct (Z.eq_dec (cnt (put_var (e_vars s) v None) n j) 0) as [|_]; [contradiction|]. clear VN A.
    assert (X : exists w, (w < n)%nat /\ put_var (e_vars s) v None w = Some j).
    { revert NZ. generalize (put_var (e_vars s) v None). intros f. induction n as [|n IH]; cbn [cnt]; [lia|]. intros NZ. destruct (is_event (f n) j) eqn:Q; [apply is_event_ok in Q; exists n; split; [lia|exact Q]|]. cbn [b2z] in NZ. destruct IH as (w & L & W); [lia|]. exists w. split; [lia|exact W]. }
    destruct X as (w & _ & W). exists w. unfold put_var in W. destruct (Nat.eqb_spec w v); [discriminate|]. split; [assumption|]. rewrite <- EV. exact W.
  - intros (w & N & W) Z. rewrite <- EV in W. assert (L : (w < n)%nat) by (destruct (Nat.lt_ge_cases w n) as [|L]; [assumption|rewrite (A w L) in W; discriminate]). apply (proj1 (cnt_zero _ _ _) Z w L). unfold put_var. destruct (Nat.eqb_spec w v); [contradiction|exact W].
Qed.
Lemma step_lemma : forall h s o, holds h s -> (fair h o -> exists s', step s o = Val s' /\ holds (o :: h) s') /\ (~ fair h o -> step s o = UB).
Proof.
  intros h s o H. destruct o as [v kind|v w|v|v t b c|v t b c p q a ch|v|v].
  - split; [intros _; apply create_ok; exact H|intros N; destruct N; exact I].
  - pose proof H as (EV & LN & (n0 & G0) & CO). destruct (room n0 s v G0) as (n & G & VN). clear n0 G0. cbn [step fair]. rewrite (EV w).
    assert (MOVE : match refers h w with None => True | Some j => left_over None n s v j <> 0 end -> exists s', set_impl s v (refers h w) = Val s' /\ holds (Assign v w :: h) s').
    { intros Q. destruct (set_impl_ok None n s v (refers h w) G VN) as (s' & E1 & E & G' & SC). { destruct (refers h w) as [j|] eqn:R; [|exact I]. split; [|exact Q]. rewrite LN. exact (refers_made h w j R). }
      exists s'. split; [exact E1|]. apply (moved h s _ v (refers h w) s' H (ex_intro _ n G') E SC); [|reflexivity|intros i; repeat split; reflexivity]. intros u. cbn [refers]. unfold put_var. destruct (Nat.eqb u v); reflexivity. }
    destruct (Nat.eq_dec v w) as [<-|NE].
    + destruct (refers h v) as [j|] eqn:R; [|split; [intros _; apply MOVE; exact I|]].
      * destruct (Z.eq_dec (left_over None n s v j) 0) as [Z|NZ].
        -- assert (ON : only h v). { exists j. split; [exact R|]. intros u U. destruct (Nat.eq_dec u v) as [|N]; [assumption|]. exfalso. apply (proj2 (others_left h s n v j H G VN) (ex_intro _ u (conj N U))). exact Z. }
           split; [intros F; destruct (F eq_refl ON)|]. intros _. apply (set_impl_ub n s v j G VN Z). rewrite EV. exact R.
        -- split; [intros _; apply MOVE; exact NZ|]. intros F. destruct F. intros _ (i & RI & U). rewrite R in RI. injection RI as <-. destruct (proj1 (others_left h s n v j H G VN) NZ) as (u & N & UR). exact (N (U u UR)).
      * intros F. destruct F. intros _ (i & RI & _). congruence.
    + split; [|intros F; destruct F; intros E; contradiction]. intros _. apply MOVE. destruct (refers h w) as [j|] eqn:R; [|exact I]. apply (others_left h s n v j H G VN). exists w. split; [congruence|exact R].
  - split; [intros _; apply drop_ok; exact H|intros N; destruct N; exact I].
  - cbn [step fair]. match goal with |- context [on_handle s v ?g] => pose proof (through h s v g H) as T end. destruct (refers h v) as [i|] eqn:R; [|split; [intros N; destruct N; reflexivity|intros _; exact T]]. destruct T as (o & E & F & _ & ->). split; [intros _|intros N; destruct N; discriminate]. cbn [obind]. eexists. split; [reflexivity|].
    pose proof (proj2 (proj2 (proj2 H)) i o E) as CI. apply (touched h s v i o _ (Init v t b c) H R E); try reflexivity.
    + unfold content in *. cbn [initialised mutation stopped prevented o_type o_bubbles o_cancelable o_stopped o_prevented o_prev o_next o_attr o_change]. rewrite R, is_event_same. split; [auto|apply CI].
    + intros j x N CX. unfold content in *. cbn [initialised mutation stopped prevented]. rewrite R, (is_event_other i j N). exact CX.
  - cbn [step fair]. match goal with |- context [on_handle s v ?g] => pose proof (through h s v g H) as T end. destruct (refers h v) as [i|] eqn:R; [|split; [intros N; destruct N; reflexivity|intros _; exact T]]. destruct T as (o & E & F & _ & ->). split; [intros _|intros N; destruct N; discriminate]. cbn [obind]. eexists. split; [reflexivity|].
    pose proof (proj2 (proj2 (proj2 H)) i o E) as CI. apply (touched h s v i o _ (InitMutation v t b c p q a ch) H R E); try reflexivity.
    + unfold content in *. cbn [initialised mutation stopped prevented o_type o_bubbles o_cancelable o_stopped o_prevented o_prev o_next o_attr o_change]. rewrite R, is_event_same. split; [auto|]. split; [auto|apply CI].
    + intros j x N CX. unfold content in *. cbn [initialised mutation stopped prevented]. rewrite R, (is_event_other i j N). exact CX.
  - cbn [step fair]. match goal with |- context [on_handle s v ?g] => pose proof (through h s v g H) as T end. destruct (refers h v) as [i|] eqn:R; [|split; [intros (i & Q & _); discriminate|intros _; exact T]]. destruct T as (o & E & F & _ & ->). pose proof (proj2 (proj2 (proj2 H)) i o E) as CI. pose proof (proj1 CI) as CI1.
    destruct (initialised h i) as [((t & b) & c)|] eqn:IN.
    + split; [intros _|intros N; destruct N; exists i; split; [reflexivity|congruence]]. destruct CI1 as (_ & _ & C). rewrite C. cbn [obind]. eexists. split; [reflexivity|]. apply (touched h s v i o _ (Stop v) H R E); try reflexivity; [|intros j x N CX; unfold content in *; cbn [initialised mutation stopped prevented]; rewrite R, (is_event_other i j N); exact CX].
      unfold content in *. cbn [initialised mutation stopped prevented o_type o_bubbles o_cancelable o_stopped o_prevented o_prev o_next o_attr o_change]. rewrite R, is_event_same, IN in *. destruct CI as (CA & CB & CC & CD). split; [destruct CA as (-> & -> & _); auto|]. split; [exact CB|]. split; [rewrite CC; destruct c; reflexivity|exact CD].
    + split; [intros (j & Q & NI); injection Q as <-; contradiction|]. intros _. destruct CI1 as (_ & _ & ->). reflexivity.
  - cbn [step fair]. match goal with |- context [on_handle s v ?g] => pose proof (through h s v g H) as T end. destruct (refers h v) as [i|] eqn:R; [|split; [intros N; destruct N; reflexivity|intros _; exact T]]. destruct T as (o & E & F & _ & ->). split; [intros _|intros N; destruct N; discriminate]. cbn [obind]. eexists. split; [reflexivity|].
    apply (touched h s v i o _ (Prevent v) H R E); try reflexivity; [|intros j x N CX; unfold content in *; cbn [initialised mutation stopped prevented]; rewrite R, (is_event_other i j N); exact CX].
    destruct (proj2 (proj2 (proj2 H)) i o E) as (CA & CB & CC & CD). unfold content. cbn [initialised mutation stopped prevented o_type o_bubbles o_cancelable o_stopped o_prevented o_prev o_next o_attr o_change]. rewrite R, is_event_same. auto.
Qed.
Lemma holds_start : holds [] at_start.
Proof. split; [reflexivity|]. split; [reflexivity|]. split; [|intros [|i] o E; discriminate]. exists 0%nat. split; [reflexivity|]. split; [intros v i E; discriminate|intros [|i] o E; discriminate]. Qed.
Lemma run_lemma : forall l h s, holds h s -> (all_fair h l -> exists s', run s l = Val s') /\ forall s', run s l = Val s' -> holds (rev l ++ h) s'.
Proof.
  induction l as [|o l IH]; intros h s H; cbn [run all_fair rev app]; [split; [intros _; exists s; reflexivity|intros s' E; injection E as <-; exact H]|]. destruct (step_lemma h s o H) as (Y & N). split.
  - intros (F & A). destruct (Y F) as (s1 & -> & H1). cbn [obind]. apply (IH (o :: h) s1 H1). exact A.
  - intros s' E. destruct (step s o) as [s1| |] eqn:S; cbn [obind] in E; try discriminate. assert (H1 : holds (o :: h) s1).
    { assert (D : fair h o \/ ~ fair h o). { clear - H. destruct o as [v kind|v w|v|v t b c|v t b c p q a ch|v|v]; cbn [fair]; auto.
        - destruct (Nat.eq_dec v w) as [<-|NE]; [|left; intros E; contradiction]. pose proof H as (EV & LN & (n0 & G0) & CO). destruct (room n0 s v G0) as (n & G & VN). destruct (refers h v) as [j|] eqn:R; [|left; intros _ (i & Q & _); congruence]. destruct (Z.eq_dec (left_over None n s v j) 0) as [Z|NZ].
          + right. intros F. apply (F eq_refl). exists j. split; [exact R|]. intros u U. destruct (Nat.eq_dec u v) as [|N]; [assumption|]. exfalso. apply (proj2 (others_left h s n v j H G VN) (ex_intro _ u (conj N U))). exact Z.
          + left. intros _ (i & RI & U). rewrite R in RI. injection RI as <-. destruct (proj1 (others_left h s n v j H G VN) NZ) as (u & N & UR). exact (N (U u UR)).
        - destruct (refers h v); [left; discriminate|right; auto].
        - destruct (refers h v); [left; discriminate|right; auto].
        - destruct (refers h v) as [i|]; [|right; intros (i & Q & _); discriminate]. destruct (initialised h i) eqn:Q; [left; exists i; split; [reflexivity|congruence]|right; intros (j & W & NI); injection W as <-; contradiction].
        - destruct (refers h v); [left; discriminate|right; auto]. }
      destruct D as [F|F]; [destruct (Y F) as (s2 & E2 & H2); injection E2 as ->; exact H2|specialize (N F); discriminate]. }
    rewrite <- app_assoc. cbn [app]. apply (IH (o :: h) s1 H1). exact E.
Qed.
Lemma fair_lemma : forall l, all_fair [] l -> exists s, run at_start l = Val s.
Proof. intros l. apply (run_lemma l [] at_start holds_start). Qed.
Lemma unfair_lemma : forall l o s, run at_start l = Val s -> ~ fair (rev l) o -> run at_start (l ++ [o]) = UB.
Proof.
  intros l o s E F. pose proof (proj2 (run_lemma l [] at_start holds_start) s E) as H. rewrite app_nil_r in H. assert (R : forall m t, run t m = Val s -> run t (m ++ [o]) = step s o).
  { induction m as [|x m IH]; intros t Q; cbn [run app] in *; [injection Q as ->; destruct (step s o); reflexivity|]. destruct (step t x) as [t1| |]; cbn [obind] in *; try discriminate. apply IH. exact Q. }
  rewrite (R l at_start E). apply (proj2 (step_lemma (rev l) s o H)). exact F.
Qed.
Lemma tells_lemma : forall l s v i, run at_start l = Val s -> refers (rev l) v = Some i ->
  match initialised (rev l) i with
  | Some (t, b, c) => get_type s v = Val t /\ get_bubbles s v = Val b /\ get_cancelable s v = Val c
  | None => get_type s v = Val [] /\ get_bubbles s v = UB /\ get_cancelable s v = UB
  end /\
  match mutation (rev l) i with
  | Some (p, n, a, ch) => get_mutation s v = Val (p, n, a) /\ get_change s v = Val ch
  | None => get_mutation s v = Val ([], [], []) /\ get_change s v = UB
  end /\ get_flags s v = Val (stopped (rev l) i, prevented (rev l) i).
Proof.
  intros l s v i E R. pose proof (proj2 (run_lemma l [] at_start holds_start) s E) as H. rewrite app_nil_r in H. pose proof (through (rev l) s v (fun o => Val o) H) as T. rewrite R in T. destruct T as (o & N & _ & A & _). pose proof (proj2 (proj2 (proj2 H)) i o N) as (C1 & C2 & C3 & C4).
  unfold get_type, get_bubbles, get_cancelable, get_mutation, get_change, get_flags. rewrite A. cbn [obind]. split; [|split; [|rewrite C3, C4; reflexivity]].
  - destruct (initialised (rev l) i) as [((t & b) & c)|]; destruct C1 as (-> & -> & ->); auto.
  - destruct (mutation (rev l) i) as [(((p & n) & a) & ch)|]; destruct C2 as (-> & -> & -> & ->); auto.
Qed.
Lemma lives_lemma : forall l s, run at_start l = Val s -> length (e_objects s) = made (rev l) /\
  forall i o, nth_error (e_objects s) i = Some o -> (o_freed o = true <-> forall v, refers (rev l) v <> Some i).
Proof.
  intros l s E. pose proof (proj2 (run_lemma l [] at_start holds_start) s E) as H. rewrite app_nil_r in H. destruct H as (EV & LN & (n & A & B & C) & _). split; [exact LN|]. intros i o N. destruct (C i o N) as (CT & FR). cbn [is_event b2z] in CT. rewrite Z.add_0_r in CT. rewrite FR, CT, Z.eqb_eq, cnt_zero. split.
  - intros H v R. rewrite <- EV in R. destruct (Nat.lt_ge_cases v n) as [L|L]; [exact (H v L R)|rewrite (A v L) in R; discriminate].
  - intros H v _ R. rewrite EV in R. exact (H v R).
Qed.
