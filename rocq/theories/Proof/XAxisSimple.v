From Coq Require Import Permutation Bool.
From Verif.Model Require Import Base XNode XAxis.
From Verif.Spec Require Import XOrder XAxisSpec.
From Verif.Proof Require Import Tac ContainersProof XOrderProof XAxisProof XAxisWalks XAxisMore.

Lemma picks_length : forall {A} (P : A -> Prop) l m, picks P l m -> (length m <= length l)%nat.
Proof. intros A P l m H. induction H; cbn; lia. Qed.
Lemma nodes_length : forall t, (length (nodes t) <= length (order t []))%nat.
Proof. intros t. unfold nodes. induction (order t []) as [|x l IH]; cbn; [lia|]. destruct (negb (continues t x)); cbn; lia. Qed.

(** * Ancestors *)
Fixpoint anc (p : path) : list path := match p with [] => [] | _ :: q => q :: anc q end.
Lemma in_anc : forall x y, In y (anc x) <-> is_above y x.
Proof.
  induction x as [|s x IH]; intros y; cbn [anc In].
  - split; [contradiction|]. intros (l & N & E). destruct l; [contradiction|discriminate].
  - rewrite IH. split.
    + intros [<-|(l & N & ->)]; [exists [s]|exists (s :: l)]; split; try discriminate; reflexivity.
    + intros (l & N & E). destruct l as [|s' l]; [contradiction|]. cbn in E. injection E as <- E. destruct l as [|s' l]; [left; exact E|right]. exists (s' :: l). split; [discriminate|exact E].
Qed.
Lemma prefix_good : forall t i q u, shape_ok t -> kids_only q -> subtree t (Kid i :: q) = Some u -> continues t q = false.
Proof.
  intros t i q u SH K U. cbn [subtree] in U. destruct (subtree t q) as [w|] eqn:W; [|discriminate]. unfold continues, is_text. rewrite W. rewrite (notext_kids w); [reflexivity|apply (shape_sub t q); auto|]. intros E. rewrite E in U. destruct i; discriminate.
Qed.
Lemma anc_picks : forall t z, shape_ok t -> forall x u, kids_only x -> subtree t x = Some u -> (exists m, z = m ++ x) ->
  picks (fun y => is_above y z) (filter (fun p => negb (continues t p)) (earlier t x)) (rev (anc x)).
Proof.
  intros t z SH. induction x as [|s x IH]; intros u K U (m & ->); [constructor|]. destruct s as [i| |]; try contradiction. pose proof (prefix_good t i x u SH K U) as PG. cbn [subtree] in U. cbn [earlier anc rev]. destruct (subtree t x) as [w|] eqn:W; [|discriminate].
  destruct w as [iw a k]. rewrite filter_app. apply picks_app.
  - apply (IH (Xt iw a k) K eq_refl). exists (m ++ [Kid i]). rewrite <- app_assoc. reflexivity.
  - cbn [filter]. rewrite PG. cbn [negb]. apply picks_in; [exists (m ++ [Kid i]); split; [destruct m; discriminate|rewrite <- app_assoc; reflexivity]|].
    apply picks_none. intros y Y _ (n & _ & E). apply in_app_or in Y. destruct Y as [Y|Y].
    + apply in_attributes in Y. destruct Y as (j & _ & ->). apply suffix_eq in E; [|reflexivity]. destruct E as (_ & E). discriminate.
    + apply in_orders in Y. destruct Y as (j & kj & NJ & Y). apply nth_firstn in NJ. apply in_order_suffix in Y. destruct Y as (l & ->). rewrite app_assoc in E. apply suffix_eq in E; [|reflexivity]. destruct E as (_ & E). injection E as E. lia.
Qed.
Lemma above_earlier : forall t x u y, kids_only x -> subtree t x = Some u -> is_above y x -> In y (earlier t x).
Proof.
  intros t. induction x as [|s x IH]; intros u y K U A; [apply above_len in A; cbn in A; lia|]. destruct s as [i| |]; try contradiction. cbn [subtree] in U. cbn [earlier]. destruct (subtree t x) as [w|] eqn:W; [|discriminate]. destruct w as [iw a k]. apply in_or_app.
  apply in_anc in A. cbn [anc In] in A. destruct A as [<-|A]; [right; left; reflexivity|left]. apply (IH _ y K eq_refl). apply in_anc. exact A.
Qed.
Lemma ancestor_picks : forall t x u, shape_ok t -> kids_only x -> subtree t x = Some u -> picks (on_axis t Ancestor x) (nodes t) (rev (anc x)).
Proof.
  intros t x u SH K U. unfold nodes. rewrite (order_split t x u K U), !filter_app. rewrite <- (app_nil_r (rev (anc x))). apply picks_app; [apply (anc_picks t x SH x u K U); exists []; reflexivity|].
  rewrite <- filter_app. apply picks_none. intros y Y _ A. cbn [on_axis] in A. pose proof (above_earlier t x u y K U A) as E. pose proof (order_nodup t []) as N. rewrite (order_split _ _ _ K U) in N. destruct (nodup_mid _ _ _ N) as (N1 & _ & N3). apply in_app_or in Y. destruct Y; eauto.
Qed.
Lemma ancestor_self_picks : forall t x u, shape_ok t -> kids_only x -> subtree t x = Some u -> continues t x = false -> picks (on_axis t AncestorOrSelf x) (nodes t) (rev (x :: anc x)).
Proof.
  intros t x u SH K U C. unfold nodes. rewrite (order_split t x u K U), !filter_app. cbn [rev]. pose proof (order_nodup t []) as N. rewrite (order_split _ _ _ K U) in N. destruct (nodup_mid _ _ _ N) as (N1 & N2 & N3). destruct (order_head x u) as (r & E & A). apply picks_app.
  - eapply picks_ext; [|apply (anc_picks t x SH x u K U); exists []; reflexivity]. intros y Y. apply filter_In in Y. destruct Y as (Y & _). cbn [on_axis]. assert (y <> x) by (intros ->; apply (N1 x Y); rewrite E; left; reflexivity). tauto.
  - change [x] with ([x] ++ []). apply picks_app.
    + rewrite E. cbn [filter]. rewrite C. cbn [negb]. apply picks_in; [right; reflexivity|]. apply picks_none. intros y Y _ [X| ->]; [apply A in Y; apply above_len in X; apply above_len in Y; lia|apply A in Y; apply above_len in Y; lia].
    + apply picks_none. intros y Y _ [X| ->]; [apply (N3 y); [apply (above_earlier t x u); auto|exact Y]|apply (N2 x); [rewrite E; left; reflexivity|exact Y]].
Qed.
Lemma attribute_ancestor_picks : forall t e w i, shape_ok t -> kids_only e -> subtree t e = Some w -> (i < length (t_attrs w))%nat -> picks (on_axis t Ancestor (Att i :: e)) (nodes t) (rev (e :: anc e)).
Proof.
  intros t e w i SH K W L. pose proof (shape_sub t e w SH K W) as SW.
  assert (C : continues t e = false). { unfold continues, is_text. rewrite W. destruct (tree_is_text w) eqn:T; [|reflexivity]. destruct (text_leaf w SW T) as (j & ->). cbn in L. lia. }
  eapply picks_ext; [|apply (ancestor_self_picks t e w SH K W C)]. intros y _. cbn [on_axis]. rewrite <- !in_anc. cbn [anc In]. intuition congruence.
Qed.
Lemma att_suffix : forall i e y l, y = l ++ Att i :: e -> kids_only y -> False.
Proof. intros i e y l -> K. apply kids_only_app in K. destruct K as (_ & K). exact K. Qed.
Lemma attribute_ancestor_self_picks : forall t e w i, shape_ok t -> kids_only e -> subtree t e = Some w -> (i < length (t_attrs w))%nat -> picks (on_axis t AncestorOrSelf (Att i :: e)) (nodes t) (rev ((Att i :: e) :: e :: anc e)).
Proof.
  intros t e w i SH K W L. pose proof (shape_sub t e w SH K W) as SW.
  assert (C : continues t e = false). { unfold continues, is_text. rewrite W. destruct (tree_is_text w) eqn:T; [|reflexivity]. destruct (text_leaf w SW T) as (j & ->). cbn in L. lia. }
  destruct (attribute_place t e w i K W L) as (a & b & c & E & EC & AB & ABC). pose proof (order_nodup t []) as N. rewrite E in N. unfold nodes. rewrite E. apply NoDup_remove_2 in N.
  cbn [rev]. rewrite <- !app_assoc. cbn [app]. rewrite filter_app. apply picks_app.
  - eapply picks_ext; [|apply (anc_picks t (Att i :: e) SH e w K W); exists [Att i]; reflexivity]. intros y Y. apply filter_In in Y. destruct Y as (Y & _). cbn [on_axis]. assert (y <> Att i :: e); [|tauto]. intros ->. apply N. rewrite !in_app_iff. tauto.
  - cbn [filter app]. rewrite C. cbn [negb]. apply picks_in; [left; exists [Att i]; split; [discriminate|reflexivity]|]. rewrite filter_app. change [Att i :: e] with ([] ++ [Att i :: e]). apply picks_app.
    + apply picks_none. intros y Y _ [X| ->]; [|apply N; rewrite !in_app_iff; cbn; tauto]. destruct (ABC y (or_introl Y)) as (l & NL & ->). destruct X as (n & NN & X). apply (f_equal (@length xstep)) in X. rewrite !app_length in X. destruct l; [contradiction|]. destruct n; [contradiction|]. cbn in X. lia.
    + cbn [filter continues prev_sibling]. unfold continues at 1. cbn [prev_sibling]. rewrite andb_false_r. cbn [negb]. apply picks_in; [right; reflexivity|]. apply picks_none. intros y Y _ [X| ->]; [|apply N; rewrite !in_app_iff in *; cbn; tauto].
      apply in_app_or in Y. rewrite in_app_iff in Y. destruct Y as [Y|[Y|Y]].
      * destruct (ABC y (or_intror (or_introl Y))) as (l & NL & ->). destruct X as (n & NN & X). apply (f_equal (@length xstep)) in X. rewrite !app_length in X. destruct l; [contradiction|]. destruct n; [contradiction|]. cbn in X. lia.
      * destruct (ABC y (or_intror (or_intror Y))) as (l & NL & ->). destruct X as (n & NN & X). apply (f_equal (@length xstep)) in X. rewrite !app_length in X. destruct l; [contradiction|]. destruct n; [contradiction|]. cbn in X. lia.
      * apply in_anc in X. cbn [anc In] in X. destruct X as [<-|X].
        -- exact (outside t e w K W e (or_intror Y) (ex_intro _ [] eq_refl)).
        -- apply in_anc in X. pose proof (above_earlier t e w y K W X) as Z. pose proof (order_nodup t []) as N'. rewrite (order_split _ _ _ K W) in N'. destruct (nodup_mid _ _ _ N') as (_ & _ & N3). exact (N3 y Z Y).
Qed.
Lemma anc_chain : forall x, kids_only x -> forall nxt, (forall p, kids_only p -> (length p < length x)%nat -> nxt p = To (parent p)) -> chain nxt (anc x) (To None).
Proof.
  induction x as [|[i| |] x IH]; intros K nxt H; try contradiction; [exact I|]. cbn [anc chain]. split; [|apply IH; [exact K|intros p KP L; apply H; [exact KP|cbn; lia]]].
  rewrite H; [|exact K|cbn; lia]. destruct x as [|[j| |] x]; try contradiction; reflexivity.
Qed.
Lemma sub_prefix : forall t l p u, subtree t (l ++ p) = Some u -> exists w, subtree t p = Some w.
Proof. intros t l p u H. rewrite subtree_app in H. destruct (subtree t p) as [w|]; [exists w; reflexivity|discriminate]. Qed.

(** * Children and siblings *)
Definition kid_at (q : path) (j : nat) : path := Kid j :: q.
Lemma kids_picks : forall t q w R, shape_ok t -> kids_only q -> subtree t q = Some w ->
  picks (fun y => exists j, y = Kid j :: q /\ R j = true) (nodes t) (map (kid_at q) (filter R (counted 0 false (t_kids w)))).
Proof.
  intros t q w R SH K W. set (P := fun y => exists j, y = Kid j :: q /\ R j = true). unfold nodes. rewrite (order_split t q w K W), !filter_app. set (M := map _ _). rewrite <- (app_nil_l M), <- (app_nil_r M). unfold M. clear M. apply picks_app; [|apply picks_app].
  - apply picks_none. intros y Y _ (j & -> & _). exact (outside t q w K W (Kid j :: q) (or_introl Y) (ex_intro _ [Kid j] eq_refl)).
  - assert (G : forall l i, (forall j k, nth_error l j = Some k -> nth_error (t_kids w) (i + j) = Some k) -> picks P (filter (fun p => negb (continues t p)) (orders q i l)) (map (kid_at q) (filter R (counted i (flag_at w i) l)))).
    { induction l as [|k l IH]; intros i H; [constructor|]. assert (NK : nth_error (t_kids w) i = Some k) by (specialize (H O k eq_refl); rewrite Nat.add_0_r in H; exact H).
      cbn [orders counted]. rewrite !filter_app, map_app. apply picks_app.
      - destruct (order_head (Kid i :: q) k) as (r & E & A). rewrite E. cbn [filter]. rewrite (continues_kid t q w i k W NK).
        assert (NR : picks P (filter (fun p => negb (continues t p)) r) []). { apply picks_none. intros y Y _ (j & -> & _). apply A in Y. apply above_len in Y. cbn in Y. lia. }
        destruct (flag_at w i && tree_is_text k); cbn [negb]; [exact NR|]. cbn [filter]. destruct (R i) eqn:RI.
        + apply picks_in; [exists i; auto|exact NR].
        + apply picks_out; [|exact NR]. intros (j & EJ & RJ). injection EJ as <-. congruence.
      - replace (tree_is_text k) with (flag_at w (S i)) by (cbn [flag_at]; rewrite NK; reflexivity). apply IH. intros j x E. specialize (H (S j) x E). rewrite Nat.add_succ_r in H. exact H. }
    destruct w as [iw a k]. rewrite order_eq. change (q :: attributes_of q 0 a ++ orders q 0 k) with ([q] ++ attributes_of q 0 a ++ orders q 0 k). rewrite !filter_app. set (M := map _ _). change M with ([] ++ [] ++ M). apply picks_app; [|apply picks_app].
    + apply picks_none. intros y [<-|[]] _ (j & E & _). apply (f_equal (@length xstep)) in E. cbn in E. lia.
    + apply picks_none. intros y Y _ (j & -> & _). apply in_attributes in Y. destruct Y as (n & _ & E). discriminate.
    + apply (G k O). auto.
  - apply picks_none. intros y Y _ (j & -> & _). exact (outside t q w K W (Kid j :: q) (or_intror Y) (ex_intro _ [Kid j] eq_refl)).
Qed.
Lemma hd_map : forall {A B} (f : A -> B) l, hd_error (map f l) = option_map f (hd_error l).
Proof. intros A B f [|]; reflexivity. Qed.
Lemma next_chain : forall t q w l i prev, subtree t q = Some w -> l = skipn i (t_kids w) -> chain (fun c => To (find_next_sibling t c)) (map (kid_at q) (counted i prev l)) (To None).
Proof.
  intros t q w l. induction l as [|k l IH]; intros i prev W E; [exact I|].
  assert (NK : nth_error (t_kids w) i = Some k) by (rewrite <- (Nat.add_0_r i), <- nth_skipn, <- E; reflexivity).
  assert (El : l = skipn (S i) (t_kids w)). { destruct (nth_split3 _ _ _ NK) as (E1 & L1). rewrite E1 in E. rewrite skipn_app, L1, Nat.sub_diag, skipn_all2 in E by lia. cbn [app skipn] in E. injection E as E. exact E. }
  specialize (IH (S i) (tree_is_text k) W El). cbn [counted]. rewrite map_app. apply chain_app; [|exact IH]. destruct (prev && tree_is_text k); [exact I|]. cbn [map chain]. split; [|exact I]. unfold kid_at at 1. rewrite (find_next t q w i k W NK), <- El. destruct (counted (S i) (tree_is_text k) l); reflexivity.
Qed.
Lemma counted_bounds : forall l i prev j, In j (counted i prev l) -> (i <= j < i + length l)%nat.
Proof. induction l as [|k l IH]; intros i prev j H; [contradiction|]. cbn [counted] in H. apply in_app_or in H. destruct H as [H|H]; [destruct (prev && tree_is_text k); [contradiction|]; destruct H as [<-|[]]; cbn; lia|]. apply IH in H. cbn [length]. lia. Qed.
Lemma counted_app : forall w l m i, (forall j k, nth_error (l ++ m) j = Some k -> nth_error (t_kids w) (i + j) = Some k) -> counted i (flag_at w i) (l ++ m) = counted i (flag_at w i) l ++ counted (i + length l) (flag_at w (i + length l)) m.
Proof.
  intros w l m. induction l as [|k l IH]; intros i H; [cbn; rewrite Nat.add_0_r; reflexivity|]. assert (NK : nth_error (t_kids w) i = Some k) by (specialize (H O k eq_refl); rewrite Nat.add_0_r in H; exact H).
  cbn [app counted length]. rewrite <- app_assoc. f_equal. replace (tree_is_text k) with (flag_at w (S i)) by (cbn [flag_at]; rewrite NK; reflexivity). rewrite IH; [do 2 f_equal; [|f_equal]; lia|]. intros j x E. specialize (H (S j) x E). rewrite Nat.add_succ_r in H. exact H.
Qed.
Lemma filter_true : forall {A} (f : A -> bool) l, (forall x, In x l -> f x = true) -> filter f l = l.
Proof. intros A f l H. induction l as [|x l IH]; [reflexivity|]. cbn. rewrite H by (left; reflexivity). f_equal. apply IH. intros y Y. apply H. right. exact Y. Qed.
Lemma filter_false : forall {A} (f : A -> bool) l, (forall x, In x l -> f x = false) -> filter f l = [].
Proof. intros A f l H. induction l as [|x l IH]; [reflexivity|]. cbn. rewrite H by (left; reflexivity). apply IH. intros y Y. apply H. right. exact Y. Qed.
Lemma counted_split : forall w i k, nth_error (t_kids w) i = Some k ->
  filter (fun j => Nat.ltb i j) (counted 0 false (t_kids w)) = counted (S i) (tree_is_text k) (skipn (S i) (t_kids w)) /\
  filter (fun j => Nat.ltb j i) (counted 0 false (t_kids w)) = counted 0 false (firstn i (t_kids w)).
Proof.
  intros w i k E. destruct (nth_split3 _ _ _ E) as (E1 & L1).
  assert (EC : counted 0 false (t_kids w) = counted 0 false (firstn i (t_kids w)) ++ (if flag_at w i && tree_is_text k then [] else [i]) ++ counted (S i) (tree_is_text k) (skipn (S i) (t_kids w))).
  { rewrite E1 at 1. change false with (flag_at w 0) at 1. rewrite counted_app; [|intros j x; rewrite <- E1; auto]. rewrite L1. cbn [Nat.add counted flag_at]. reflexivity. }
  assert (B1 : forall j, In j (counted 0 false (firstn i (t_kids w))) -> (j < i)%nat) by (intros j J; apply counted_bounds in J; lia).
  assert (B2 : forall j, In j (counted (S i) (tree_is_text k) (skipn (S i) (t_kids w))) -> (i < j)%nat) by (intros j J; apply counted_bounds in J; lia).
  assert (B0 : forall j, In j (if flag_at w i && tree_is_text k then [] else [i]) -> j = i) by (intros j; destruct (flag_at w i && tree_is_text k); cbn; intuition).
  rewrite EC, !filter_app. revert B1 B2 B0. generalize (counted 0 false (firstn i (t_kids w))), (counted (S i) (tree_is_text k) (skipn (S i) (t_kids w))), (if flag_at w i && tree_is_text k then [] else [i]). intros A B C B1 B2 B0. split.
  - rewrite (filter_false _ A), (filter_false _ C), (filter_true _ B); [reflexivity| | |]; intros j J; [apply Nat.ltb_lt; apply B2; exact J|apply Nat.ltb_ge; apply B0 in J; lia|apply Nat.ltb_ge; apply B1 in J; lia].
  - rewrite (filter_true _ A), (filter_false _ C), (filter_false _ B); [rewrite !app_nil_r; reflexivity| | |]; intros j J; [apply Nat.ltb_ge; apply B2 in J; lia|apply Nat.ltb_ge; apply B0 in J; lia|apply Nat.ltb_lt; apply B1; exact J].
Qed.
Definition run_start (w : xtree) (m : nat) (k : xtree) : nat := if tree_is_text k then back_texts (t_kids w) m else m.
Lemma counted_last : forall w m k, nth_error (t_kids w) m = Some k -> counted 0 false (firstn (S m) (t_kids w)) = counted 0 false (firstn (run_start w m k) (t_kids w)) ++ [run_start w m k] /\ (run_start w m k <= m)%nat.
Proof.
  intros w m. induction m as [|m IH]; intros k E.
  - assert (Z : run_start w 0 k = O) by (unfold run_start; destruct (tree_is_text k); reflexivity). rewrite Z. destruct (t_kids w) as [|k0 r]; [discriminate|]. split; [reflexivity|lia].
  - destruct (nth_error (t_kids w) m) as [k'|] eqn:E'; [|apply nth_error_None in E'; assert (nth_error (t_kids w) (S m) <> None) by congruence; apply nth_error_Some in H; lia].
    assert (ES : counted 0 false (firstn (S (S m)) (t_kids w)) = counted 0 false (firstn (S m) (t_kids w)) ++ (if tree_is_text k' && tree_is_text k then [] else [S m])).
    { destruct (firstn_S _ _ _ E) as (F & LF). rewrite F. change false with (flag_at w 0) at 1. rewrite counted_app; [|intros j x; rewrite <- F; intros J; apply nth_firstn in J; apply J]. rewrite LF. cbn [Nat.add counted flag_at]. rewrite E', app_nil_r. reflexivity. }
    rewrite ES. destruct (IH k' eq_refl) as (I1 & I2). unfold run_start at 1 2 3. unfold run_start in I1, I2. destruct (tree_is_text k) eqn:T; cbn [back_texts]; [rewrite E'|]; destruct (tree_is_text k') eqn:T'; cbn [andb].
    + rewrite app_nil_r. split; [exact I1|]. lia.
    + split; [reflexivity|lia].
    + split; [reflexivity|lia].
    + split; [reflexivity|lia].
Qed.
Lemma find_previous : forall t q w m k, subtree t q = Some w -> nth_error (t_kids w) m = Some k -> find_previous_sibling t (Kid (S m) :: q) = Some (Kid (run_start w m k) :: q).
Proof. intros t q w m k W E. unfold find_previous_sibling, run_start, is_text. cbn [prev_sibling subtree]. rewrite W, E. destruct (tree_is_text k); reflexivity. Qed.
Lemma previous_chain : forall t q w, subtree t q = Some w -> forall n i, (i <= n)%nat -> (i <= length (t_kids w))%nat ->
  chain (fun c => To (find_previous_sibling t c)) (map (kid_at q) (rev (counted 0 false (firstn i (t_kids w))))) (To None) /\
  find_previous_sibling t (Kid i :: q) = hd_error (map (kid_at q) (rev (counted 0 false (firstn i (t_kids w))))).
Proof.
  intros t q w W. induction n as [|n IH]; intros i L L'.
  - replace i with O by lia. split; [exact I|reflexivity].
  - destruct i as [|m]; [split; [exact I|reflexivity]|]. destruct (nth_error (t_kids w) m) as [k|] eqn:E; [|apply nth_error_None in E; lia].
    rewrite (find_previous t q w m k W E). destruct (counted_last w m k E) as (EC & LB). rewrite EC, rev_app_distr. cbn [rev app map hd_error]. destruct (IH (run_start w m k) ltac:(lia) ltac:(lia)) as (I1 & I2). split; [|reflexivity]. cbn [chain]. split; [|exact I1].
    unfold kid_at at 1. rewrite I2. destruct (map (kid_at q) (rev (counted 0 false (firstn (run_start w m k) (t_kids w))))); reflexivity.
Qed.

(** * Attributes *)
Lemma attribute_picks : forall t x u, kids_only x -> subtree t x = Some u -> picks (on_axis t Attribute x) (nodes t) (attribute_nodes x 0 (t_attrs u)).
Proof.
  intros t x u K U. unfold nodes. rewrite (order_split t x u K U), !filter_app. set (M := attribute_nodes _ _ _). rewrite <- (app_nil_l M), <- (app_nil_r M). unfold M. clear M. apply picks_app; [|apply picks_app].
  - apply picks_none. intros y Y _ (j & v & -> & _). exact (outside t x u K U (Att j :: x) (or_introl Y) (ex_intro _ [Att j] eq_refl)).
  - destruct u as [iu a k]. cbn [t_attrs]. rewrite order_eq. change (x :: attributes_of x 0 a ++ orders x 0 k) with ([x] ++ attributes_of x 0 a ++ orders x 0 k). rewrite !filter_app.
    change (attribute_nodes x 0 a) with ([] ++ attribute_nodes x 0 a). apply picks_app; [apply picks_none; intros y [<-|[]] _ (j & v & E & _); apply (f_equal (@length xstep)) in E; cbn in E; lia|]. rewrite <- (app_nil_r (attribute_nodes x 0 a)). apply picks_app.
    + assert (G : forall l i, (forall j b, nth_error l j = Some b -> nth_error a (i + j) = Some b) -> picks (on_axis t Attribute x) (filter (fun p => negb (continues t p)) (attributes_of x i l)) (attribute_nodes x i l)); [|apply (G a O); auto].
      induction l as [|b l IH]; intros i H; [constructor|]. assert (NB : nth_error a i = Some b) by (specialize (H O b eq_refl); rewrite Nat.add_0_r in H; exact H).
      assert (IL : picks (on_axis t Attribute x) (filter (fun p => negb (continues t p)) (attributes_of x (S i) l)) (attribute_nodes x (S i) l)) by (apply IH; intros j c E; specialize (H (S j) c E); rewrite Nat.add_succ_r in H; exact H).
      cbn [attributes_of attribute_nodes filter]. unfold continues at 1. cbn [prev_sibling]. rewrite andb_false_r. cbn [negb].
      assert (SB : subtree t (Att i :: x) = Some b) by (cbn [subtree]; rewrite U; exact NB).
      pose proof (str_eqb_true (i_uri (t_info b)) xmlns_uri) as SE. destruct (str_eqb (i_uri (t_info b)) xmlns_uri).
      * apply picks_out; [|exact IL]. intros (j & v & E & SV & NV). injection E as <-. rewrite SB in SV. injection SV as <-. apply NV. apply SE. reflexivity.
      * apply picks_in; [|exact IL]. exists i, b. split; [reflexivity|]. split; [exact SB|]. intros E. apply SE in E. discriminate.
    + apply picks_none. intros y Y _ (j & v & -> & _). apply in_orders in Y. destruct Y as (m & km & _ & Y). apply in_order_suffix in Y. destruct Y as ([|s l] & E); [discriminate|]. cbn in E. injection E as _ E. apply (f_equal (@length xstep)) in E. rewrite app_length in E. cbn in E. lia.
  - apply picks_none. intros y Y _ (j & v & -> & _). exact (outside t x u K U (Att j :: x) (or_intror Y) (ex_intro _ [Att j] eq_refl)).
Qed.
Lemma run_take : forall t p l fuel, (length l <= fuel)%nat -> run_walker fuel t (Some (take Attribute p l)) = Nodes l.
Proof.
  intros t p. induction l as [|x l IH]; intros fuel L; [destruct fuel; reflexivity|]. destruct fuel as [|f]; [cbn in L; lia|]. cbn [take run_walker w_current]. unfold advance. cbn [w_axis w_origin w_left]. rewrite IH by (cbn in L; lia). reflexivity.
Qed.
Lemma run_once : forall t a o p fuel, (a = Self \/ a = Parent) -> (1 <= fuel)%nat -> run_walker fuel t (Some (Walker a o (Some p) None [])) = Nodes [p].
Proof. intros t a o p [|fuel] A L; [lia|]. cbn [run_walker w_current]. destruct A as [-> | ->]; unfold advance; cbn [w_axis]; destruct fuel; reflexivity. Qed.
Lemma order_some : forall t, (1 <= length (order t []))%nat.
Proof. intros [i a k]. rewrite order_eq. cbn. lia. Qed.

Definition provided (t : xtree) (a : axis) (x : path) : Prop :=
  a <> Namespace /\ (a = Child -> ~ is_attribute x) /\ (a = Following -> t_kind t = Xdocument) /\ (a = Preceding -> normal t).
Lemma axis_lemma : forall t x a fuel first, shape_ok t -> t_kind t <> Xattribute -> In x (nodes t) -> provided t a x -> (length (order t []) <= fuel)%nat ->
  exists l, enumerate fuel t first a x = Nodes l /\ axis_list t a x l.
Proof.
  intros t x a fuel first SH R I (NN & PC & PF & PP) L. pose proof (nodes_length t) as NL. pose proof (order_some t) as OS.
  assert (LEN : forall P l, picks P (nodes t) l -> (length l <= fuel)%nat) by (intros P l C; apply picks_length in C; lia).
  apply nodes_in in I. destruct I as (I & C). pose proof I as I0. apply in_order in I. destruct I as [(K & u & U)|(i & e & -> & K & u & U)].
  - assert (KK : is_kind t x Xattribute = false) by (apply (kids_kind t x u); auto).
    destruct a; try contradiction; unfold axis_list; cbn [axis_forward].
    + exists (anc x). pose proof (ancestor_picks t x u SH K U) as PK. split; [|exact PK]. unfold enumerate, start, parent_or_owner. rewrite KK.
      replace (parent x) with (hd_error (anc x)) by (destruct x as [|[]]; try contradiction; reflexivity). apply (run_chain t Ancestor x None [] (fun c => To (parent c))); [intros w c E1 E2; unfold advance, at_; rewrite E1; reflexivity|apply anc_chain; auto|]. apply LEN in PK. rewrite rev_length in PK. exact PK.
    + exists (x :: anc x). pose proof (ancestor_self_picks t x u SH K U C) as PK. split; [|exact PK]. unfold enumerate, start. change (Some x) with (hd_error (x :: anc x)).
      apply (run_chain t AncestorOrSelf x None [] (fun c => To (parent_or_owner t c))); [intros w c E1 E2; unfold advance, at_; rewrite E1; reflexivity| |apply LEN in PK; rewrite rev_length in PK; exact PK]. split.
      * unfold parent_or_owner. rewrite KK. destruct x as [|[]]; try contradiction; reflexivity.
      * clear - SH R K U. revert u U. induction x as [|[j| |] x IH]; intros u U; try contradiction; [exact Logic.I|]. cbn [anc chain]. destruct (sub_prefix t [Kid j] x u U) as (w & W). split; [|apply (IH K w W)].
        unfold parent_or_owner. rewrite (kids_kind t x w SH R K W). destruct x as [|[]]; try contradiction; reflexivity.
    + exists (attribute_nodes x 0 (t_attrs u)). pose proof (attribute_picks t x u K U) as PK. split; [|exact PK]. unfold enumerate, start. rewrite U. apply run_take. apply (LEN _ _ PK).
    + exists (map (kid_at x) (counted 0 false (t_kids u))).
      assert (PK : picks (on_axis t Child x) (nodes t) (map (kid_at x) (counted 0 false (t_kids u)))).
      { pose proof (kids_picks t x u (fun _ => true) SH K U) as PK. rewrite filter_true in PK by auto. eapply picks_ext; [|exact PK]. intros y Y. cbn [on_axis]. split.
        - intros (j & -> & _). split; [intros (n & q & E); discriminate|exists (Kid j); reflexivity].
        - intros (NA & s & ->). apply nodes_in in Y. destruct Y as (Y & _). apply in_order in Y. destruct Y as [(KY & _)|(n & q & E & _)]; [destruct s as [j| |]; try contradiction; exists j; auto|]. exfalso. apply NA. exists n, q. exact E. }
      split; [|exact PK]. unfold enumerate, start. replace (first_child t x) with (hd_error (map (kid_at x) (counted 0 false (t_kids u)))) by (rewrite (first_cns t x u U), hd_cns, hd_map; reflexivity).
      apply (run_chain t Child x None [] (fun c => To (find_next_sibling t c))); [intros w c E1 E2; unfold advance, at_; rewrite E1; reflexivity|apply (next_chain t x u); auto|apply (LEN _ _ PK)].
    + exists (cns x 0 false (t_kids u)). pose proof (descendant_picks t x u SH K U) as PK. split; [|exact PK]. apply descendant_run; auto. apply (LEN _ _ PK).
    + exists (x :: cns x 0 false (t_kids u)). pose proof (descendant_self_picks t x u SH K U C) as PK. split; [|exact PK]. apply descendant_self_run; auto. apply (LEN _ _ PK).
    + exists (fp t x). pose proof (following_picks t x u SH K U) as PK. split; [|exact PK]. apply (following_run t x u); auto. apply (LEN _ _ PK).
    + destruct x as [|[i| |] q]; try contradiction.
      * exists []. split; [|apply picks_nothing; intros y _ (i & j & q & E & _); discriminate]. unfold enumerate, start, find_next_sibling. destruct (negb (is_text t [])); destruct fuel; reflexivity.
      * pose proof U as U0. cbn [subtree] in U. destruct (subtree t q) as [w|] eqn:W; [|discriminate]. exists (map (kid_at q) (counted (S i) (tree_is_text u) (skipn (S i) (t_kids w)))).
        assert (PK : picks (on_axis t FollowingSibling (Kid i :: q)) (nodes t) (map (kid_at q) (counted (S i) (tree_is_text u) (skipn (S i) (t_kids w))))).
        { pose proof (kids_picks t q w (fun j => Nat.ltb i j) SH K W) as PK. destruct (counted_split w i u U) as (E1 & _). rewrite E1 in PK. eapply picks_ext; [|exact PK]. intros y _. cbn [on_axis]. split.
          - intros (j & -> & LT). apply Nat.ltb_lt in LT. exists i, j, q. auto.
          - intros (i' & j & q' & E & -> & LT). injection E as <- <-. exists j. split; [reflexivity|]. apply Nat.ltb_lt. exact LT. }
        split; [|exact PK]. unfold enumerate, start. rewrite (find_next t q w i u W U), <- hd_map.
        apply (run_chain t FollowingSibling (Kid i :: q) None [] (fun c => To (find_next_sibling t c))); [intros v c E1 E2; unfold advance, at_; rewrite E1; reflexivity|apply (next_chain t q w); auto|apply (LEN _ _ PK)].
    + destruct x as [|[i| |] q]; try contradiction.
      * exists []. split; [|apply picks_nothing; intros y _ (s & E); discriminate]. unfold enumerate, start, parent_or_owner. rewrite KK. destruct fuel; reflexivity.
      * exists [q]. split; [unfold enumerate, start, parent_or_owner; rewrite KK; apply run_once; [auto|lia]|]. cbn [rev app]. eapply picks_ext; [|apply picks_eq; [apply nodes_nodup|apply nodes_in; split]].
        -- intros y _. cbn [on_axis]. split; [intros ->; exists (Kid i); reflexivity|intros (s & E); injection E as _ E; congruence].
        -- destruct (sub_prefix t [Kid i] q u U) as (w & W). apply (in_here t q w K W).
        -- apply (prefix_good t i q u SH K U).
    + specialize (PP eq_refl). exists (rev (pre t x)). rewrite rev_involutive. pose proof (preceding_picks t x u SH PP K U) as PK. split; [|exact PK]. apply (preceding_run t x u x); auto. apply (LEN _ _ PK).
    + destruct x as [|[i| |] q]; try contradiction.
      * exists []. split; [|apply picks_nothing; intros y _ (i & j & q & E & _); discriminate]. destruct fuel; reflexivity.
      * pose proof U as U0. cbn [subtree] in U. destruct (subtree t q) as [w|] eqn:W; [|discriminate]. assert (LI : (i < length (t_kids w))%nat) by (apply nth_error_Some; congruence). exists (map (kid_at q) (rev (counted 0 false (firstn i (t_kids w))))).
        assert (PK : picks (on_axis t PrecedingSibling (Kid i :: q)) (nodes t) (rev (map (kid_at q) (rev (counted 0 false (firstn i (t_kids w))))))).
        { rewrite <- map_rev, rev_involutive. pose proof (kids_picks t q w (fun j => Nat.ltb j i) SH K W) as PK. destruct (counted_split w i u U) as (_ & E1). rewrite E1 in PK. eapply picks_ext; [|exact PK]. intros y _. cbn [on_axis]. split.
          - intros (j & -> & LT). apply Nat.ltb_lt in LT. exists i, j, q. auto.
          - intros (i' & j & q' & E & -> & LT). injection E as <- <-. exists j. split; [reflexivity|]. apply Nat.ltb_lt. exact LT. }
        split; [|exact PK]. destruct (previous_chain t q w W i i (le_n _) ltac:(lia)) as (CH & HD). unfold enumerate, start. rewrite HD.
        apply (run_chain t PrecedingSibling (Kid i :: q) None [] (fun c => To (find_previous_sibling t c))); [intros v c E1 E2; unfold advance, at_; rewrite E1; reflexivity|exact CH|apply LEN in PK; rewrite rev_length in PK; exact PK].
    + exists [x]. split; [apply run_once; [auto|lia]|]. apply picks_eq; [apply nodes_nodup|apply nodes_in; auto].
  - pose proof U as U0. cbn [subtree] in U. destruct (subtree t e) as [w|] eqn:W; [|discriminate]. destruct (attribute_kind t i e w u SH K W U) as (KK & UA & WE). assert (LI : (i < length (t_attrs w))%nat) by (apply nth_error_Some; congruence).
    assert (KE : is_kind t e Xattribute = false) by (apply (kids_kind t e w); auto).
    assert (ISA : is_attribute (Att i :: e)) by (exists i, e; reflexivity).
    assert (LAST : forall y l, In y (nodes t) -> y = l ++ Att i :: e -> l = []).
    { intros y l Y E. apply nodes_in in Y. destruct Y as (Y & _). apply in_order in Y. destruct Y as [(KY & _)|(j & q & E' & KQ & _)]; [exfalso; eapply att_suffix; eauto|]. destruct l as [|s l]; [reflexivity|]. exfalso. rewrite E' in E. cbn in E. injection E as _ E. eapply att_suffix; eauto. }
    destruct a; try contradiction; unfold axis_list; cbn [axis_forward].
    + exists (e :: anc e). pose proof (attribute_ancestor_picks t e w i SH K W LI) as PK. split; [|exact PK]. unfold enumerate, start, parent_or_owner. rewrite KK. cbn [owner_element]. change (Some e) with (hd_error (e :: anc e)).
      apply (run_chain t Ancestor (Att i :: e) None [] (fun c => To (parent c))); [intros v c E1 E2; unfold advance, at_; rewrite E1; reflexivity| |apply LEN in PK; rewrite rev_length in PK; exact PK]. split; [destruct e as [|[]]; try contradiction; reflexivity|apply anc_chain; auto].
    + exists ((Att i :: e) :: e :: anc e). pose proof (attribute_ancestor_self_picks t e w i SH K W LI) as PK. split; [|exact PK]. unfold enumerate, start. change (Some (Att i :: e)) with (hd_error ((Att i :: e) :: e :: anc e)).
      apply (run_chain t AncestorOrSelf (Att i :: e) None [] (fun c => To (parent_or_owner t c))); [intros v c E1 E2; unfold advance, at_; rewrite E1; reflexivity| |apply LEN in PK; rewrite rev_length in PK; exact PK]. split; [unfold parent_or_owner; rewrite KK; reflexivity|].
      split; [unfold parent_or_owner; rewrite KE; destruct e as [|[]]; try contradiction; reflexivity|].
      clear - SH R K W. revert w W. induction e as [|[j| |] x IH]; intros u U; try contradiction; [exact Logic.I|]. cbn [anc chain]. destruct (sub_prefix t [Kid j] x u U) as (w & W). split; [|apply (IH K w W)].
      unfold parent_or_owner. rewrite (kids_kind t x w SH R K W). destruct x as [|[]]; try contradiction; reflexivity.
    + exists []. split; [unfold enumerate, start; rewrite U0, UA; apply run_take; cbn; lia|]. apply picks_nothing. intros y Y (j & v & E & _). apply (LAST y [Att j] Y) in E. discriminate.
    + exfalso. exact (PC eq_refl ISA).
    + exists []. split; [unfold enumerate, start; rewrite KK; destruct fuel; reflexivity|]. apply picks_nothing. intros y Y (_ & l & NL' & E). apply (LAST y l Y) in E. contradiction.
    + exists [Att i :: e]. split.
      * unfold enumerate, start. change (Some (Att i :: e)) with (hd_error [Att i :: e]). apply (run_chain t DescendantOrSelf (Att i :: e) None [] (fun c => walk_down t c (Some (Att i :: e)))); [intros v c E1 E2; unfold advance; rewrite E1, E2; reflexivity| |cbn; lia].
        split; [unfold walk_down; rewrite KK; reflexivity|exact Logic.I].
      * eapply picks_ext; [|apply picks_eq; [apply nodes_nodup|apply nodes_in; split; [exact I0|exact C]]]. intros y Y. cbn [on_axis]. split; [tauto|]. intros [(_ & l & NL' & E)|E]; [apply (LAST y l Y) in E; contradiction|exact E].
    + specialize (PF eq_refl). exists (cns e 0 false (t_kids w) ++ fp t e). pose proof (attribute_following_picks t e w i SH K W LI) as PK. split; [|exact PK]. apply (attribute_following_run t e w u); auto. apply (LEN _ _ PK).
    + exists []. split; [|apply picks_nothing; intros y _ (i' & j & q & E & _); discriminate]. unfold enumerate, start, find_next_sibling. destruct (negb (is_text t (Att i :: e))); destruct fuel; reflexivity.
    + exists [e]. split; [unfold enumerate, start, parent_or_owner; rewrite KK; apply run_once; [auto|lia]|]. cbn [rev app]. eapply picks_ext; [|apply picks_eq; [apply nodes_nodup|apply nodes_in; split]].
      * intros y _. cbn [on_axis]. split; [intros ->; exists (Att i); reflexivity|intros (s & E); injection E as _ E; congruence].
      * apply (in_here t e w K W).
      * unfold continues, is_text. rewrite W. unfold tree_is_text. rewrite WE. reflexivity.
    + specialize (PP eq_refl). exists (rev (pre t e)). rewrite rev_involutive. pose proof (attribute_preceding_picks t e w i SH PP K W LI) as PK. split; [|exact PK]. apply (preceding_run t e w (Att i :: e)); auto. * apply (LEN _ _ PK). * right. split; [exists i; reflexivity|exact KK].
    + exists []. split; [|apply picks_nothing; intros y _ (i' & j & q & E & _); discriminate]. destruct fuel; reflexivity.
    + exists [Att i :: e]. split; [apply run_once; [auto|lia]|]. apply picks_eq; [apply nodes_nodup|apply nodes_in; auto].
Qed.

(** * The axes share out the document *)
Lemma picks_or : forall {A} (P Q : A -> Prop) l a b, (forall y, In y l -> P y -> Q y -> False) -> picks P l a -> picks Q l b -> exists c, picks (fun y => P y \/ Q y) l c /\ Permutation c (a ++ b).
Proof.
  intros A P Q l. induction l as [|x l IH]; intros a b D PA QB.
  - inversion PA; inversion QB; subst. exists []. split; constructor.
  - assert (D' : forall y, In y l -> P y -> Q y -> False) by (intros y Y; apply D; right; exact Y). inversion PA as [|? ? m X M|? ? m X M]; inversion QB as [|? ? n Y N|? ? n Y N]; subst; try (destruct (IH _ _ D' M N) as (c & C1 & C2)).
    + exfalso. apply (D x); [left; reflexivity|exact X|exact Y].
    + exists (x :: c). split; [apply picks_in; auto|]. cbn. constructor. exact C2.
    + exists (x :: c). split; [apply picks_in; auto|]. apply Permutation_cons_app. exact C2.
    + exists c. split; [apply picks_out; tauto|exact C2].
Qed.
Lemma partition_lemma : forall t x fuel first, shape_ok t -> t_kind t = Xdocument -> normal t -> In x (nodes t) -> ~ is_attribute x -> (length (order t []) <= fuel)%nat ->
  exists la ld lf lp all, enumerate fuel t first Ancestor x = Nodes la /\ enumerate fuel t first Descendant x = Nodes ld /\ enumerate fuel t first Following x = Nodes lf /\ enumerate fuel t first Preceding x = Nodes lp /\
    picks (fun y => ~ is_attribute y) (nodes t) all /\ Permutation all (x :: la ++ ld ++ lf ++ lp).
Proof.
  intros t x fuel first SH R N I NA L. assert (RA : t_kind t <> Xattribute) by congruence.
  assert (GO : forall a, a = Ancestor \/ a = Descendant \/ a = Following \/ a = Preceding -> exists l, enumerate fuel t first a x = Nodes l /\ axis_list t a x l).
  { intros a A. apply axis_lemma; auto. repeat split; intros; auto; destruct A as [->|[->|[->| ->]]]; discriminate. }
  destruct (GO Ancestor ltac:(auto)) as (la & EA & PA). destruct (GO Descendant ltac:(auto)) as (ld & ED & PD). destruct (GO Following ltac:(auto)) as (lf & EF & PF). destruct (GO Preceding ltac:(auto)) as (lp & EP & PP).
  unfold axis_list in *. cbn [axis_forward] in *. pose proof (picks_eq (nodes t) x (nodes_nodup t) I) as PS. pose proof (proj1 (nodes_in t x) I) as (IO & _).
  assert (KX : kids_only x /\ exists u, subtree t x = Some u). { apply in_order in IO. destruct IO as [IO|(i & q & -> & _)]; [exact IO|]. exfalso. apply NA. exists i, q. reflexivity. } destruct KX as (KX & u & U).
  assert (AB : forall y, In y (nodes t) -> is_above x y -> before (order t []) x y).
  { intros y Y (l & NL & ->). apply nodes_in in Y. destruct Y as (Y & _). pose proof (below_in t x u l U Y KX) as B. destruct (here_before t x u KX U _ B) as [E|B']; [|exact B']. exfalso. apply (f_equal (@length xstep)) in E. rewrite app_length in E. destruct l; [contradiction|]. cbn in E. lia. }
  assert (BA : forall y, is_above y x -> before (order t []) y x). { intros y A. apply (above_earlier t x u y KX U) in A. apply (earlier_before t x u KX U); [exact A|]. destruct (order_head x u) as (r & E & _). rewrite E. left. reflexivity. }
  destruct (picks_or _ _ _ _ _ (fun y Y (A : on_axis t Following x y) (B : on_axis t Preceding x y) => no_cycle t x y (proj1 (proj2 A)) (proj1 (proj2 B))) PF PP) as (c1 & C1 & M1).
  assert (D2 : forall y, In y (nodes t) -> on_axis t Descendant x y -> on_axis t Following x y \/ on_axis t Preceding x y -> False).
  { intros y Y (_ & A) [(_ & _ & B)|(_ & B & _)]; [contradiction|]. exact (no_cycle t _ _ (AB y Y A) B). }
  destruct (picks_or _ _ _ _ _ D2 PD C1) as (c2 & C2 & M2).
  assert (D3 : forall y, In y (nodes t) -> on_axis t Ancestor x y -> on_axis t Descendant x y \/ on_axis t Following x y \/ on_axis t Preceding x y -> False).
  { cbn [on_axis]. intros y Y A [(_ & B)|[(_ & B & _)|(_ & _ & B)]]; [exact (no_cycle t _ _ (BA y A) (AB y Y B))|exact (no_cycle t _ _ (BA y A) B)|contradiction]. }
  destruct (picks_or _ _ _ _ _ D3 PA C2) as (c3 & C3 & M3).
  assert (D4 : forall y, In y (nodes t) -> y = x -> on_axis t Ancestor x y \/ on_axis t Descendant x y \/ on_axis t Following x y \/ on_axis t Preceding x y -> False).
  { cbn [on_axis]. intros y Y -> [A|[(_ & A)|[(_ & B & _)|(_ & B & _)]]]; [apply above_len in A; lia|apply above_len in A; lia|exact (not_before_self t x B)|exact (not_before_self t x B)]. }
  destruct (picks_or _ _ _ _ _ D4 PS C3) as (c4 & C4 & M4).
  exists la, ld, lf, lp, c4. do 4 (split; [assumption|]). split.
  - eapply picks_ext; [|exact C4]. intros y Y. cbn [on_axis]. pose proof Y as Y0. apply nodes_in in Y. destruct Y as (Y & _). split.
    + intros [->|[A|[A|[A|A]]]]; try tauto. intros (i & q & ->). destruct A as (l & NL & E). rewrite E in KX. apply kids_only_app in KX. destruct KX as (_ & KX). exact KX.
    + intros NY. destruct (before_cases (order t []) x y IO Y) as [->|[B|B]]; [left; reflexivity| |].
      * assert (DEC : is_above x y \/ ~ is_above x y). { pose proof (in_anc y x) as IA. destruct (in_dec (list_eq_dec (fun a b => match bool_dec (xstep_eqb a b) true with left e => left (proj1 (xstep_eqb_ok a b) e) | right n => right (fun e => n (proj2 (xstep_eqb_ok a b) e)) end)) x (anc y)); tauto. } tauto.
      * assert (DEC : is_above y x \/ ~ is_above y x). { pose proof (in_anc x y) as IA. destruct (in_dec (list_eq_dec (fun a b => match bool_dec (xstep_eqb a b) true with left e => left (proj1 (xstep_eqb_ok a b) e) | right n => right (fun e => n (proj2 (xstep_eqb_ok a b) e)) end)) y (anc x)); tauto. } tauto.
  - eapply perm_trans; [exact M4|]. cbn [app]. constructor. eapply perm_trans; [exact M3|]. apply Permutation_app; [apply Permutation_sym, Permutation_rev|]. eapply perm_trans; [exact M2|]. apply Permutation_app_head. eapply perm_trans; [exact M1|]. apply Permutation_app_head. apply Permutation_sym, Permutation_rev.
Qed.
