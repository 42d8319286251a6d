(** Proofs about event dispatch (C32). *)
From Coq Require Import Sorted.
From Verif.Model Require Import Base Dom Events.
From Verif.Spec Require Import DomSpec EventsSpec.
From Verif.Proof Require Import Tac ContainersProof.

Lemma ltb_irr : forall a, str_ltb a a = false.
Proof. induction a as [|x a IH]; [reflexivity|]. cbn. rewrite Z.ltb_irrefl. exact IH. Qed.
Lemma ltb_trans : forall a b c, str_ltb a b = true -> str_ltb b c = true -> str_ltb a c = true.
Proof.
  induction a as [|x a IH]; intros [|y b] [|z c] A B; cbn in *; try discriminate; auto.
  destruct (Z.ltb_spec x y), (Z.ltb_spec y x), (Z.ltb_spec y z), (Z.ltb_spec z y), (Z.ltb_spec x z), (Z.ltb_spec z x);
    try lia; try discriminate; auto. apply (IH b c); auto.
Qed.
Lemma ltb_tri : forall a b, str_ltb a b = false -> str_ltb b a = false -> a = b.
Proof.
  induction a as [|x a IH]; intros [|y b] A B; cbn in *; try discriminate; auto.
  destruct (Z.ltb_spec x y), (Z.ltb_spec y x); try discriminate; try lia. f_equal; [lia|]. apply IH; auto.
Qed.
(** not less: a total preorder. *)
Lemma geb_trans : forall a b c, str_ltb b a = false -> str_ltb c b = false -> str_ltb c a = false.
Proof.
  intros a b c A B. destruct (str_ltb c a) eqn:E; [|reflexivity]. exfalso.
  destruct (str_ltb a b) eqn:F; [rewrite (ltb_trans c a b E F) in B; discriminate|].
  assert (a = b) by (apply ltb_tri; auto). subst. congruence.
Qed.
Definition le_entry (a b : entry) : Prop := str_ltb (e_type b) (e_type a) = false.
Definition sorted := StronglySorted le_entry.
Definition typed (t : str) (e : entry) : bool := str_eqb (e_type e) t.

Lemma range_high : forall t l, sorted l -> Forall (fun e => str_ltb (e_type e) t = false) l -> take_while (not_after_type t) l = filter (typed t) l.
Proof.
  intros t l S F. induction S as [|e l S IH A]; [reflexivity|]. inversion F as [|? ? FE FL]; subst. cbn.
  unfold not_after_type at 1. unfold typed at 1. destruct (str_ltb t (e_type e)) eqn:E; cbn.
  - assert (N : str_eqb (e_type e) t = false).
    { destruct (str_eqb (e_type e) t) eqn:Q; [|reflexivity]. apply str_eqb_true in Q. rewrite Q, ltb_irr in E. discriminate. }
    rewrite N. symmetry. clear IH F FL FE N S. induction A as [|x l X A IH]; [reflexivity|]. cbn. unfold typed at 1.
    destruct (str_eqb (e_type x) t) eqn:Q; [|exact IH]. apply str_eqb_true in Q. unfold le_entry in X. rewrite Q in X. congruence.
  - assert (Q : e_type e = t) by (apply ltb_tri; auto). rewrite Q, (proj2 (str_eqb_true t t) eq_refl). f_equal. apply IH, FL.
Qed.
Lemma range_filter : forall t l, sorted l -> equal_range t l = filter (typed t) l.
Proof.
  intros t l S. unfold equal_range, lower. induction S as [|e l S IH A]; [reflexivity|]. cbn [drop_while filter].
  unfold before_type at 1. destruct (str_ltb (e_type e) t) eqn:E.
  - unfold typed at 1. destruct (str_eqb (e_type e) t) eqn:Q; [|exact IH]. apply str_eqb_true in Q. rewrite Q, ltb_irr in E. discriminate.
  - change (take_while (not_after_type t) (e :: l) = filter (typed t) (e :: l)). apply range_high; [constructor; auto|].
    constructor; [exact E|]. eapply Forall_impl; [|exact A]. intros x X. unfold le_entry in X. apply geb_trans with (e_type e); auto.
Qed.
Lemma take_drop : forall {A} (p : A -> bool) l, take_while p l ++ drop_while p l = l.
Proof. intros A p l. induction l as [|x l IH]; [reflexivity|]. cbn. destruct (p x); [cbn; rewrite IH; reflexivity|reflexivity]. Qed.
(** The list in three pieces. *)
Lemma pieces : forall t l, sorted l -> exists pre, l = pre ++ equal_range t l ++ upper t l /\ lower t l = equal_range t l ++ upper t l.
Proof.
  intros t l S. assert (LU : lower t l = equal_range t l ++ upper t l).
  { unfold equal_range. rewrite <- (take_drop (not_after_type t) (lower t l)) at 1. f_equal. unfold lower, upper.
    induction S as [|e l S IH A]; [reflexivity|]. cbn [drop_while]. unfold before_type at 1. destruct (str_ltb (e_type e) t) eqn:E.
    - unfold not_after_type at 2. destruct (str_ltb t (e_type e)) eqn:E2; [|exact IH].
      exfalso. pose proof (ltb_irr (e_type e)) as X.
      rewrite (ltb_trans _ _ _ E E2) in X. discriminate.
    - reflexivity. }
  exists (take_while (before_type t) l). rewrite <- LU. split; [|reflexivity]. symmetry. apply take_drop.
Qed.
Lemma upper_high : forall t l, sorted l -> Forall (fun e => str_ltb t (e_type e) = true) (upper t l).
Proof.
  intros t l S. unfold upper. induction S as [|e l S IH A]; [constructor|]. cbn [drop_while]. unfold not_after_type at 1.
  destruct (str_ltb t (e_type e)) eqn:E; cbn; [|exact IH]. constructor; [exact E|]. eapply Forall_impl; [|exact A].
  intros x X. unfold le_entry in X. destruct (str_ltb t (e_type x)) eqn:F; [reflexivity|]. exfalso.
  rewrite (geb_trans (e_type e) (e_type x) t X F) in E. discriminate.
Qed.
Lemma take_low : forall t l, Forall (fun e => str_ltb t (e_type e) = false) (take_while (not_after_type t) l).
Proof. intros t l. induction l as [|e l IH]; [constructor|]. cbn. destruct (not_after_type t e) eqn:E; [|constructor]. constructor; [|exact IH]. unfold not_after_type in E. destruct (str_ltb t (e_type e)); [discriminate|reflexivity]. Qed.
Lemma sorted_app : forall a b, sorted a -> sorted b -> (forall x y, In x a -> In y b -> le_entry x y) -> sorted (a ++ b).
Proof.
  intros a b A B C. induction A as [|x a A IH X]; [exact B|]. cbn. constructor.
  - apply IH. intros y z Y Z. apply C; [right; exact Y|exact Z].
  - apply Forall_app. split; [exact X|]. apply Forall_forall. intros y Y. apply C; [left; reflexivity|exact Y].
Qed.
Lemma sorted_split : forall a b, sorted (a ++ b) -> sorted a /\ sorted b.
Proof.
  induction a as [|x a IH]; intros b S; [split; [constructor|exact S]|]. cbn in S. inversion S as [|? ? S' F]; subst. destruct (IH b S') as [A B].
  split; [|exact B]. constructor; [exact A|]. apply Forall_app in F. tauto.
Qed.
Lemma insert_sorted : forall e l, sorted l -> sorted (insert_entry e l).
Proof.
  intros e l S. unfold insert_entry. assert (T := take_low (e_type e) l). assert (U := upper_high (e_type e) l S).
  assert (S2 := S). rewrite <- (take_drop (not_after_type (e_type e)) l) in S2. apply sorted_split in S2 as [SA SB].
  fold (upper (e_type e) l) in SB.
  rewrite Forall_forall in T, U. apply sorted_app; [exact SA| |].
  - constructor; [exact SB|]. apply Forall_forall. intros x X. specialize (U x X). unfold le_entry.
    destruct (str_ltb (e_type x) (e_type e)) eqn:E; [|reflexivity]. pose proof (ltb_irr (e_type e)) as I. rewrite (ltb_trans _ _ _ U E) in I. discriminate.
  - intros x y X Y. specialize (T x X). unfold le_entry. destruct Y as [<-|Y]; [exact T|]. specialize (U y Y).
    destruct (str_ltb (e_type y) (e_type x)) eqn:E; [|reflexivity]. rewrite (ltb_trans _ _ _ U E) in T. discriminate.
Qed.
Lemma filter_none : forall {A} (p : A -> bool) l, (forall x, In x l -> p x = false) -> filter p l = [].
Proof. intros A p l H. induction l as [|x l IH]; [reflexivity|]. cbn. rewrite (H x (or_introl eq_refl)). apply IH. intros y Y. apply H. right. exact Y. Qed.
Lemma insert_filter : forall t e l, sorted l -> filter (typed t) (insert_entry e l) = filter (typed t) l ++ (if typed t e then [e] else []).
Proof.
  intros t e l S. unfold insert_entry. rewrite filter_app. cbn [filter].
  assert (FL : filter (typed t) l = filter (typed t) (take_while (not_after_type (e_type e)) l) ++ filter (typed t) (upper (e_type e) l))
    by (rewrite <- filter_app; unfold upper; rewrite take_drop; reflexivity). rewrite FL.
  destruct (typed t e) eqn:Q; [|rewrite app_nil_r; reflexivity]. unfold typed in Q. apply str_eqb_true in Q.
  assert (U := upper_high (e_type e) l S). rewrite Forall_forall in U.
  rewrite (filter_none (typed t) (upper (e_type e) l)); [rewrite !app_nil_r; reflexivity|].
  intros x X. specialize (U x X). unfold typed. destruct (str_eqb (e_type x) t) eqn:E; [|reflexivity]. apply str_eqb_true in E. rewrite E, Q, ltb_irr in U. discriminate.
Qed.

(** * The invariant of the multimaps, and the listing they stand for *)
Record ok_list (fresh : nat) (l : list entry) : Prop := {
  ol_sorted : sorted l;
  ol_ids : NoDup (map e_id l);
  ol_fresh : forall e, In e l -> (e_id e < fresh)%nat;
  ol_once : forall t, NoDup (map e_listener (filter (typed t) l)) }.
Definition ok (s : estate) : Prop := forall n c, ok_list (s_fresh s) (s_regs s n c).
Definition listing_of (s : estate) : listing := fun n t c => map e_listener (filter (typed t) (s_regs s n c)).
Definition same (r r' : listing) : Prop := forall n t c, r n t c = r' n t c.
Lemma listing_range : forall s n t c, ok s -> map e_listener (equal_range t (s_regs s n c)) = listing_of s n t c.
Proof. intros s n t c O. unfold listing_of. rewrite range_filter; [reflexivity|]. apply (O n c). Qed.
Lemma insert_in : forall e l x, In x (insert_entry e l) <-> x = e \/ In x l.
Proof.
  intros e l x. unfold insert_entry.
  assert (FL : In x l <-> In x (take_while (not_after_type (e_type e)) l) \/ In x (upper (e_type e) l)) by (rewrite <- in_app_iff; unfold upper; rewrite take_drop; reflexivity).
  rewrite in_app_iff, FL. cbn. intuition congruence.
Qed.
Lemma existsb_map : forall {A B} (f : A -> B) p l, existsb p (map f l) = existsb (fun x => p (f x)) l.
Proof. intros A B f p l. induction l as [|x l IH]; [reflexivity|]. cbn. rewrite IH. reflexivity. Qed.
Lemma add_ok : forall s n t lis cap, ok s -> ok (add_listener s n t lis cap).
Proof.
  intros s n t lis cap O. unfold add_listener. destruct (existsb _ _) eqn:EX; [exact O|]. intros m c. cbn [s_regs s_fresh]. unfold put_reg.
  assert (LE : ok_list (S (s_fresh s)) (s_regs s m c)) by (destruct (O m c) as [A B C D]; constructor; auto; intros e E; specialize (C e E); lia).
  destruct (Nat.eqb_spec m n) as [->|]; [|exact LE]. destruct (Bool.eqb_spec c cap) as [->|]; [|exact LE]. cbn [andb].
  destruct (O n cap) as [A B C D]. rewrite range_filter in EX by exact A. constructor.
  - apply insert_sorted, A.
  - unfold insert_entry. rewrite map_app. cbn [map e_id]. apply NoDup_Add with (a := s_fresh s) (l := map e_id (s_regs s n cap)).
    + assert (FL : map e_id (s_regs s n cap) = map e_id (take_while (not_after_type t) (s_regs s n cap)) ++ map e_id (upper t (s_regs s n cap)))
        by (rewrite <- map_app; unfold upper; rewrite take_drop; reflexivity). rewrite FL. apply Add_app.
    + split; [exact B|]. intro X. apply in_map_iff in X as (e & E & X). specialize (C e X). lia.
  - intros e E. apply insert_in in E as [->|E]; [cbn; lia|]. specialize (C e E). lia.
  - intro u. rewrite insert_filter by exact A. unfold typed at 2. cbn [e_type]. destruct (str_eqb t u) eqn:Q; [|rewrite app_nil_r; apply D].
    apply str_eqb_true in Q. subst u. rewrite map_app. cbn. apply NoDup_Add with (a := lis) (l := map e_listener (filter (typed t) (s_regs s n cap))).
    + rewrite <- (app_nil_r (map e_listener (filter (typed t) (s_regs s n cap)))) at 1. apply Add_app.
    + split; [apply D|]. intro X. apply in_map_iff in X as (e & E & X).
      assert (existsb (fun e => Nat.eqb (e_listener e) lis) (filter (typed t) (s_regs s n cap)) = true); [|congruence].
      apply existsb_exists. exists e. split; [exact X|]. apply Nat.eqb_eq, E.
Qed.
Lemma add_listing : forall s n t lis cap, ok s -> same (listing_of (add_listener s n t lis cap)) (list_add (listing_of s) n t lis cap).
Proof.
  intros s n t lis cap O m u c. unfold list_add, listing_of, add_listener. rewrite range_filter by apply (O n cap).
  destruct (Nat.eqb_spec m n) as [->|NM]; cbn [andb].
  2: { destruct (existsb _ _); [reflexivity|]. cbn [s_regs]. unfold put_reg. apply Nat.eqb_neq in NM. rewrite NM. reflexivity. }
  destruct (Bool.eqb_spec c cap) as [->|NC].
  2: { rewrite andb_false_r. cbn. destruct (existsb _ _); [reflexivity|]. cbn [s_regs]. unfold put_reg. rewrite Nat.eqb_refl. apply Bool.eqb_false_iff in NC. rewrite NC. reflexivity. }
  rewrite andb_true_r. destruct (str_eqb u t) eqn:Q; cbn [andb].
  - apply str_eqb_true in Q. subst u. rewrite existsb_map.
    assert (EQ : existsb (fun x => Nat.eqb lis (e_listener x)) (filter (typed t) (s_regs s n cap)) = existsb (fun e => Nat.eqb (e_listener e) lis) (filter (typed t) (s_regs s n cap))).
    { induction (filter (typed t) (s_regs s n cap)) as [|x l IH]; [reflexivity|]. cbn. rewrite IH, Nat.eqb_sym. reflexivity. }
    rewrite EQ. clear EQ. destruct (existsb (fun e => Nat.eqb (e_listener e) lis) (filter (typed t) (s_regs s n cap))); [reflexivity|]. cbn [s_regs negb]. unfold put_reg. rewrite Nat.eqb_refl, Bool.eqb_reflx. cbn [andb].
    rewrite insert_filter by apply (O n cap). unfold typed at 2. cbn [e_type]. rewrite (proj2 (str_eqb_true t t) eq_refl), map_app. reflexivity.
  - destruct (existsb _ _); [reflexivity|]. cbn [s_regs]. unfold put_reg. rewrite Nat.eqb_refl, Bool.eqb_reflx. cbn [andb].
    rewrite insert_filter by apply (O n cap). unfold typed at 2. cbn [e_type]. rewrite str_eqb_sym in Q. rewrite Q, app_nil_r. reflexivity.
Qed.
Lemma filter_sorted : forall p l, sorted l -> sorted (filter p l).
Proof. intros p l S. induction S as [|e l S IH A]; [constructor|]. cbn. destruct (p e); [|exact IH]. constructor; [exact IH|]. apply Forall_forall. intros x X. apply filter_In in X. rewrite Forall_forall in A. apply A, X. Qed.
Lemma nodup_map_filter : forall {A} (f : A -> nat) p l, NoDup (map f l) -> NoDup (map f (filter p l)).
Proof.
  intros A f p l N. induction l as [|x l IH]; [constructor|]. cbn in *. inversion N as [|? ? X N']; subst. destruct (p x); [|apply IH, N'].
  cbn. constructor; [|apply IH, N']. intro Y. apply X. apply in_map_iff in Y as (z & E & Z). apply filter_In in Z. apply in_map_iff. exists z. tauto.
Qed.
Lemma filter_comm : forall {A} (p q : A -> bool) l, filter p (filter q l) = filter q (filter p l).
Proof. intros A p q l. induction l as [|x l IH]; [reflexivity|]. cbn. destruct (q x) eqn:Q, (p x) eqn:P; cbn; rewrite ?Q, ?P, IH; reflexivity. Qed.
Lemma remove_ok : forall s n t lis cap, ok s -> ok (remove_listener s n t lis cap).
Proof.
  intros s n t lis cap O. unfold remove_listener. destruct (equal_range _ _) as [|e r]; [exact O|]. destruct (Nat.eqb _ _); [|exact O].
  intros m c. cbn [s_regs s_fresh]. unfold put_reg. destruct (Nat.eqb_spec m n) as [->|]; [|apply O]. destruct (Bool.eqb_spec c cap) as [->|]; [|apply O]. cbn [andb].
  destruct (O n cap) as [A B C D]. constructor.
  - apply filter_sorted, A.
  - apply nodup_map_filter, B.
  - intros x X. apply filter_In in X. apply C, X.
  - intro u. rewrite filter_comm. apply nodup_map_filter, D.
Qed.
Lemma filter_keep : forall {A} (p : A -> bool) l, (forall x, In x l -> p x = true) -> filter p l = l.
Proof. intros A p l H. induction l as [|x l IH]; [reflexivity|]. cbn. rewrite (H x (or_introl eq_refl)). f_equal. apply IH. intros y Y. apply H. right. exact Y. Qed.
Lemma remove_listing : forall s n t lis cap, ok s -> hd_error (listing_of s n t cap) = Some lis \/ ~ In lis (listing_of s n t cap) ->
  same (listing_of (remove_listener s n t lis cap)) (list_remove (listing_of s) n t lis cap).
Proof.
  intros s n t lis cap O H m u c. unfold list_remove, listing_of, remove_listener in *. rewrite range_filter by apply (O n cap).
  destruct (filter (typed t) (s_regs s n cap)) as [|e r] eqn:F.
  - destruct (Nat.eqb_spec m n) as [->|]; [|reflexivity]. destruct (str_eqb u t) eqn:Q; [|reflexivity]. destruct (Bool.eqb_spec c cap) as [->|]; [|reflexivity].
    apply str_eqb_true in Q. subst u. rewrite F. reflexivity.
  - destruct (Nat.eqb_spec (e_listener e) lis) as [E|NE].
    + cbn [s_regs]. unfold put_reg. destruct (Nat.eqb_spec m n) as [->|]; [|reflexivity]. cbn [andb].
      destruct (Bool.eqb_spec c cap) as [->|]; [|rewrite andb_false_r; reflexivity]. rewrite andb_true_r.
      destruct (O n cap) as [A B C D]. rewrite filter_comm. 
      assert (IE : In e (s_regs s n cap) /\ typed t e = true) by (apply filter_In; rewrite F; left; reflexivity). destruct IE as [IE TE].
      destruct (str_eqb u t) eqn:Q.
      * apply str_eqb_true in Q. subst u. rewrite F. cbn [filter map]. rewrite E, !Nat.eqb_refl. cbn [negb].
        specialize (D t). rewrite F in D. cbn in D. inversion D as [|? ? ND _]; subst.
        assert (NI : NoDup (map e_id (e :: r))) by (rewrite <- F; apply nodup_map_filter, B). cbn in NI. inversion NI as [|? ? NE _]; subst.
        rewrite (filter_keep _ r). 2: { intros x X. apply Bool.negb_true_iff, Nat.eqb_neq. intro Y. apply NE. rewrite <- Y. apply in_map, X. }
        symmetry. apply filter_keep. intros x X. apply Bool.negb_true_iff, Nat.eqb_neq. intros <-. contradiction.
      * f_equal. apply filter_keep. intros x X. apply filter_In in X as [X TX]. apply Bool.negb_true_iff, Nat.eqb_neq. intro Y.
        assert (x = e).
        { clear -B X IE Y. induction (s_regs s n cap) as [|z l IH]; [destruct X|]. cbn in B. inversion B as [|? ? NZ B']; subst.
          destruct X as [->|X], IE as [->|IE]; auto; exfalso; apply NZ; [rewrite Y|rewrite <- Y]; apply in_map; assumption. }
        subst x. unfold typed in TE, TX. apply str_eqb_true in TE. apply str_eqb_true in TX. rewrite <- TX, TE, (proj2 (str_eqb_true t t) eq_refl) in Q. discriminate.
    + destruct (Nat.eqb_spec m n) as [->|]; [|reflexivity]. destruct (str_eqb u t) eqn:Q; [|reflexivity]. destruct (Bool.eqb_spec c cap) as [->|]; [|reflexivity].
      apply str_eqb_true in Q. subst u. cbn [andb]. rewrite F. destruct H as [H|H]; [cbn in H; congruence|]. symmetry. apply filter_keep.
      intros x X. apply Bool.negb_true_iff, Nat.eqb_neq. intros <-. contradiction.
Qed.
Lemma add_same : forall r r' n t lis cap, same r r' -> same (list_add r n t lis cap) (list_add r' n t lis cap).
Proof. intros r r' n t lis cap H m u c. unfold list_add. rewrite (H m u c). reflexivity. Qed.
Lemma remove_same : forall r r' n t lis cap, same r r' -> same (list_remove r n t lis cap) (list_remove r' n t lis cap).
Proof. intros r r' n t lis cap H m u c. unfold list_remove. rewrite (H m u c). reflexivity. Qed.
Lemma same_trans : forall a b c, same a b -> same b c -> same a c.
Proof. intros a b c A B n t x. rewrite (A n t x). apply B. Qed.
Lemma same_sym : forall a b, same a b -> same b a.
Proof. intros a b A n t x. symmetry. apply A. Qed.
Lemma fed_spec : forall s r, fed s r -> ok s /\ same (listing_of s) r /\ s_stopped s = false /\ s_trace s = [].
Proof.
  intros s r F. induction F as [|s r n t lis cap F (O & S & ST & TR)|s r n t lis cap F (O & S & ST & TR) H].
  - split; [|split; [|split; reflexivity]].
    + intros n c. constructor; cbn; try constructor. intros e [].
    + intros n t c. reflexivity.
  - split; [apply add_ok, O|]. split; [eapply same_trans; [apply add_listing, O|apply add_same, S]|].
    unfold add_listener. destruct (existsb _ _); auto.
  - split; [apply remove_ok, O|]. split; [|unfold remove_listener; destruct (equal_range _ _); auto; destruct (Nat.eqb _ _); auto].
    eapply same_trans; [apply remove_listing; [exact O|]|apply remove_same, S]. rewrite (S n t cap). exact H.
Qed.

(** * Dispatch *)
Lemma skip_pre : forall {A} (a b : list A), skipn (length a) (a ++ b) = b.
Proof. intros A a b. rewrite skipn_app, skipn_all, Nat.sub_diag. reflexivity. Qed.
Section Flow.
Context (script : list call -> call -> list action) (ev : event).
Context (CALM : calm script) (KEEP : no_removal script).
Notation hdl := (handle script ev).
Definition quiet (a : action) : Prop := match a with RemoveListener _ _ _ _ => False | _ => True end.
Lemma act_spec : forall a s, ok s -> quiet a ->
  ok (act (ev_cancelable ev) s a) /\ same (listing_of (act (ev_cancelable ev) s a)) (list_act (listing_of s) a) /\
  s_stopped (act (ev_cancelable ev) s a) = s_stopped s || (ev_cancelable ev && is_stop a) /\
  s_trace (act (ev_cancelable ev) s a) = s_trace s /\
  (forall n c, leaves a n c -> s_regs (act (ev_cancelable ev) s a) n c = s_regs s n c).
Proof.
  intros a s O Q. destruct a as [| |m t l c|m t l c]; cbn [act is_stop list_act leaves].
  - destruct (ev_cancelable ev); cbn; rewrite ?orb_true_r, ?orb_false_r; repeat split; auto; apply O.
  - rewrite andb_false_r, orb_false_r. repeat split; auto; apply O.
  - rewrite andb_false_r, orb_false_r. split; [apply add_ok, O|]. split; [apply add_listing, O|].
    unfold add_listener. destruct (existsb _ _); [auto|]. cbn. split; [reflexivity|]. split; [reflexivity|]. intros n c' N. unfold put_reg.
    destruct (Nat.eqb_spec n m) as [->|]; [|reflexivity]. destruct (Bool.eqb_spec c' c) as [->|]; [congruence|reflexivity].
  - destruct Q.
Qed.
Lemma list_act_same : forall a r r', same r r' -> same (list_act r a) (list_act r' a).
Proof. intros [| |m t l c|m t l c] r r' H; cbn; auto; [apply add_same|apply remove_same]; exact H. Qed.
Lemma list_acts_same : forall l r r', same r r' -> same (fold_left list_act l r) (fold_left list_act l r').
Proof. induction l as [|a l IH]; intros r r' H; [exact H|]. cbn. apply IH, list_act_same, H. Qed.
Lemma acts_spec : forall l s, ok s -> (forall a, In a l -> quiet a) ->
  let s' := fold_left (act (ev_cancelable ev)) l s in
  ok s' /\ same (listing_of s') (fold_left list_act l (listing_of s)) /\
  s_stopped s' = s_stopped s || (ev_cancelable ev && existsb is_stop l) /\ s_trace s' = s_trace s /\
  (forall n c, (forall a, In a l -> leaves a n c) -> s_regs s' n c = s_regs s n c).
Proof.
  induction l as [|a l IH]; intros s O Q; cbn [fold_left existsb].
  - cbn. rewrite andb_false_r, orb_false_r. repeat split; auto; apply O.
  - destruct (act_spec a s O (Q a (or_introl eq_refl))) as (O1 & L1 & S1 & T1 & R1).
    destruct (IH _ O1 (fun b B => Q b (or_intror B))) as (O2 & L2 & S2 & T2 & R2). split; [exact O2|].
    split; [eapply same_trans; [exact L2|apply list_acts_same, L1]|].
    split; [rewrite S2, S1; destruct (s_stopped s), (ev_cancelable ev), (is_stop a), (existsb is_stop l); reflexivity|].
    split; [congruence|]. intros n c H. rewrite R2, R1; auto.
    + apply H. left. reflexivity.
    + intros b B. apply H. right. exact B.
Qed.
Lemma handle_spec : forall c s, ok s ->
  ok (hdl s c) /\ same (listing_of (hdl s c)) (fold_left list_act (script (s_trace s) c) (listing_of s)) /\
  s_stopped (hdl s c) = s_stopped s || (ev_cancelable ev && existsb is_stop (script (s_trace s) c)) /\
  s_trace (hdl s c) = s_trace s ++ [c] /\
  s_regs (hdl s c) (c_node c) (capturing (c_phase c)) = s_regs s (c_node c) (capturing (c_phase c)).
Proof.
  intros c s O. unfold handle.
  destruct (acts_spec (script (s_trace s) c) (EState (s_regs s) (s_fresh s) (s_stopped s) (s_prevented s) (s_trace s ++ [c])) O) as (O1 & L1 & S1 & T1 & R1).
  - intros a A. specialize (KEEP _ _ _ A). destruct a; auto.
  - split; [exact O1|]. split; [exact L1|]. split; [exact S1|]. split; [exact T1|]. apply R1. intros a A. apply (CALM _ _ _ A).
Qed.
Lemma from_entry_at : forall pre e r, NoDup (map e_id (pre ++ e :: r)) -> from_entry (pre ++ e :: r) (e_id e) = e :: r.
Proof.
  intros pre e r N. unfold from_entry. induction pre as [|x pre IH]; cbn [List.app drop_while].
  - rewrite Nat.eqb_refl. reflexivity.
  - cbn in N. inversion N as [|? ? NX N']; subst. destruct (Nat.eqb_spec (e_id x) (e_id e)) as [E|_].
    + exfalso. apply NX. rewrite E. apply in_map, in_elt.
    + cbn. apply IH, N'.
Qed.
Lemma alive_iter : forall pre l, alive (pre ++ l) (iter_of l) = true.
Proof. intros pre [|e l]; [reflexivity|]. cbn. apply existsb_exists. exists e. split; [apply in_elt|apply Nat.eqb_refl]. Qed.
Lemma loop_spec : forall mid s n p pre post f, ok s -> s_regs s n (capturing p) = pre ++ mid ++ post -> (length mid < f)%nat ->
  loop script ev f s n p (iter_of (mid ++ post)) (iter_of post) = Fin (fold_left hdl (map (fun e => Call n p (e_listener e)) mid) s).
Proof.
  induction mid as [|e mid IH]; intros s n p pre post f O E L; destruct f as [|f]; try (cbn in L; lia).
  - cbn [loop map fold_left List.app] in *. rewrite E, alive_iter. cbn [andb negb].
    assert (X : oeqb (iter_of post) (iter_of post) = true) by (destruct post; cbn; [reflexivity|apply Nat.eqb_refl]). rewrite X. reflexivity.
  - cbn [loop]. assert (A1 := alive_iter pre ((e :: mid) ++ post)). assert (A2 := alive_iter (pre ++ e :: mid) post). rewrite <- app_assoc in A2. cbn [List.app] in *.
    rewrite E, A1. rewrite A2. cbn [andb negb]. assert (ND := ol_ids _ _ (O n (capturing p))). rewrite E in ND.
    assert (NQ : oeqb (iter_of (e :: mid ++ post)) (iter_of post) = false).
    { destruct post as [|z post]; [reflexivity|]. cbn. apply Nat.eqb_neq. intro Q. rewrite map_app in ND. cbn in ND.
      apply NoDup_remove_2 in ND. apply ND. rewrite in_app_iff, map_app. right. apply in_app_iff. right. cbn. left. congruence. }
    rewrite NQ. cbn [iter_of]. rewrite from_entry_at by exact ND.
    destruct (handle_spec (Call n p (e_listener e)) s O) as (O1 & _ & _ & _ & R1). cbn [c_node c_phase] in R1.
    rewrite R1, E, from_entry_at by exact ND. cbn [map fold_left]. apply (IH _ n p (pre ++ [e]) post f O1).
    + rewrite R1, E, <- app_assoc. reflexivity.
    + cbn in L. lia.
Qed.
Lemma visit_spec : forall s n p, ok s -> exists f0, forall f, (f0 <= f)%nat ->
  visit script ev f s n p = Fin (fold_left hdl (map (Call n p) (listing_of s n (ev_type ev) (capturing p))) s).
Proof.
  intros s n p O. unfold visit. destruct (pieces (ev_type ev) (s_regs s n (capturing p)) (ol_sorted _ _ (O n (capturing p)))) as (pre & E & LO).
  exists (S (length (equal_range (ev_type ev) (s_regs s n (capturing p))))). intros f L. rewrite LO.
  rewrite (loop_spec _ s n p pre _ f O E L). rewrite <- listing_range by exact O. rewrite map_map. reflexivity.
Qed.
Lemma calls_spec : forall cs s, ok s ->
  let s' := fold_left hdl cs s in
  ok s' /\ same (listing_of s') (fold_left list_act (actions script (s_trace s) cs) (listing_of s)) /\
  s_stopped s' = s_stopped s || (ev_cancelable ev && existsb is_stop (actions script (s_trace s) cs)) /\ s_trace s' = s_trace s ++ cs.
Proof.
  induction cs as [|c cs IH]; intros s O; cbn [fold_left actions].
  - cbn. rewrite andb_false_r, orb_false_r, app_nil_r. repeat split; auto; apply O.
  - destruct (handle_spec c s O) as (O1 & L1 & S1 & T1 & _). destruct (IH _ O1) as (O2 & L2 & S2 & T2). rewrite T1 in *.
    split; [exact O2|]. split; [rewrite fold_left_app; eapply same_trans; [exact L2|apply list_acts_same, L1]|].
    split; [rewrite S2, S1, existsb_app; destruct (s_stopped s), (ev_cancelable ev), (existsb is_stop (script (s_trace s) c)); reflexivity|].
    rewrite T2, <- app_assoc. reflexivity.
Qed.
Lemma deliver_same : forall st t r r' hist, same r r' -> deliver script t r hist st = deliver script t r' hist st.
Proof.
  induction st as [|[n p] st IH]; intros t r r' hist H; [reflexivity|]. cbn [deliver]. rewrite (H n t (capturing p)). f_equal.
  destruct (existsb _ _); [reflexivity|]. apply IH, list_acts_same, H.
Qed.
(** Stations one after the other, with the test for a stop after each. *)
Context (STOP : ev_cancelable ev = true).
Lemma visit_all_spec : forall l p s rest, ok s -> s_stopped s = false -> exists f0, forall f, (f0 <= f)%nat ->
  exists s' b, visit_all script ev f s p l = Fin (s', b) /\ ok s' /\
    (if b then s_stopped s' = false /\ deliver script (ev_type ev) (listing_of s) (s_trace s) (map (fun n => (n, p)) l ++ rest) =
                 skipn (length (s_trace s)) (s_trace s') ++ deliver script (ev_type ev) (listing_of s') (s_trace s') rest
     else deliver script (ev_type ev) (listing_of s) (s_trace s) (map (fun n => (n, p)) l ++ rest) = skipn (length (s_trace s)) (s_trace s')) /\
    (exists more, s_trace s' = s_trace s ++ more) /\ (b = negb (s_stopped s')).
Proof.
  induction l as [|n l IH]; intros p s rest O NS.
  - exists 0%nat. intros f _. exists s, true. cbn. rewrite skipn_all, NS. repeat split; auto; try apply O. exists []. rewrite app_nil_r. reflexivity.
  - destruct (visit_spec s n p O) as (f1 & V).
    destruct (calls_spec (map (Call n p) (listing_of s n (ev_type ev) (capturing p))) s O) as (O1 & L1 & S1 & T1).
    set (s1 := fold_left hdl (map (Call n p) (listing_of s n (ev_type ev) (capturing p))) s) in *.
    rewrite NS, STOP in S1. cbn [orb andb] in S1.
    destruct (s_stopped s1) eqn:ST.
    + exists f1. intros f L. exists s1, false. cbn [visit_all]. rewrite (V f L). fold s1. rewrite ST. split; [reflexivity|]. split; [exact O1|].
      split; [|split; [exists (map (Call n p) (listing_of s n (ev_type ev) (capturing p))); exact T1|reflexivity]].
      cbn [map List.app deliver]. rewrite <- S1, T1, skipn_app, skipn_all, Nat.sub_diag. cbn. rewrite app_nil_r. reflexivity.
    + destruct (IH p s1 rest O1 ST) as (f2 & W). exists (f1 + f2)%nat. intros f L. destruct (W f ltac:(lia)) as (s' & b & E & O2 & D & (more & M) & B).
      exists s', b. cbn [visit_all]. rewrite (V f) by lia. fold s1. rewrite ST. split; [exact E|]. split; [exact O2|].
      assert (SK : skipn (length (s_trace s)) (s_trace s') = map (Call n p) (listing_of s n (ev_type ev) (capturing p)) ++ skipn (length (s_trace s1)) (s_trace s')).
      { rewrite M, (skip_pre (s_trace s1) more), T1, <- app_assoc. apply skip_pre. }
      assert (DD : deliver script (ev_type ev) (listing_of s) (s_trace s) (map (fun n => (n, p)) (n :: l) ++ rest) =
        map (Call n p) (listing_of s n (ev_type ev) (capturing p)) ++ deliver script (ev_type ev) (listing_of s1) (s_trace s1) (map (fun n => (n, p)) l ++ rest)).
      { cbn [map List.app deliver]. rewrite <- S1. f_equal. rewrite T1. apply deliver_same, same_sym, L1. }
      rewrite DD, SK. split; [|split; [exists (map (Call n p) (listing_of s n (ev_type ev) (capturing p)) ++ more); rewrite M, T1, <- app_assoc; reflexivity|exact B]].
      destruct b; [destruct D as [D1 D2]; split; [exact D1|]|]; rewrite <- ?app_assoc; f_equal; assumption.
Qed.
Context (PASS : passes_target script).
Lemma target_quiet : forall ls hist n, existsb is_stop (actions script hist (map (Call n AT_TARGET) ls)) = false.
Proof.
  induction ls as [|l ls IH]; intros hist n; [reflexivity|]. cbn. rewrite existsb_app, IH, orb_false_r. apply PASS. reflexivity.
Qed.
Lemma chain_spec : forall h n l, lineage h n l -> exists f0, forall f acc, (f0 <= f)%nat -> chain f h n acc = Some (l ++ acc).
Proof.
  intros h n l D. induction D as [n E|n p l E D (f0 & IH)].
  - exists 1%nat. intros [|f] acc L; [lia|]. cbn. rewrite E. reflexivity.
  - exists (S f0). intros [|f] acc L; [lia|]. cbn. rewrite E, IH by lia. rewrite <- app_assoc. reflexivity.
Qed.
Lemma dispatch_spec : forall h s target path, ok s -> s_stopped s = false -> lineage h target path ->
  exists f0, forall f, (f0 <= f)%nat -> exists s' b, dispatch script ev f h s target = Fin (s', b) /\
    s_trace s' = s_trace s ++ deliver script (ev_type ev) (listing_of s) (s_trace s) (stations path target (ev_bubbles ev)) /\ b = negb (s_stopped s') /\ ok s'.
Proof.
  intros h s target path O NS LI. destruct (chain_spec h target path LI) as (fc & C).
  set (rest := [(target, AT_TARGET)] ++ (if ev_bubbles ev then map (fun n => (n, BUBBLING)) (rev path) else [])).
  destruct (visit_all_spec path CAPTURING s rest O NS) as (f1 & V1). unfold dispatch.
  assert (TR : forall (t t' x : list call), (exists more, t' = t ++ more) -> x = skipn (length t) t' -> t' = t ++ x).
  { intros t t' x (more & ->) ->. rewrite skipn_app, skipn_all, Nat.sub_diag. reflexivity. }
  destruct (V1 f1 (le_n f1)) as (s1 & b1 & E1 & O1 & D1 & M1 & B1).
  assert (ST : forall f, (f1 <= f)%nat -> visit_all script ev f s CAPTURING path = Fin (s1, b1)).
  { intros f L. destruct (V1 f L) as (s1' & b1' & E1' & _).
    assert (MONO : forall g l p s0 r, visit_all script ev g s0 p l = Fin r -> visit_all script ev (S g) s0 p l = Fin r).
    { clear. 
      assert (LM : forall g s n p c e r, loop script ev g s n p c e = Fin r -> loop script ev (S g) s n p c e = Fin r).
      { induction g as [|g IH]; intros s n p c e r E; [discriminate|]. cbn [loop] in E. remember (S g) as g1. cbn [loop]. 
        destruct (negb _); [discriminate|]. destruct (oeqb c e); [exact E|]. destruct c as [x|]; [|discriminate].
        destruct (from_entry _ x) as [|e0 l0]; [discriminate|]. destruct (from_entry _ x) as [|e1 l1]; [discriminate|]. subst g1. apply IH, E. }
      intros g. induction l as [|n l IH]; intros p s0 r E; [exact E|]. cbn [visit_all] in *. unfold visit in *.
      destruct (loop script ev g s0 n p _ _) as [s1| |] eqn:EL; try discriminate. rewrite (LM _ _ _ _ _ _ _ EL). destruct (s_stopped s1); [exact E|]. apply IH, E. }
    assert (UP : forall k, visit_all script ev (k + f1) s CAPTURING path = Fin (s1, b1)).
    { induction k as [|k IHk]; [exact E1|]. cbn [Nat.add]. apply MONO, IHk. }
    replace f with ((f - f1) + f1)%nat by lia. apply UP. }
  destruct b1.
  - destruct D1 as [NS1 D1]. destruct (visit_spec s1 target AT_TARGET O1) as (f2 & V2).
    destruct (calls_spec (map (Call target AT_TARGET) (listing_of s1 target (ev_type ev) false)) s1 O1) as (O2 & L2 & S2 & T2).
    cbn [capturing] in V2. set (s2 := fold_left hdl (map (Call target AT_TARGET) (listing_of s1 target (ev_type ev) false)) s1) in *.
    rewrite NS1, target_quiet, andb_false_r in S2. cbn in S2.
    assert (DT : forall more, deliver script (ev_type ev) (listing_of s1) (s_trace s1) ((target, AT_TARGET) :: more) =
      map (Call target AT_TARGET) (listing_of s1 target (ev_type ev) false) ++ deliver script (ev_type ev) (listing_of s2) (s_trace s2) more).
    { intro more. cbn [deliver capturing]. rewrite target_quiet. f_equal. rewrite T2. apply deliver_same, same_sym, L2. }
    destruct (ev_bubbles ev) eqn:BU.
    + destruct (visit_all_spec (rev path) BUBBLING s2 [] O2 S2) as (f3 & V3). exists (fc + f1 + f2 + f3)%nat. intros f L.
      destruct (V3 f ltac:(lia)) as (s3 & b3 & E3 & O3 & D3 & M3 & B3). exists s3, b3.
      rewrite (C f [] ltac:(lia)), app_nil_r, ST, V2 by lia. fold s2. split; [exact E3|]. split; [|split; [exact B3|exact O3]].
      assert (X3 : deliver script (ev_type ev) (listing_of s2) (s_trace s2) (map (fun n => (n, BUBBLING)) (rev path)) = skipn (length (s_trace s2)) (s_trace s3)).
      { rewrite app_nil_r in D3. destruct b3; [destruct D3 as [_ D3]; cbn in D3; rewrite app_nil_r in D3|]; exact D3. }
      rewrite (TR _ _ _ M3 X3). unfold stations. fold rest. rewrite D1. unfold rest. cbn [List.app]. rewrite DT.
      remember (deliver script (ev_type ev) (listing_of s2) (s_trace s2) (map (fun n => (n, BUBBLING)) (rev path))) as DB eqn:EDB.
      rewrite T2, (TR _ _ _ M1 eq_refl) at 1. rewrite <- !app_assoc. reflexivity.
    + exists (fc + f1 + f2)%nat. intros f L. exists s2, true. rewrite (C f [] ltac:(lia)), app_nil_r, ST, V2 by lia. fold s2. rewrite S2.
      split; [reflexivity|]. split; [|split; [reflexivity|exact O2]].
      rewrite T2, (TR _ _ _ M1 eq_refl), <- !app_assoc. f_equal. unfold stations. fold rest. rewrite D1. unfold rest. cbn [List.app]. rewrite DT. cbn [deliver]. rewrite app_nil_r. reflexivity.
  - exists (fc + f1)%nat. intros f L. exists s1, false. rewrite (C f [] ltac:(lia)), app_nil_r, ST by lia. split; [reflexivity|]. split; [|split; [exact B1|exact O1]].
    apply (TR _ _ _ M1 D1).
Qed.
End Flow.
