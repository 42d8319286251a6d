From Verif.Model Require Import Base Handles.
From Verif.Spec Require Import HandlesSpec.
From Verif.Proof Require Import Tac.

(** The counts a handle on an object adds to. *)
Definition ctr (ob : nat -> object) (i : nat) : list nat :=
  match o_kind (ob i) with
  | ODocument | OShared => [i]
  | ONode => match o_owner (ob i) with Some d => [d] | None => [] end
  | ODocType => match o_owner (ob i) with Some d => [d] | None => [i] end
  | OTypeMap => match o_owner (ob (o_host (ob i))) with Some d => [d] | None => [] end
  | OTagList => match o_owner (ob i) with Some d => [d; i] | None => [i] end
  | OStatic => []
  end.
Definition occ (l : list nat) (c : nat) : nat := count_occ Nat.eq_dec l c.
Definition adds (ob : nat -> object) (t : option nat) (c : nat) : nat :=
  match t with Some i => occ (ctr ob i) c | None => 0%nat end.
Fixpoint tally (ob : nat -> object) (vars : list (nat * option nat)) (c : nat) : nat :=
  match vars with [] => 0%nat | (_, t) :: r => (adds ob t c + tally ob r c)%nat end.
Definition same_shape (a b : nat -> object) : Prop :=
  forall i, o_kind (a i) = o_kind (b i) /\ o_owner (a i) = o_owner (b i) /\ o_host (a i) = o_host (b i).
Definition counter (ob : nat -> object) (c : nat) : Prop :=
  match o_kind (ob c) with
  | ODocument | OShared | OTagList => True
  | ODocType => o_owner (ob c) = None
  | _ => False
  end.
Definition kp (ob : nat -> object) (i : nat) : option nat := keeper (HState ob []) i.
Record Inv (s : hstate) : Prop := {
  inv_node : forall i, o_kind (h_objs s i) = ONode \/ o_kind (h_objs s i) = OTagList ->
     exists d, o_owner (h_objs s i) = Some d /\ o_kind (h_objs s d) = ODocument;
  inv_type : forall i d, o_kind (h_objs s i) = ODocType -> o_owner (h_objs s i) = Some d -> o_kind (h_objs s d) = ODocument;
  inv_map : forall i, o_kind (h_objs s i) = OTypeMap -> o_kind (h_objs s (o_host (h_objs s i))) = ODocType;
  inv_names : NoDup (map fst (h_vars s));
  inv_count : forall c, counter (h_objs s) c -> o_count (h_objs s c) = Z.of_nat (tally (h_objs s) (h_vars s) c);
  inv_alive : forall i c, kp (h_objs s) i = Some c ->
     alive s i = negb (o_used (h_objs s c) && Nat.eqb (tally (h_objs s) (h_vars s) c) 0);
  inv_static : forall i, o_kind (h_objs s i) = OStatic -> alive s i = true;
  inv_used : forall c, (0 < tally (h_objs s) (h_vars s) c)%nat -> o_used (h_objs s c) = true;
  inv_maps : forall v i, In (v, Some i) (h_vars s) -> o_kind (h_objs s i) = OTypeMap -> o_owner (h_objs s (o_host (h_objs s i))) <> None }.

Lemma shape_refl : forall a, same_shape a a. Proof. intros a i; auto. Qed.
Lemma shape_trans : forall a b c, same_shape a b -> same_shape b c -> same_shape a c.
Proof. intros a b c A B i. destruct (A i) as (A1 & A2 & A3), (B i) as (B1 & B2 & B3). repeat split; congruence. Qed.
Lemma shape_ctr : forall a b i, same_shape a b -> ctr b i = ctr a i.
Proof.
  intros a b i SH. unfold ctr. destruct (SH i) as (K & O & H). rewrite <- K, <- O, <- H.
  destruct (o_kind (a i)); auto. destruct (SH (o_host (a i))) as (K2 & O2 & H2). rewrite <- O2. reflexivity.
Qed.
Lemma shape_kp : forall a b i, same_shape a b -> kp b i = kp a i.
Proof.
  intros a b i SH. unfold kp, keeper. cbn [h_objs]. destruct (SH i) as (K & O & H). rewrite <- K, <- O, <- H.
  destruct (o_kind (a i)); auto. destruct (SH (o_host (a i))) as (K2 & O2 & H2). rewrite <- O2. reflexivity.
Qed.
Lemma shape_tally : forall a b vars c, same_shape a b -> tally b vars c = tally a vars c.
Proof.
  intros a b vars c SH. induction vars as [|[v t] r IH]; cbn [tally]; auto. rewrite IH. f_equal.
  destruct t; cbn [adds]; auto. rewrite (shape_ctr a b); auto.
Qed.
Lemma shape_counter : forall a b c, same_shape a b -> counter b c -> counter a c.
Proof. intros a b c SH. unfold counter. destruct (SH c) as (K & O & _). rewrite <- K, <- O. auto. Qed.

Lemma part_kp : forall s c i, part_of s c i = match kp (h_objs s) i with Some k => Nat.eqb k c | None => false end.
Proof.
  intros s c i. unfold part_of, kp, keeper. cbn [h_objs]. destruct (o_kind (h_objs s i)); auto.
  - destruct (o_owner (h_objs s i)); auto.
  - destruct (o_owner (h_objs s (o_host (h_objs s i)))); auto.
Qed.

(** What one counter going down, and a list of them, does. *)
Definition killed (ob' : nat -> object) (l : list nat) (k : option nat) : bool :=
  match k with Some c => existsb (Nat.eqb c) l && Z.eqb (o_count (ob' c)) 0 | None => false end.
Definition lowered (s s' : hstate) (l : list nat) : Prop :=
  same_shape (h_objs s) (h_objs s') /\ h_vars s' = h_vars s /\
  (forall c, o_used (h_objs s' c) = o_used (h_objs s c)) /\
  (forall c, o_count (h_objs s' c) = o_count (h_objs s c) - Z.of_nat (occ l c)) /\
  (forall i, alive s' i = alive s i && negb (killed (h_objs s') l (kp (h_objs s) i))).

Lemma occ_cons : forall c l x, occ (c :: l) x = ((if Nat.eqb x c then 1 else 0) + occ l x)%nat.
Proof.
  intros c l x. unfold occ. destruct (Nat.eqb_spec x c) as [E|E].
  - rewrite count_occ_cons_eq; auto.
  - rewrite count_occ_cons_neq; auto.
Qed.
Lemma occ_in : forall l x, existsb (Nat.eqb x) l = negb (Nat.eqb (occ l x) 0).
Proof.
  induction l as [|c l IH]; intros x; [reflexivity|]. cbn [existsb]. rewrite occ_cons, IH.
  destruct (Nat.eqb x c); cbn; auto.
Qed.
Lemma put_same : forall s c f, h_objs (put_obj s c f) c = f (h_objs s c).
Proof. intros. cbn. rewrite Nat.eqb_refl. reflexivity. Qed.
Lemma shape_put : forall s c f, (forall o, o_kind (f o) = o_kind o /\ o_owner (f o) = o_owner o /\ o_host (f o) = o_host o) ->
  same_shape (h_objs s) (h_objs (put_obj s c f)).
Proof. intros s c f F i. cbn. destruct (Nat.eqb i c); auto. destruct (F (h_objs s i)) as (A & B & C). auto. Qed.
Lemma dec_lowered : forall s c, alive s c = true -> exists s', dec s c = Fine s' /\ lowered s s' [c].
Proof.
  intros s c A. unfold dec. rewrite A. cbv zeta. set (s1 := put_obj s c (count_by (-1))).
  assert (SH : same_shape (h_objs s) (h_objs s1)) by (apply shape_put; auto).
  assert (U : forall x, o_used (h_objs s1 x) = o_used (h_objs s x)) by (intros x; unfold s1; cbn; destruct (Nat.eqb x c); reflexivity).
  assert (C : forall x, o_count (h_objs s1 x) = o_count (h_objs s x) - Z.of_nat (occ [c] x)).
  { intros x. rewrite occ_cons. unfold s1. cbn. destruct (Nat.eqb_spec x c) as [->|N]; cbn; lia. }
  assert (AL : forall x, alive s1 x = alive s x) by (intros x; unfold alive, s1; cbn; destruct (Nat.eqb x c); reflexivity).
  destruct (Z.eqb_spec (o_count (h_objs s1 c)) 0) as [Z0|Z0].
  - exists (delete s1 c). split; [reflexivity|].
    assert (SH2 : same_shape (h_objs s1) (h_objs (delete s1 c))).
    { intros i. unfold delete. cbn [h_objs]. destruct (part_of s1 c i); cbn; auto. }
    repeat split.
    + apply (shape_trans _ _ _ SH SH2).
    + apply (shape_trans _ _ _ SH SH2).
    + apply (shape_trans _ _ _ SH SH2).
    + intros x. rewrite <- U. unfold delete. cbn [h_objs]. destruct (part_of s1 c x); reflexivity.
    + intros x. rewrite <- C. unfold delete. cbn [h_objs]. destruct (part_of s1 c x); reflexivity.
    + intros i. rewrite <- AL.
      assert (DA : alive (delete s1 c) i = if part_of s1 c i then false else alive s1 i) by (unfold alive, delete; cbn [h_objs]; destruct (part_of s1 c i); reflexivity).
      rewrite DA. assert (E : part_of s1 c i = killed (h_objs (delete s1 c)) [c] (kp (h_objs s) i)).
      { rewrite part_kp, (shape_kp _ _ _ SH). destruct (kp (h_objs s) i) as [k|]; cbn [killed existsb]; auto.
        rewrite orb_false_r. destruct (Nat.eqb_spec k c) as [->|N]; cbn [andb]; auto. symmetry. apply Z.eqb_eq.
        rewrite <- Z0. unfold delete. cbn [h_objs]. destruct (part_of s1 c c); reflexivity. }
      rewrite <- E. destruct (part_of s1 c i); cbn; [rewrite andb_false_r|rewrite andb_true_r]; reflexivity.
  - exists s1. split; [reflexivity|]. split; [exact SH|]. split; [reflexivity|]. split; [exact U|]. split; [exact C|].
    intros i. rewrite AL. destruct (kp (h_objs s) i) as [k|]; cbn [killed existsb negb]; [|rewrite andb_true_r; reflexivity].
    rewrite orb_false_r. destruct (Nat.eqb_spec k c) as [->|N]; cbn [andb negb]; [|rewrite andb_true_r; reflexivity].
    apply Z.eqb_neq in Z0. rewrite Z0. cbn. rewrite andb_true_r. reflexivity.
Qed.
Lemma lowered_two : forall s s1 s2 c d, c <> d -> lowered s s1 [c] -> lowered s1 s2 [d] -> lowered s s2 [c; d].
Proof.
  intros s s1 s2 c d N (A1 & A2 & A3 & A4 & A5) (B1 & B2 & B3 & B4 & B5). split; [apply (shape_trans _ _ _ A1 B1)|]. split; [congruence|].
  split; [intros x; rewrite B3; auto|]. split; [intros x; rewrite B4, A4; rewrite !occ_cons; cbn; lia|].
  intros i. rewrite B5, A5, <- andb_assoc. f_equal. rewrite <- negb_orb. f_equal. rewrite (shape_kp _ _ _ A1).
  destruct (kp (h_objs s) i) as [k|]; cbn [killed existsb]; [|reflexivity]. rewrite !orb_false_r, B4, occ_cons. cbn [occ count_occ].
  destruct (Nat.eqb_spec k c) as [EC|NC]; destruct (Nat.eqb_spec k d) as [ED|ND]; try congruence; cbn [andb orb].
  - change (Z.of_nat (0 + 0)) with 0. rewrite Z.sub_0_r, orb_false_r. reflexivity.
  - reflexivity.
  - reflexivity.
Qed.

Lemma kp_counter : forall s c, counter (h_objs s) c -> kp (h_objs s) c = Some c.
Proof. intros s c. unfold counter, kp, keeper. cbn [h_objs]. destruct (o_kind (h_objs s c)); auto; try tauto. intros ->; auto. Qed.
Lemma doc_counter : forall s c, o_kind (h_objs s c) = ODocument -> counter (h_objs s) c.
Proof. intros s c E. unfold counter. rewrite E. exact I. Qed.
Lemma ctr_counter : forall s, Inv s -> forall i c, In c (ctr (h_objs s) i) -> counter (h_objs s) c.
Proof.
  intros s IV i c M. unfold ctr in M. destruct (o_kind (h_objs s i)) eqn:K.
  - destruct M as [<-|[]]. apply doc_counter, K.
  - destruct M as [<-|[]]. unfold counter. rewrite K. exact I.
  - destruct (inv_node s IV i (or_introl K)) as (d & O & D). rewrite O in M. destruct M as [<-|[]]. apply doc_counter, D.
  - destruct (o_owner (h_objs s i)) as [d|] eqn:O; destruct M as [<-|[]].
    + apply doc_counter, (inv_type s IV i d K O).
    + unfold counter. rewrite K. exact O.
  - destruct (o_owner (h_objs s (o_host (h_objs s i)))) as [d|] eqn:O; [|destruct M]. destruct M as [<-|[]].
    apply doc_counter, (inv_type s IV _ d (inv_map s IV i K) O).
  - destruct (inv_node s IV i (or_intror K)) as (d & O & D). rewrite O in M. destruct M as [<-|[<-|[]]].
    + apply doc_counter, D.
    + unfold counter. rewrite K. exact I.
  - destruct M.
Qed.
Lemma tally_in : forall ob vars v i c, In (v, Some i) vars -> (occ (ctr ob i) c <= tally ob vars c)%nat.
Proof.
  intros ob vars v i c. induction vars as [|[w t] r IH]; intros M; [destruct M|]. cbn [tally]. destruct M as [E|M].
  - injection E as -> ->. cbn [adds]. lia.
  - specialize (IH M). lia.
Qed.
Lemma occ_pos : forall l c, In c l -> (0 < occ l c)%nat.
Proof. intros l c M. apply count_occ_In. exact M. Qed.
Lemma occ_zero : forall l c, occ l c = 0%nat \/ In c l.
Proof. intros l c. destruct (in_dec Nat.eq_dec c l) as [M|M]; auto. left. apply count_occ_not_In. exact M. Qed.
Lemma ctr_alive : forall s, Inv s -> forall v i c, In (v, Some i) (h_vars s) -> In c (ctr (h_objs s) i) -> alive s c = true.
Proof.
  intros s IV v i c M C. rewrite (inv_alive s IV c c (kp_counter s c (ctr_counter s IV i c C))).
  pose proof (tally_in (h_objs s) (h_vars s) v i c M). pose proof (occ_pos _ _ C).
  destruct (Nat.eqb_spec (tally (h_objs s) (h_vars s) c) 0); [lia|]. rewrite andb_false_r. reflexivity.
Qed.
Lemma kp_ctr : forall s, Inv s -> forall i, (o_kind (h_objs s i) = OTypeMap -> o_owner (h_objs s (o_host (h_objs s i))) <> None) ->
  match kp (h_objs s) i with Some c => In c (ctr (h_objs s) i) | None => o_kind (h_objs s i) = OStatic end.
Proof.
  intros s IV i TM. unfold kp, keeper, ctr. cbn [h_objs]. destruct (o_kind (h_objs s i)) eqn:K; cbn; auto.
  - destruct (inv_node s IV i (or_introl K)) as (d & O & D). rewrite O. cbn. auto.
  - destruct (o_owner (h_objs s i)); cbn; auto.
  - specialize (TM eq_refl). destruct (o_owner (h_objs s (o_host (h_objs s i)))); [cbn; auto|congruence].
  - destruct (inv_node s IV i (or_intror K)) as (d & O & D). rewrite O. cbn. auto.
Qed.
Lemma var_alive : forall s, Inv s -> forall v i, In (v, Some i) (h_vars s) -> alive s i = true.
Proof.
  intros s IV v i M. pose proof (kp_ctr s IV i (inv_maps s IV v i M)) as KC. destruct (kp (h_objs s) i) as [c|] eqn:K.
  - rewrite (inv_alive s IV i c K). pose proof (tally_in (h_objs s) (h_vars s) v i c M). pose proof (occ_pos _ _ KC).
    destruct (Nat.eqb_spec (tally (h_objs s) (h_vars s) c) 0); [lia|]. rewrite andb_false_r. reflexivity.
  - apply (inv_static s IV i KC).
Qed.
Lemma lowered_nil : forall s, lowered s s [].
Proof.
  intros s. split; [apply shape_refl|]. repeat split; auto; intros x; cbn; [lia|]. destruct (kp (h_objs s) x); cbn; rewrite andb_true_r; reflexivity.
Qed.
Lemma release_lowered : forall s, Inv s -> forall v i, In (v, Some i) (h_vars s) ->
  exists s', release_ref s i = Fine s' /\ lowered s s' (ctr (h_objs s) i).
Proof.
  intros s IV v i M. pose proof (ctr_alive s IV v i) as CA. unfold release_ref. rewrite (var_alive s IV v i M). unfold owner_of, ctr in *.
  destruct (o_kind (h_objs s i)) eqn:K.
  - apply dec_lowered, CA; cbn; auto.
  - apply dec_lowered, CA; cbn; auto.
  - destruct (o_owner (h_objs s i)) as [d|]; [apply dec_lowered, CA; cbn; auto|]. eexists; split; [reflexivity|apply lowered_nil].
  - destruct (o_owner (h_objs s i)) as [d|]; apply dec_lowered, CA; cbn; auto.
  - destruct (o_owner (h_objs s (o_host (h_objs s i)))) as [d|]; [apply dec_lowered, CA; cbn; auto|]. eexists; split; [reflexivity|apply lowered_nil].
  - destruct (inv_node s IV i (or_intror K)) as (d & O & D). rewrite O in *.
    destruct (dec_lowered s d) as (s1 & E1 & L1); [apply CA; cbn; auto|]. rewrite E1. cbn [hbind].
    assert (N : d <> i) by (intros ->; congruence).
    destruct (dec_lowered s1 i) as (s2 & E2 & L2).
    { destruct L1 as (_ & _ & _ & _ & AL). rewrite AL, (var_alive s IV v i M). unfold kp, keeper. cbn [h_objs]. rewrite K. cbn [killed existsb].
      destruct (Nat.eqb_spec i d); [congruence|]. reflexivity. }
    exists s2. split; [exact E2|]. eapply lowered_two; eauto.
  - eexists; split; [reflexivity|apply lowered_nil].
Qed.

(** Going up. *)
Definition raised (s s' : hstate) (l : list nat) : Prop :=
  same_shape (h_objs s) (h_objs s') /\ h_vars s' = h_vars s /\
  (forall c, o_used (h_objs s' c) = o_used (h_objs s c) || existsb (Nat.eqb c) l) /\
  (forall c, o_count (h_objs s' c) = o_count (h_objs s c) + Z.of_nat (occ l c)) /\
  (forall i, alive s' i = alive s i).
Lemma inc_raised : forall s c, alive s c = true -> exists s', inc s c = Fine s' /\ raised s s' [c].
Proof.
  intros s c A. unfold inc. rewrite A. eexists. split; [reflexivity|]. split; [apply shape_put; auto|]. split; [reflexivity|].
  repeat split; intros x; unfold alive; cbn [put_obj h_objs existsb]; rewrite ?occ_cons; destruct (Nat.eqb x c); cbn; try lia; auto; rewrite ?orb_true_r, ?orb_false_r; reflexivity.
Qed.
Lemma raised_nil : forall s, raised s s [].
Proof. intros s. split; [apply shape_refl|]. repeat split; auto; intros x; cbn; [rewrite orb_false_r; reflexivity|lia]. Qed.
Lemma raised_two : forall s s1 s2 c d, raised s s1 [c] -> raised s1 s2 [d] -> raised s s2 [d; c].
Proof.
  intros s s1 s2 c d (A1 & A2 & A3 & A4 & A5) (B1 & B2 & B3 & B4 & B5). split; [apply (shape_trans _ _ _ A1 B1)|]. split; [congruence|].
  repeat split; intros x.
  - rewrite B3, A3. cbn. rewrite !orb_false_r. destruct (o_used (h_objs s x)), (Nat.eqb x c), (Nat.eqb x d); reflexivity.
  - rewrite B4, A4, !occ_cons. cbn. lia.
  - rewrite B5, A5. reflexivity.
Qed.
Lemma add_raised : forall s, Inv s -> forall i, alive s i = true -> (forall c, In c (ctr (h_objs s) i) -> alive s c = true) ->
  exists s', add_ref s i = Fine s' /\ raised s s' (ctr (h_objs s) i).
Proof.
  intros s IV i A CA. unfold add_ref. rewrite A. unfold owner_of, ctr in *. destruct (o_kind (h_objs s i)) eqn:K.
  - apply inc_raised, A.
  - apply inc_raised, A.
  - destruct (o_owner (h_objs s i)) as [d|]; [apply inc_raised, CA; cbn; auto|]. eexists; split; [reflexivity|apply raised_nil].
  - destruct (o_owner (h_objs s i)) as [d|]; apply inc_raised, CA; cbn; auto.
  - destruct (o_owner (h_objs s (o_host (h_objs s i)))) as [d|]; [apply inc_raised, CA; cbn; auto|]. eexists; split; [reflexivity|apply raised_nil].
  - destruct (inv_node s IV i (or_intror K)) as (d & O & D). rewrite O in *.
    destruct (inc_raised s i A) as (s1 & E1 & R1). rewrite E1. cbn [hbind]. pose proof R1 as (SH & _ & _ & _ & AL).
    destruct (SH i) as (SK & SO & _). rewrite <- SK, K, <- SO, O.
    destruct (inc_raised s1 d) as (s2 & E2 & R2); [rewrite AL; apply CA; cbn; auto|].
    exists s2. split; [exact E2|]. eapply raised_two; eauto.
  - eexists; split; [reflexivity|apply raised_nil].
Qed.

(** The variables. *)
Lemma names_put : forall s v t, map fst (h_vars (put_var s v t)) = map fst (h_vars s).
Proof.
  intros s v t. cbn. rewrite map_map. apply map_ext. intros [w x]. cbn. destruct (Nat.eqb_spec w v); cbn; congruence.
Qed.
Lemma tally_other : forall ob vars v t c, ~ In v (map fst vars) ->
  tally ob (map (fun x => if Nat.eqb (fst x) v then (v, t) else x) vars) c = tally ob vars c.
Proof.
  intros ob vars v t c. induction vars as [|[w x] r IH]; intros N; cbn [map tally fst]; auto.
  destruct (Nat.eqb_spec w v) as [->|W]; [exfalso; apply N; cbn; auto|]. cbn [tally]. rewrite IH; auto. intros M. apply N. cbn. auto.
Qed.
Lemma tally_put : forall ob vars v t u c, NoDup (map fst vars) -> In (v, u) vars ->
  (tally ob (map (fun x => if Nat.eqb (fst x) v then (v, t) else x) vars) c + adds ob u c = tally ob vars c + adds ob t c)%nat.
Proof.
  intros ob vars v t u c. induction vars as [|[w x] r IH]; intros ND M; [destruct M|]. cbn [map fst] in *. inversion ND as [|? ? N1 N2]; subst.
  destruct M as [E|M].
  - injection E as -> ->. rewrite Nat.eqb_refl. cbn [tally]. rewrite tally_other; auto. lia.
  - destruct (Nat.eqb_spec w v) as [->|W]; [exfalso; apply N1; change v with (fst (v, u)); apply in_map; exact M|].
    cbn [tally]. specialize (IH N2 M). lia.
Qed.
Lemma put_in : forall s v t w i, In (w, Some i) (h_vars (put_var s v t)) -> t = Some i \/ In (w, Some i) (h_vars s).
Proof.
  intros s v t w i M. cbn in M. apply in_map_iff in M as ([w' x] & E & M). cbn [fst] in E. destruct (Nat.eqb w' v); injection E as E1 E2; subst; auto.
Qed.
Lemma var_in : forall s v, declared s v = true -> In (v, var s v) (h_vars s).
Proof.
  intros s v D. unfold declared in D. unfold var. apply existsb_exists in D as ([w t] & M & E).
  destruct (find (fun x => Nat.eqb (fst x) v) (h_vars s)) as [[w' t']|] eqn:F.
  - apply find_some in F as [F1 F2]. cbn in F2. apply Nat.eqb_eq in F2. subst. exact F1.
  - pose proof (find_none _ _ F _ M) as X. cbn in X, E. congruence.
Qed.
Lemma in_var : forall s v t, NoDup (map fst (h_vars s)) -> In (v, t) (h_vars s) -> var s v = t.
Proof.
  intros s v t. unfold var. induction (h_vars s) as [|[w x] r IH]; intros ND M; [destruct M|]. cbn [map fst] in ND. inversion ND as [|? ? N1 N2]; subst.
  cbn [find fst]. destruct M as [E|M].
  - injection E as -> ->. rewrite Nat.eqb_refl. reflexivity.
  - destruct (Nat.eqb_spec w v) as [->|W]; [|apply IH; auto]. exfalso. apply N1. change v with (fst (v, t)). apply in_map. exact M.
Qed.
Lemma var_put : forall s v t u, declared s u = true -> NoDup (map fst (h_vars s)) -> var (put_var s v t) u = if Nat.eqb u v then t else var s u.
Proof.
  intros s v t u D ND. apply in_var; [rewrite names_put; exact ND|]. apply var_in in D. cbn. apply in_map_iff. exists (u, var s u). split; [|exact D].
  cbn. destruct (Nat.eqb_spec u v); congruence.
Qed.

(** The two halves of setImpl. *)
Lemma drop_inv : forall s, Inv s -> forall v i, In (v, Some i) (h_vars s) ->
  exists s', release_ref s i = Fine s' /\ Inv (put_var s' v None) /\ h_vars s' = h_vars s.
Proof.
  intros s IV v i M. destruct (release_lowered s IV v i M) as (s' & E & SH & V & U & C & A). exists s'. split; [exact E|]. split; [|exact V].
  assert (T : forall c, tally (h_objs s') (h_vars (put_var s' v None)) c = (tally (h_objs s) (h_vars s) c - occ (ctr (h_objs s) i) c)%nat).
  { intros c. rewrite (shape_tally _ _ _ _ SH). cbn [put_var h_vars]. rewrite V.
    pose proof (tally_put (h_objs s) (h_vars s) v None (Some i) c (inv_names s IV) M) as P. cbn [adds] in P. lia. }
  assert (SK : forall x, o_kind (h_objs s' x) = o_kind (h_objs s x)) by (intros x; symmetry; apply SH).
  assert (SO : forall x, o_owner (h_objs s' x) = o_owner (h_objs s x)) by (intros x; symmetry; apply SH).
  assert (SHo : forall x, o_host (h_objs s' x) = o_host (h_objs s x)) by (intros x; symmetry; apply SH).
  split.
  - intros x X. cbn in *. rewrite SK in X. destruct (inv_node s IV x X) as (d & O & D). exists d. rewrite SO, SK. auto.
  - intros x d X Y. cbn in *. rewrite SK in *. rewrite SO in Y. apply (inv_type s IV x d X Y).
  - intros x X. cbn in *. rewrite SK in *. rewrite SHo. apply (inv_map s IV x X).
  - rewrite names_put, V. apply inv_names, IV.
  - intros c X. change (h_objs (put_var s' v None)) with (h_objs s') in *. rewrite T, C, (inv_count s IV c (shape_counter _ _ _ SH X)).
    pose proof (tally_in (h_objs s) (h_vars s) v i c M). lia.
  - intros x c X. change (h_objs (put_var s' v None)) with (h_objs s') in *. change (alive (put_var s' v None) x) with (alive s' x).
    rewrite (shape_kp _ _ _ SH) in X. rewrite T, A, X, (inv_alive s IV x c X), U. cbn [killed]. rewrite occ_in.
    destruct (occ_zero (ctr (h_objs s) i) c) as [Z|IN].
    + rewrite Z. cbn. rewrite andb_true_r, Nat.sub_0_r. reflexivity.
    + pose proof (occ_pos _ _ IN) as P. pose proof (tally_in (h_objs s) (h_vars s) v i c M) as TI.
      rewrite (inv_used s IV c) by lia. rewrite C, (inv_count s IV c (ctr_counter s IV i c IN)).
      destruct (Nat.eqb_spec (tally (h_objs s) (h_vars s) c) 0); [lia|]. destruct (Nat.eqb_spec (occ (ctr (h_objs s) i) c) 0); [lia|].
      cbn [andb negb].
      destruct (Nat.eqb_spec (tally (h_objs s) (h_vars s) c - occ (ctr (h_objs s) i) c) 0); cbn [negb];
        [apply negb_false_iff, Z.eqb_eq|apply negb_true_iff, Z.eqb_neq]; lia.
  - intros x X. change (h_objs (put_var s' v None)) with (h_objs s') in *. change (alive (put_var s' v None) x) with (alive s' x).
    rewrite SK in X. rewrite A, (inv_static s IV x X). unfold kp, keeper. cbn [h_objs]. rewrite X. reflexivity.
  - intros c X. change (h_objs (put_var s' v None)) with (h_objs s') in *. rewrite T in X. rewrite U. apply (inv_used s IV). lia.
  - intros w x X Y. change (h_objs (put_var s' v None)) with (h_objs s') in *. rewrite SK in Y. rewrite SHo, SO.
    apply put_in in X as [X|X]; [discriminate|]. rewrite V in X. apply (inv_maps s IV w x X Y).
Qed.
Lemma add_inv : forall s, Inv s -> forall v i, In (v, None) (h_vars s) -> alive s i = true ->
  (forall c, In c (ctr (h_objs s) i) -> alive s c = true) ->
  (o_kind (h_objs s i) = OTypeMap -> o_owner (h_objs s (o_host (h_objs s i))) <> None) ->
  exists s', add_ref (put_var s v (Some i)) i = Fine s' /\ Inv s' /\ h_vars s' = h_vars (put_var s v (Some i)).
Proof.
  intros s IV v i M AI CA TM.
  assert (R0 : exists s', add_ref s i = Fine s' /\ raised s s' (ctr (h_objs s) i)) by (apply add_raised; auto).
  assert (R : exists s', add_ref (put_var s v (Some i)) i = Fine s' /\ raised (put_var s v (Some i)) s' (ctr (h_objs s) i)).
  { assert (IC : forall c, alive s c = true -> exists s', inc (put_var s v (Some i)) c = Fine s' /\ raised (put_var s v (Some i)) s' [c]) by (intros c AC; apply (inc_raised (put_var s v (Some i)) c AC)).
    unfold add_ref. change (alive (put_var s v (Some i)) i) with (alive s i). rewrite AI. unfold owner_of. change (h_objs (put_var s v (Some i))) with (h_objs s).
    unfold ctr in *. destruct (o_kind (h_objs s i)) eqn:K.
    - apply IC, AI.
    - apply IC, AI.
    - destruct (o_owner (h_objs s i)) as [d|]; [apply IC, CA; cbn; auto|]. eexists; split; [reflexivity|apply raised_nil].
    - destruct (o_owner (h_objs s i)) as [d|]; apply IC, CA; cbn; auto.
    - destruct (o_owner (h_objs s (o_host (h_objs s i)))) as [d|]; [apply IC, CA; cbn; auto|]. eexists; split; [reflexivity|apply raised_nil].
    - destruct (inv_node s IV i (or_intror K)) as (d & O & D). rewrite O in *.
      destruct (IC i AI) as (s1 & E1 & R1). rewrite E1. cbn [hbind]. pose proof R1 as (SH & _ & _ & _ & AL).
      destruct (SH i) as (SK & SO & _). cbn in SK, SO. rewrite <- SK, K, <- SO, O.
      destruct (inc_raised s1 d) as (s2 & E2 & R2); [rewrite AL; apply CA; cbn; auto|].
      exists s2. split; [exact E2|]. eapply raised_two; eauto.
    - eexists; split; [reflexivity|apply raised_nil]. }
  clear R0. destruct R as (s' & E & SH & V & U & C & A). exists s'. split; [exact E|]. split; [|exact V].
  change (h_objs (put_var s v (Some i))) with (h_objs s) in *.
  assert (T : forall c, tally (h_objs s') (h_vars s') c = (tally (h_objs s) (h_vars s) c + occ (ctr (h_objs s) i) c)%nat).
  { intros c. rewrite (shape_tally _ _ _ _ SH), V. cbn [put_var h_vars].
    pose proof (tally_put (h_objs s) (h_vars s) v (Some i) None c (inv_names s IV) M) as P. cbn [adds] in P. lia. }
  assert (SK : forall x, o_kind (h_objs s' x) = o_kind (h_objs s x)) by (intros x; symmetry; apply SH).
  assert (SO : forall x, o_owner (h_objs s' x) = o_owner (h_objs s x)) by (intros x; symmetry; apply SH).
  assert (SHo : forall x, o_host (h_objs s' x) = o_host (h_objs s x)) by (intros x; symmetry; apply SH).
  split.
  - intros x X. rewrite SK in X. destruct (inv_node s IV x X) as (d & O & D). exists d. rewrite SO, SK. auto.
  - intros x d X Y. rewrite SK in *. rewrite SO in Y. apply (inv_type s IV x d X Y).
  - intros x X. rewrite SK in *. rewrite SHo. apply (inv_map s IV x X).
  - rewrite V, names_put. apply inv_names, IV.
  - intros c X. rewrite T, C, (inv_count s IV c (shape_counter _ _ _ SH X)). lia.
  - intros x c X. rewrite (shape_kp _ _ _ SH) in X. rewrite T, A, U. change (alive (put_var s v (Some i)) x) with (alive s x).
    rewrite (inv_alive s IV x c X), occ_in. destruct (occ_zero (ctr (h_objs s) i) c) as [Z|IN].
    + rewrite Z. cbn. rewrite orb_false_r, Nat.add_0_r. reflexivity.
    + pose proof (occ_pos _ _ IN) as P. destruct (Nat.eqb_spec (occ (ctr (h_objs s) i) c) 0); [lia|].
      destruct (Nat.eqb_spec (tally (h_objs s) (h_vars s) c + occ (ctr (h_objs s) i) c) 0); [lia|]. rewrite !andb_false_r. cbn [negb].
      pose proof (CA c IN) as AC. rewrite (inv_alive s IV c c (kp_counter s c (ctr_counter s IV i c IN))) in AC. exact AC.
  - intros x X. rewrite SK in X. rewrite A. apply (inv_static s IV x X).
  - intros c X. rewrite T in X. rewrite U, occ_in. destruct (Nat.eqb_spec (occ (ctr (h_objs s) i) c) 0) as [Z|Z]; cbn; [|apply orb_true_r].
    rewrite (inv_used s IV c) by lia. reflexivity.
  - intros w x X Y. rewrite SK in Y. rewrite SHo, SO. rewrite V in X.
    apply put_in in X as [X|X]; [injection X as <-; auto|apply (inv_maps s IV w x X Y)].
Qed.

Lemma declare_inv : forall s v, Inv s -> declared s v = false -> Inv (declare s v).
Proof.
  intros s v IV D. destruct IV. split; cbn [declare h_objs h_vars tally adds]; auto.
  - cbn [map fst]. constructor; [|assumption]. intros M. apply in_map_iff in M as ([w t] & E & M). cbn in E. subst w.
    unfold declared in D. assert (X : existsb (fun x => Nat.eqb (fst x) v) (h_vars s) = true) by (apply existsb_exists; exists (v, t); split; [exact M|cbn; apply Nat.eqb_refl]).
    congruence.
  - intros w i [E|M]; [discriminate|eauto].
Qed.
Lemma declared_in : forall s v t, In (v, t) (h_vars s) -> declared s v = true.
Proof. intros s v t M. unfold declared. apply existsb_exists. exists (v, t). split; [exact M|]. cbn. apply Nat.eqb_refl. Qed.
Lemma var_fresh : forall s v t, In (v, t) (h_vars s) -> NoDup (map fst (h_vars s)) -> var s v = t.
Proof. intros. apply in_var; auto. Qed.

Lemma set_impl_inv : forall s, Inv s -> forall v t, declared s v = true ->
  (forall i, t = Some i -> var s v = None -> alive s i = true /\ (forall c, In c (ctr (h_objs s) i) -> alive s c = true) /\
     (o_kind (h_objs s i) = OTypeMap -> o_owner (h_objs s (o_host (h_objs s i))) <> None)) ->
  (forall i, t = Some i -> var s v <> None -> exists u, u <> v /\ In (u, Some i) (h_vars s)) ->
  exists s', set_impl s v t = Fine s' /\ Inv s' /\ h_vars s' = h_vars (put_var s v t).
Proof.
  intros s IV v t D F1 F2. unfold set_impl. pose proof (var_in s v D) as VI.
  destruct (var s v) as [j|] eqn:W.
  - destruct (drop_inv s IV v j VI) as (s1 & E1 & I1 & V1). rewrite E1. cbn [hbind].
    assert (VN : In (v, None) (h_vars (put_var s1 v None))).
    { cbn. rewrite V1. apply in_map_iff. exists (v, Some j). cbn. rewrite Nat.eqb_refl. auto. }
    assert (PP : forall t, h_vars (put_var (put_var s1 v None) v t) = h_vars (put_var s v t)).
    { intros t'. cbn. rewrite V1, map_map. apply map_ext. intros [w x]. cbn [fst]. destruct (Nat.eqb w v) eqn:Q; cbn [fst]; rewrite ?Nat.eqb_refl, ?Q; reflexivity. }
    destruct t as [i|].
    + destruct (F2 i eq_refl) as (u & NU & UI); [discriminate|].
      assert (UI1 : In (u, Some i) (h_vars (put_var s1 v None))).
      { cbn. rewrite V1. apply in_map_iff. exists (u, Some i). cbn. destruct (Nat.eqb_spec u v); [congruence|auto]. }
      destruct (add_inv (put_var s1 v None) I1 v i VN) as (s2 & E2 & I2 & V2).
      * apply (var_alive _ I1 u i UI1).
      * intros c. apply (ctr_alive _ I1 u i c UI1).
      * apply (inv_maps _ I1 u i UI1).
      * exists s2. rewrite E2. split; [reflexivity|]. split; [exact I2|]. rewrite V2. apply PP.
    + exists (put_var s1 v None). split; [reflexivity|]. split; [exact I1|]. cbn. rewrite V1. reflexivity.
  - cbn [hbind]. destruct t as [i|].
    + destruct (F1 i eq_refl eq_refl) as (A & B & C). apply (add_inv s IV v i VI A B C).
    + exists s. split; [reflexivity|]. split; [exact IV|]. cbn. rewrite <- (map_id (h_vars s)) at 1. apply map_ext_in. intros [w x] M. cbn [fst].
      destruct (Nat.eqb_spec w v) as [->|N]; [|reflexivity]. rewrite <- (in_var s v x (inv_names s IV) M), W. reflexivity.
Qed.

Lemma tally_filter : forall ob vars v c, (forall t, In (v, t) vars -> t = None) ->
  tally ob (filter (fun x => negb (Nat.eqb (fst x) v)) vars) c = tally ob vars c.
Proof.
  intros ob vars v c. induction vars as [|[w t] r IH]; intros F; [reflexivity|]. cbn [filter fst tally]. destruct (Nat.eqb_spec w v) as [->|N]; cbn [negb].
  - rewrite (F t) by (cbn; auto). cbn [adds]. apply IH. intros t' M. apply F. cbn. auto.
  - cbn [tally]. rewrite IH; auto. intros t' M. apply F. cbn. auto.
Qed.
Lemma filter_names : forall (f : nat * option nat -> bool) l, NoDup (map fst l) -> NoDup (map fst (filter f l)).
Proof.
  intros f l. induction l as [|x l IH]; intros ND; [constructor|]. cbn [map] in ND. inversion ND as [|? ? A B]; subst. cbn [filter]. destruct (f x); auto.
  cbn [map]. constructor; auto. intros M. apply A. apply in_map_iff in M as (y & E & M). apply filter_In in M as [M _]. rewrite <- E. apply in_map, M.
Qed.
Lemma undeclare_inv : forall s v, Inv s -> (forall t, In (v, t) (h_vars s) -> t = None) ->
  Inv (HState (h_objs s) (filter (fun x => negb (Nat.eqb (fst x) v)) (h_vars s))).
Proof.
  intros s v IV F. destruct IV. split; cbn [h_objs h_vars]; auto.
  - apply filter_names; assumption.
  - intros c X. rewrite tally_filter; auto.
  - intros i c X. rewrite tally_filter by auto. apply (inv_alive0 i c X).
  - intros c X. rewrite tally_filter in X; auto.
  - intros w i M. apply filter_In in M as [M _]. eauto.
Qed.

Lemma adopt_inv : forall s t d, Inv s -> hop_ok s (HAdopt t d) -> exists s', hstep s (HAdopt t d) = Fine s' /\ Inv s' /\ h_vars s' = h_vars s.
Proof.
  intros s t d IV (K & O & D & AT & AD). cbn [hstep]. rewrite AT, AD. cbn [andb].
  set (s' := put_obj _ t (own d)). exists s'. split; [reflexivity|]. split; [|reflexivity].
  assert (N : d <> t) by congruence.
  assert (Ot : h_objs s' t = own d (h_objs s t)).
  { unfold s'. rewrite put_same. cbn [put_obj h_objs]. destruct (Nat.eqb_spec t d); [congruence|reflexivity]. }
  assert (Od : h_objs s' d = Object (o_kind (h_objs s d)) (o_owner (h_objs s d)) (o_host (h_objs s d)) (o_count (h_objs s d) + o_count (h_objs s t)) (o_alive (h_objs s d)) (o_used (h_objs s d) || o_used (h_objs s t))).
  { unfold s'. cbn [put_obj h_objs]. destruct (Nat.eqb_spec d t); [congruence|]. rewrite Nat.eqb_refl. reflexivity. }
  assert (Ox : forall x, x <> t -> x <> d -> h_objs s' x = h_objs s x).
  { intros x X Y. unfold s'. cbn [put_obj h_objs]. destruct (Nat.eqb_spec x t); [congruence|]. destruct (Nat.eqb_spec x d); [congruence|reflexivity]. }
  assert (V : h_vars s' = h_vars s) by reflexivity. clearbody s'.
  assert (CT : counter (h_objs s) t) by (unfold counter; rewrite K; exact O).
  assert (CD : counter (h_objs s) d) by (apply doc_counter, D).
  assert (SK : forall x, o_kind (h_objs s' x) = o_kind (h_objs s x)).
  { intros x. destruct (Nat.eq_dec x t) as [->|X]; [rewrite Ot; reflexivity|]. destruct (Nat.eq_dec x d) as [->|Y]; [rewrite Od; reflexivity|]. rewrite Ox; auto. }
  assert (SHo : forall x, o_host (h_objs s' x) = o_host (h_objs s x)).
  { intros x. destruct (Nat.eq_dec x t) as [->|X]; [rewrite Ot; reflexivity|]. destruct (Nat.eq_dec x d) as [->|Y]; [rewrite Od; reflexivity|]. rewrite Ox; auto. }
  assert (SO : forall x, o_owner (h_objs s' x) = if Nat.eqb x t then Some d else o_owner (h_objs s x)).
  { intros x. destruct (Nat.eqb_spec x t) as [->|X]; [rewrite Ot; reflexivity|]. destruct (Nat.eq_dec x d) as [->|Y]; [rewrite Od; reflexivity|]. rewrite Ox; auto. }
  assert (SA : forall x, alive s' x = alive s x).
  { intros x. unfold alive. destruct (Nat.eq_dec x t) as [->|X]; [rewrite Ot; reflexivity|]. destruct (Nat.eq_dec x d) as [->|Y]; [rewrite Od; reflexivity|]. rewrite Ox; auto. }
  assert (SU : forall x, o_used (h_objs s' x) = if Nat.eqb x d then o_used (h_objs s d) || o_used (h_objs s t) else o_used (h_objs s x)).
  { intros x. destruct (Nat.eqb_spec x d) as [->|Y]; [rewrite Od; reflexivity|]. destruct (Nat.eq_dec x t) as [->|X]; [rewrite Ot; reflexivity|]. rewrite Ox; auto. }
  assert (KP : forall x, kp (h_objs s' ) x = match kp (h_objs s) x with Some c => Some (if Nat.eqb c t then d else c) | None => None end).
  { intros x. unfold kp, keeper. cbn [h_objs]. rewrite SK, SHo, !SO. destruct (o_kind (h_objs s x)) eqn:KX; auto.
    - destruct (Nat.eqb_spec x t); [congruence|reflexivity].
    - destruct (Nat.eqb_spec x t); [congruence|reflexivity].
    - destruct (Nat.eqb_spec x t); [congruence|]. destruct (inv_node s IV x (or_introl KX)) as (e & OE & DE). rewrite OE.
      destruct (Nat.eqb_spec e t); [congruence|reflexivity].
    - destruct (Nat.eqb_spec x t) as [->|X]; [rewrite O, Nat.eqb_refl; reflexivity|]. destruct (o_owner (h_objs s x)) as [e|] eqn:OE.
      + pose proof (inv_type s IV x e KX OE). destruct (Nat.eqb_spec e t); [congruence|reflexivity].
      + destruct (Nat.eqb_spec x t); [congruence|reflexivity].
    - pose proof (inv_map s IV x KX) as HX. destruct (Nat.eqb_spec (o_host (h_objs s x)) t) as [E|X].
      + rewrite E, O, Nat.eqb_refl. reflexivity.
      + destruct (o_owner (h_objs s (o_host (h_objs s x)))) as [e|] eqn:OE.
        * pose proof (inv_type s IV _ e HX OE). destruct (Nat.eqb_spec e t); [congruence|reflexivity].
        * destruct (Nat.eqb_spec (o_host (h_objs s x)) t); [congruence|reflexivity].
    - destruct (Nat.eqb_spec x t); [congruence|reflexivity]. }
  assert (CTR : forall x, (o_kind (h_objs s x) = OTypeMap -> o_owner (h_objs s (o_host (h_objs s x))) <> None) ->
     ctr (h_objs s') x = map (fun c => if Nat.eqb c t then d else c) (ctr (h_objs s) x)).
  { intros x TM. unfold ctr. rewrite SK, SHo, !SO. destruct (o_kind (h_objs s x)) eqn:KX; auto.
    - cbn [map]. destruct (Nat.eqb_spec x t); [congruence|reflexivity].
    - cbn [map]. destruct (Nat.eqb_spec x t); [congruence|reflexivity].
    - destruct (Nat.eqb_spec x t); [congruence|]. destruct (inv_node s IV x (or_introl KX)) as (e & OE & DE). rewrite OE. cbn [map].
      destruct (Nat.eqb_spec e t); [congruence|reflexivity].
    - destruct (Nat.eqb_spec x t) as [->|X]; [rewrite O; cbn [map]; rewrite Nat.eqb_refl; reflexivity|]. destruct (o_owner (h_objs s x)) as [e|] eqn:OE; cbn [map].
      + pose proof (inv_type s IV x e KX OE). destruct (Nat.eqb_spec e t); [congruence|reflexivity].
      + destruct (Nat.eqb_spec x t); [congruence|reflexivity].
    - specialize (TM eq_refl). pose proof (inv_map s IV x KX) as HX. destruct (Nat.eqb_spec (o_host (h_objs s x)) t) as [E|X].
      + rewrite E, O in TM. congruence.
      + destruct (o_owner (h_objs s (o_host (h_objs s x)))) as [e|] eqn:OE; [|reflexivity]. cbn [map].
        pose proof (inv_type s IV _ e HX OE). destruct (Nat.eqb_spec e t); [congruence|reflexivity].
    - destruct (Nat.eqb_spec x t); [congruence|]. destruct (inv_node s IV x (or_intror KX)) as (e & OE & DE). rewrite OE. cbn [map].
      destruct (Nat.eqb_spec e t); [congruence|]. destruct (Nat.eqb_spec x t); [congruence|reflexivity]. }
  assert (OCC : forall l c, occ (map (fun c => if Nat.eqb c t then d else c) l) c =
     if Nat.eqb c t then 0%nat else if Nat.eqb c d then (occ l d + occ l t)%nat else occ l c).
  { intros l c. induction l as [|a l IH]; [cbn; destruct (Nat.eqb c t), (Nat.eqb c d); reflexivity|]. cbn [map]. rewrite !occ_cons, IH.
    clear - N. destruct (Nat.eqb_spec a t); repeat match goal with |- context[Nat.eqb ?x ?y] => destruct (Nat.eqb_spec x y) end; subst; try congruence; lia. }
  assert (T : forall c, tally (h_objs s') (h_vars s') c = if Nat.eqb c t then 0%nat else
     if Nat.eqb c d then (tally (h_objs s) (h_vars s) d + tally (h_objs s) (h_vars s) t)%nat else tally (h_objs s) (h_vars s) c).
  { intros c. rewrite V. pose proof (inv_maps s IV) as IM. revert IM. generalize (h_vars s) as vars. induction vars as [|[w x] r IH]; intros IM.
    - cbn. destruct (Nat.eqb c t), (Nat.eqb c d); reflexivity.
    - cbn [tally]. rewrite IH by (intros a b M; apply (IM a b); right; exact M). destruct x as [x|]; cbn [adds].
      + rewrite CTR by (apply (IM w x); left; reflexivity). rewrite OCC. destruct (Nat.eqb c t), (Nat.eqb c d); lia.
      + destruct (Nat.eqb c t), (Nat.eqb c d); lia. }
  split.
  - intros x X. rewrite SK in X. destruct (inv_node s IV x X) as (e & OE & DE). exists e. rewrite SO, SK. split; [|exact DE].
    destruct (Nat.eqb_spec x t) as [->|]; [destruct X; congruence|exact OE].
  - intros x e X Y. rewrite SK in *. rewrite SO in Y. destruct (Nat.eqb_spec x t) as [->|]; [congruence|apply (inv_type s IV x e X Y)].
  - intros x X. rewrite SK in *. rewrite SHo. apply (inv_map s IV x X).
  - rewrite V. apply inv_names, IV.
  - intros c X. rewrite T. unfold counter in X. rewrite SK, SO in X. destruct (Nat.eqb_spec c t) as [E|NT]; [rewrite E, K in X; discriminate|].
    destruct (Nat.eqb_spec c d) as [E|ND]; [subst c|].
    + rewrite Od. cbn [o_count]. rewrite (inv_count s IV d CD), (inv_count s IV t CT). lia.
    + rewrite Ox by auto. apply (inv_count s IV). exact X.
  - intros x c X. rewrite KP in X. destruct (kp (h_objs s) x) as [k|] eqn:KX; [|discriminate]. injection X as <-.
    rewrite SA, (inv_alive s IV x k KX), SU, T.
    rewrite (inv_alive s IV t t (kp_counter s t CT)) in AT. rewrite (inv_alive s IV d d (kp_counter s d CD)) in AD.
    destruct (Nat.eqb_spec k t) as [E|KT]; [subst k|].
    + rewrite Nat.eqb_refl. destruct (Nat.eqb_spec d t); [congruence|]. rewrite AT.
      destruct (o_used (h_objs s t)), (o_used (h_objs s d)), (Nat.eqb_spec (tally (h_objs s) (h_vars s) t) 0), (Nat.eqb_spec (tally (h_objs s) (h_vars s) d) 0),
        (Nat.eqb_spec (tally (h_objs s) (h_vars s) d + tally (h_objs s) (h_vars s) t) 0); cbn in *; try reflexivity; try discriminate; lia.
    + destruct (Nat.eqb_spec k t); [congruence|]. destruct (Nat.eqb_spec k d) as [E|KD]; [subst k|reflexivity]. rewrite AD.
      destruct (o_used (h_objs s t)), (o_used (h_objs s d)), (Nat.eqb_spec (tally (h_objs s) (h_vars s) t) 0), (Nat.eqb_spec (tally (h_objs s) (h_vars s) d) 0),
        (Nat.eqb_spec (tally (h_objs s) (h_vars s) d + tally (h_objs s) (h_vars s) t) 0); cbn in *; try reflexivity; try discriminate; lia.
  - intros x X. rewrite SK in X. rewrite SA. apply (inv_static s IV x X).
  - intros c X. rewrite T in X. rewrite SU. destruct (Nat.eqb_spec c t) as [E|NT]; [lia|]. destruct (Nat.eqb_spec c d) as [E|ND]; [subst c|].
    + destruct (Nat.eq_dec (tally (h_objs s) (h_vars s) d) 0) as [Z|Z].
      * rewrite (inv_used s IV t) by lia. apply orb_true_r.
      * rewrite (inv_used s IV d) by lia. reflexivity.
    + apply (inv_used s IV c X).
  - intros w x X Y. rewrite SK in Y. rewrite SHo, SO. rewrite V in X. destruct (Nat.eqb (o_host (h_objs s x)) t); [discriminate|apply (inv_maps s IV w x X Y)].
Qed.

Lemma step_inv : forall s o, Inv s -> hop_ok s o -> exists s', hstep s o = Fine s' /\ Inv s'.
Proof.
  intros s o IV OK. destruct o as [v i|v|v u|v u|v|t d].
  - destruct OK as (D & A & B & C). pose proof (declare_inv s v IV D) as I1. cbn [hstep].
    assert (VI : In (v, None) (h_vars (declare s v))) by (cbn; auto).
    destruct (set_impl_inv (declare s v) I1 v (Some i)) as (s' & E & I2 & _); [apply (declared_in _ _ _ VI)| | |eauto].
    + intros j E _. injection E as <-. split; [exact A|]. split; [|exact C]. intros c M. cbn in M. unfold ctr in M. unfold alive. cbn [declare h_objs].
      change (o_alive (h_objs s c)) with (alive s c). destruct (o_kind (h_objs s i)) eqn:K.
      * destruct M as [<-|[]]; exact A.
      * destruct M as [<-|[]]; exact A.
      * destruct (o_owner (h_objs s i)) as [d|] eqn:O; [|destruct M]. destruct M as [<-|[]]; auto.
      * destruct (o_owner (h_objs s i)) as [d|] eqn:O; destruct M as [<-|[]]; auto.
      * destruct (o_owner (h_objs s (o_host (h_objs s i)))) as [d|] eqn:O; [|destruct M]. destruct M as [<-|[]].
        assert (KD : kp (h_objs s) i = Some d) by (unfold kp, keeper; cbn [h_objs]; rewrite K, O; reflexivity).
        pose proof (inv_type s IV _ d (inv_map s IV i K) O) as DD.
        rewrite (inv_alive s IV d d (kp_counter s d (doc_counter s d DD))), <- (inv_alive s IV i d KD). exact A.
      * destruct (o_owner (h_objs s i)) as [d|] eqn:O; [destruct M as [<-|[<-|[]]]|destruct M as [<-|[]]]; auto.
      * destruct M.
    + intros j E X. exfalso. apply X. apply (in_var (declare s v) v None); [apply inv_names, I1|exact VI].
  - exists (declare s v). split; [reflexivity|]. apply declare_inv; auto.
  - destruct OK as (D & DU). pose proof (declare_inv s v IV D) as I1. cbn [hstep].
    assert (VI : In (v, None) (h_vars (declare s v))) by (cbn; auto).
    destruct (set_impl_inv (declare s v) I1 v (var s u)) as (s' & E & I2 & _); [apply (declared_in _ _ _ VI)| | |eauto].
    + intros i E _. pose proof (var_in s u DU) as VU. rewrite E in VU. split; [apply (var_alive s IV u i VU)|]. split; [|apply (inv_maps s IV u i VU)].
      intros c M. apply (ctr_alive s IV u i c VU M).
    + intros j E X. exfalso. apply X. apply (in_var (declare s v) v None); [apply inv_names, I1|exact VI].
  - destruct OK as (D & DU & N). cbn [hstep]. pose proof (var_in s u DU) as VU.
    destruct (set_impl_inv s IV v (var s u) D) as (s' & E & I2 & _); [| |eauto].
    + intros i E _. rewrite E in VU. split; [apply (var_alive s IV u i VU)|]. split; [|apply (inv_maps s IV u i VU)].
      intros c M. apply (ctr_alive s IV u i c VU M).
    + intros i E _. exists u. rewrite E in VU. auto.
  - cbn [hop_ok] in OK. cbn [hstep]. destruct (set_impl_inv s IV v None OK) as (s' & E & I2 & V); [discriminate|discriminate|].
    rewrite E. cbn [hbind]. eexists. split; [reflexivity|]. apply undeclare_inv; auto. intros t M. rewrite V in M. cbn in M.
    apply in_map_iff in M as (p & EQ & M). destruct p as [w x]. cbn [fst] in EQ. destruct (Nat.eqb_spec w v); injection EQ; intros; congruence.
  - destruct (adopt_inv s t d IV OK) as (s' & E & I1 & _). eauto.
Qed.

Lemma fresh_inv : forall kinds docs hosts, sound_objs kinds docs hosts -> Inv (fresh_objs kinds docs hosts).
Proof.
  intros kinds docs hosts (S1 & S2). split; cbn.
  - intros i K. exists (docs i). split; [|apply S1; exact K]. destruct K as [-> | ->]; reflexivity.
  - intros i d K. rewrite K. discriminate.
  - intros i K. apply S2. exact K.
  - constructor.
  - reflexivity.
  - reflexivity.
  - reflexivity.
  - intros c H. lia.
  - tauto.
Qed.
Lemma holds_ctr : forall s i c, In c (ctr (h_objs s) i) -> holds s i c.
Proof.
  intros s i c M. unfold holds, keeper. unfold ctr in M. destruct (o_kind (h_objs s i)) eqn:K.
  - destruct M as [<-|[]]; auto.
  - destruct M as [<-|[]]; auto.
  - destruct (o_owner (h_objs s i)); [|destruct M]. destruct M as [<-|[]]; auto.
  - destruct (o_owner (h_objs s i)); destruct M as [<-|[]]; auto.
  - destruct (o_owner (h_objs s (o_host (h_objs s i)))); [|destruct M]. destruct M as [<-|[]]; auto.
  - destruct (o_owner (h_objs s i)); [destruct M as [<-|[<-|[]]]; auto|destruct M as [<-|[]]; auto].
  - destruct M.
Qed.
Lemma ctr_holds : forall s, Inv s -> forall v i c, In (v, Some i) (h_vars s) -> holds s i c -> In c (ctr (h_objs s) i).
Proof.
  intros s IV v i c M [H|[K O]].
  - pose proof (kp_ctr s IV i (inv_maps s IV v i M)) as KC. change (kp (h_objs s) i) with (keeper s i) in KC. rewrite H in KC. exact KC.
  - unfold ctr. rewrite K, O. cbn. auto.
Qed.
Lemma tally_held : forall s, Inv s -> forall c, (0 < tally (h_objs s) (h_vars s) c)%nat <-> held s c.
Proof.
  intros s IV c. split.
  - intros P. assert (G : forall vars, (0 < tally (h_objs s) vars c)%nat -> exists v i, In (v, Some i) vars /\ In c (ctr (h_objs s) i)).
    { induction vars as [|[v t] r IH]; cbn [tally]; intros H; [lia|]. destruct t as [i|]; cbn [adds] in H.
      - destruct (occ_zero (ctr (h_objs s) i) c) as [Z|IN]; [|exists v, i; cbn; auto]. rewrite Z in H. destruct (IH H) as (w & j & A & B). exists w, j. cbn. auto.
      - destruct (IH H) as (w & j & A & B). exists w, j. cbn. auto. }
    destruct (G _ P) as (v & i & A & B). exists v, i. split; [exact A|apply holds_ctr, B].
  - intros (v & i & M & H). pose proof (tally_in (h_objs s) (h_vars s) v i c M). pose proof (occ_pos _ _ (ctr_holds s IV v i c M H)). lia.
Qed.
Lemma inv_ok : forall s, Inv s -> handles_ok s.
Proof.
  intros s IV. split; [apply var_alive, IV|]. intros i c K. rewrite (inv_alive s IV i c K).
  rewrite negb_false_iff, andb_true_iff, Nat.eqb_eq, <- (tally_held s IV c). split; intros [A B]; (split; [exact A|lia]).
Qed.
Lemma run_inv : forall ops s, Inv s -> allowed s ops -> exists s', hrun s ops = Fine s' /\ Inv s'.
Proof.
  induction ops as [|o ops IH]; intros s IV AL; [exists s; auto|]. destruct AL as (OK & AL). destruct (step_inv s o IV OK) as (s1 & E & I1).
  cbn [hrun]. rewrite E. cbn [hbind]. apply IH; auto.
Qed.
Lemma handles_lemma : forall kinds docs hosts, sound_objs kinds docs hosts -> forall ops, allowed (fresh_objs kinds docs hosts) ops ->
  exists s, hrun (fresh_objs kinds docs hosts) ops = Fine s /\ handles_ok s.
Proof.
  intros kinds docs hosts S ops AL. destruct (run_inv ops _ (fresh_inv _ _ _ S) AL) as (s & E & IV). exists s. split; [exact E|apply inv_ok, IV].
Qed.

(** Assigning a handle to itself. *)
Lemma self_lemma : forall s, Inv s -> forall v i c, In (v, Some i) (h_vars s) -> holds s i c -> keeper s i = Some c ->
  (forall u j, In (u, Some j) (h_vars s) -> holds s j c -> u = v) -> hstep s (HAssign v v) = Dangling.
Proof.
  intros s IV v i c M H K ONLY. pose proof (in_var s v _ (inv_names s IV) M) as VV. cbn [hstep]. unfold set_impl. rewrite VV.
  destruct (drop_inv s IV v i M) as (s1 & E1 & I1 & V1). rewrite E1. cbn [hbind].
  assert (NH : ~ held (put_var s1 v None) c).
  { destruct (release_lowered s IV v i M) as (s1' & E1' & SH & _). rewrite E1 in E1'. injection E1' as <-.
    intros (u & j & A & B). cbn in A. rewrite V1 in A. apply in_map_iff in A as ([w x] & EQ & A). cbn [fst] in EQ.
    destruct (Nat.eqb_spec w v) as [->|N]; [discriminate|]. injection EQ as -> ->. apply N, (ONLY u j A).
    apply holds_ctr. rewrite <- (shape_ctr _ _ _ SH). apply (ctr_holds _ I1 u j c); [|exact B]. cbn. rewrite V1. apply in_map_iff. exists (u, Some j).
    cbn [fst]. destruct (Nat.eqb_spec u v); [congruence|auto]. }
  destruct (release_lowered s IV v i M) as (s1' & E1' & SH & _ & U & _). rewrite E1 in E1'. injection E1' as <-.
  assert (K1 : keeper (put_var s1 v None) i = Some c).
  { change (kp (h_objs s1) i = Some c). rewrite (shape_kp _ _ _ SH). exact K. }
  assert (DEAD : alive (put_var s1 v None) i = false).
  { apply (proj2 (inv_ok _ I1) i c K1). split; [|exact NH]. cbn. rewrite U. apply (inv_used s IV), (tally_held s IV). exists v, i. auto. }
  unfold add_ref. change (alive (put_var (put_var s1 v None) v (Some i)) i) with (alive (put_var s1 v None) i). rewrite DEAD. reflexivity.
Qed.
Lemma self_reached : forall kinds docs hosts, sound_objs kinds docs hosts -> forall ops s, allowed (fresh_objs kinds docs hosts) ops ->
  hrun (fresh_objs kinds docs hosts) ops = Fine s ->
  forall v i c, In (v, Some i) (h_vars s) -> keeper s i = Some c ->
  (forall u j, In (u, Some j) (h_vars s) -> holds s j c -> u = v) -> hstep s (HAssign v v) = Dangling.
Proof.
  intros kinds docs hosts S ops s AL R v i c M K ONLY. destruct (run_inv ops _ (fresh_inv _ _ _ S) AL) as (s' & E & IV). rewrite R in E. injection E as <-.
  apply (self_lemma s IV v i c M); auto. left. exact K.
Qed.
