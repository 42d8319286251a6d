From Verif.Model Require Import Base Chars Dom Clone.
From Verif.Model Require AttrMap.
From Verif.Spec Require Import AttrMapSpec CloneSpec.
From Verif.Proof Require Import Tac ContainersProof DomProof.
From Verif.Proof Require SaxToDomProof.
From Verif.Model Require Import Clone.
From Verif.Spec Require Import CloneSpec.

(** * Trees *)
Lemma tree_ind2 : forall (P : tree -> Prop),
  (forall k nm sp atts kids, Forall P atts -> Forall P kids -> P (Tree k nm sp atts kids)) -> forall t, P t.
Proof.
  intros P H. fix go 1. intros [k nm sp atts kids]. apply H.
  - induction atts as [|a r IH]; constructor; [apply go|exact IH].
  - induction kids as [|a r IH]; constructor; [apply go|exact IH].
Qed.
Lemma every_Forall : forall P l, every P l <-> Forall P l.
Proof.
  intros P l. induction l as [|a r IH]; cbn.
  - split; auto.
  - rewrite IH. split; [intros [A B]; constructor; auto|intros F; inversion F; auto].
Qed.
Definition naming_of (x : node) : naming := Naming (n_name x) (n_data x) (n_uri x) (n_local x).
Definition inside (s : store) (i : nat) (P : tree -> nat -> Prop) (t : tree) (a : nat) : Prop := P t a /\ s_host s a = Some i.
Definition under (s : store) (i : nat) (P : tree -> nat -> Prop) (t : tree) (a : nat) : Prop := P t a /\ n_parent (s_heap s a) = Some i.
Lemma shows_eq : forall lo s d m k nm sp atts kids i,
  shows lo s d m (Tree k nm sp atts kids) i <->
  (lo <= i < s_next s)%nat /\ n_kind (s_heap s i) = k /\ naming_of (s_heap s i) = nm /\ n_owner (s_heap s i) = Some d /\
  s_spec s i = sp /\ flag_fits m k (n_ro (s_heap s i)) /\
  Forall2 (inside s i (shows lo s d (below m k))) atts (s_atts s i) /\
  Forall2 (under s i (shows lo s d (below m k))) kids (n_kids (s_heap s i)).
Proof.
  intros lo s d m k nm sp atts kids i. cbn [shows]. fold (naming_of (s_heap s i)).
  assert (A : forall ts l, (fix all (ts : list tree) (l : list nat) : Prop :=
         match ts, l with
         | [], [] => True
         | t :: ts, a :: l => (shows lo s d (below m k) t a /\ s_host s a = Some i) /\ all ts l
         | _, _ => False
         end) ts l <-> Forall2 (inside s i (shows lo s d (below m k))) ts l).
  { induction ts as [|t ts IH]; intros [|a l]; split; intros H; try (inversion H; fail); try contradiction; auto.
    - destruct H as [H1 H2]. constructor; [exact H1|apply IH; exact H2].
    - inversion H; subst. split; [assumption|apply IH; assumption]. }
  assert (B : forall ts l, (fix all (ts : list tree) (l : list nat) : Prop :=
         match ts, l with
         | [], [] => True
         | t :: ts, c :: l => (shows lo s d (below m k) t c /\ n_parent (s_heap s c) = Some i) /\ all ts l
         | _, _ => False
         end) ts l <-> Forall2 (under s i (shows lo s d (below m k))) ts l).
  { induction ts as [|t ts IH]; intros [|a l]; split; intros H; try (inversion H; fail); try contradiction; auto.
    - destruct H as [H1 H2]. constructor; [exact H1|apply IH; exact H2].
    - inversion H; subst. split; [assumption|apply IH; assumption]. }
  rewrite A, B. reflexivity.
Qed.
Lemma f2_impl_in : forall {A B} (P Q : A -> B -> Prop) l l', Forall (fun a => forall b, P a b -> Q a b) l -> Forall2 P l l' -> Forall2 Q l l'.
Proof. intros A B P Q l l' F H. induction H; constructor; inversion F; subst; auto. Qed.
Lemma f2_impl : forall {A B} (P Q : A -> B -> Prop) l l', (forall a b, P a b -> Q a b) -> Forall2 P l l' -> Forall2 Q l l'.
Proof. intros A B P Q l l' F H. induction H; constructor; auto. Qed.

(** * What leaves a tree as it is *)
Definition core (s : store) (j : nat) :=
  (n_kind (s_heap s j), naming_of (s_heap s j), n_owner (s_heap s j), n_kids (s_heap s j), s_atts s j, s_spec s j).
Record keeps (s s' : store) (j : nat) : Prop := {
  k_core : core s' j = core s j;
  k_parent : forall p, n_parent (s_heap s j) = Some p -> n_parent (s_heap s' j) = Some p;
  k_host : forall p, s_host s j = Some p -> s_host s' j = Some p }.
Lemma shows_frame : forall t lo lo' s s' d m i, (lo' <= lo)%nat -> (s_next s <= s_next s')%nat ->
  (forall j, (lo <= j < s_next s)%nat -> keeps s s' j /\ (m = None \/ n_ro (s_heap s' j) = n_ro (s_heap s j))) ->
  shows lo s d m t i -> shows lo' s' d m t i.
Proof.
  induction t as [k nm sp atts kids FA FK] using tree_ind2. intros lo lo' s s' d m i L N K H.
  apply shows_eq in H. apply shows_eq. destruct H as (R & HK & HN & HO & HS & HF & HA & HC).
  destruct (K i R) as [[KC KP KH] KR]. unfold core in KC. injection KC as C1 N1 N2 N3 N4 C3 C4 C5 C6.
  assert (C2' : naming_of (s_heap s' i) = naming_of (s_heap s i)) by (unfold naming_of; congruence).
  rewrite C1, C2', C3, C4, C5, C6. split; [lia|]. split; [exact HK|]. split; [exact HN|]. split; [exact HO|]. split; [exact HS|].
  split. { destruct KR as [->|KR]; [exact Logic.I|]. rewrite KR. exact HF. }
  assert (K' : forall j, (lo <= j < s_next s)%nat -> keeps s s' j /\ (below m k = None \/ n_ro (s_heap s' j) = n_ro (s_heap s j))).
  { intros j J. destruct (K j J) as [A [->|B]]; (split; [exact A|]); auto. }
  assert (RG : forall m' t c, shows lo s d m' t c -> (lo <= c < s_next s)%nat).
  { intros m' [? ? ? ? ?] c S. apply shows_eq in S. apply S. }
  split.
  - eapply f2_impl_in; [|exact HA]. eapply Forall_impl; [|exact FA]. intros t IH a [S1 S2]. split; [eapply IH; eauto|].
    destruct (K a (RG _ _ _ S1)) as [[_ _ KH'] _]. apply KH'. exact S2.
  - eapply f2_impl_in; [|exact HC]. eapply Forall_impl; [|exact FK]. intros t IH a [S1 S2]. split; [eapply IH; eauto|].
    destruct (K a (RG _ _ _ S1)) as [[_ KP' _] _]. apply KP'. exact S2.
Qed.
Lemma shows_range : forall lo s d m t i, shows lo s d m t i -> (lo <= i < s_next s)%nat.
Proof. intros lo s d m [? ? ? ? ?] i H. apply shows_eq in H. apply H. Qed.
Lemma shows_kind : forall lo s d m t i, shows lo s d m t i -> n_kind (s_heap s i) = kind t.
Proof. intros lo s d m [? ? ? ? ?] i H. apply shows_eq in H. apply H. Qed.
Lemma shows_naming : forall lo s d m t i, shows lo s d m t i -> naming_of (s_heap s i) = naming_ t.
Proof. intros lo s d m [? ? ? ? ?] i H. apply shows_eq in H. apply H. Qed.
Lemma shows_owner : forall lo s d m t i, shows lo s d m t i -> n_owner (s_heap s i) = Some d.
Proof. intros lo s d m [? ? ? ? ?] i H. apply shows_eq in H. apply H. Qed.
Lemma shows_spec : forall lo s d m t i, shows lo s d m t i -> s_spec s i = specified t.
Proof. intros lo s d m [? ? ? ? ?] i H. apply shows_eq in H. apply H. Qed.
Lemma shows_any : forall t lo s d m i, shows lo s d m t i -> shows lo s d None t i.
Proof.
  induction t as [k nm sp atts kids FA FK] using tree_ind2. intros lo s d m i H. apply shows_eq in H. apply shows_eq.
  destruct H as (R & HK & HN & HO & HS & HF & HA & HC). repeat (split; [assumption|]). split; [exact Logic.I|]. split.
  - eapply f2_impl_in; [|exact HA]. eapply Forall_impl; [|exact FA]. intros t IH a [S1 S2]. split; [eapply IH; eauto|exact S2].
  - eapply f2_impl_in; [|exact HC]. eapply Forall_impl; [|exact FK]. intros t IH a [S1 S2]. split; [eapply IH; eauto|exact S2].
Qed.
Lemma shows_low : forall t lo lo' s d m i, (lo' <= lo)%nat -> shows lo s d m t i -> shows lo' s d m t i.
Proof. intros t lo lo' s d m i L. apply shows_frame; [exact L|lia|]. intros j J. split; [constructor; auto|auto]. Qed.

(** * What was there before *)
Lemma same_refl : forall x, same_node x x. Proof. reflexivity. Qed.
Lemma same_fields : forall x y, same_node x y -> n_kind y = n_kind x /\ n_parent y = n_parent x /\ n_kids y = n_kids x /\
  n_owner y = n_owner x /\ n_ro y = n_ro x /\ n_orphan y = n_orphan x /\ naming_of y = naming_of x /\ n_doctype y = n_doctype x /\ n_docel y = n_docel x.
Proof. unfold same_node, naming_of. intros [] [] E. cbn in E. injection E as -> -> -> -> -> -> -> -> -> -> -> -> -> ->. cbn. repeat split. Qed.
Lemma untouched_refl : forall s, untouched s s.
Proof. intros s. unfold untouched. repeat split; auto. Qed.
Lemma untouched_trans : forall a b c, untouched a b -> untouched b c -> untouched a c.
Proof.
  intros a b c (N1 & E1 & H1) (N2 & E2 & H2). split; [lia|]. split. { intros j J. destruct (E1 j J), (E2 j ltac:(lia)). split; congruence. } intros j J.
  destruct (H1 j J) as (A1 & A2 & A3 & A4). destruct (H2 j ltac:(lia)) as (B1 & B2 & B3 & B4). unfold same_node in *.
  repeat split; congruence.
Qed.
Lemma untouched_keeps : forall s s' j, untouched s s' -> (j < s_next s)%nat -> keeps s s' j /\ n_ro (s_heap s' j) = n_ro (s_heap s j).
Proof.
  intros s s' j (_ & _ & H) J. destruct (H j J) as (A & B & C & D). apply same_fields in A. destruct A as (A1 & A2 & A3 & A4 & A5 & A6 & A7 & _).
  split; [|exact A5]. constructor; [unfold core; rewrite A1, A3, A4, A7, B, D; reflexivity| |]; congruence.
Qed.
Lemma untouched_shows : forall s s' lo d m t i, untouched s s' -> shows lo s d m t i -> shows lo s' d m t i.
Proof.
  intros s s' lo d m t i U. apply shows_frame; [lia|apply U|]. intros j J. destruct (untouched_keeps s s' j U ltac:(lia)). auto.
Qed.
Lemma untouched_defines : forall s s' d defn, untouched s s' -> defines s d defn -> defines s' d defn.
Proof.
  intros s s' d defn U (L0 & D & E). pose proof U as (N & UE & H). destruct (UE d L0) as [UE1 UD]. split; [lia|]. split; [intros name; rewrite UD; apply D|]. intros name. rewrite UE1. specialize (E name).
  destruct (s_ents s d name) as [e|]; [|exact E]. destruct (defn name) as [ts|]; [|exact E]. destruct E as (L & (d' & F) & G1 & G2). split; [lia|]. split; [|auto].
  exists d'. destruct (H e L) as (S & _). apply same_fields in S. destruct S as (_ & _ & -> & _). eapply f2_impl; [|exact F]. intros t c. apply untouched_shows. exact U.
Qed.

(** * Appending *)
Definition tail_of := SaxToDomProof.tail_of.
Lemma vappend_exact : forall f h c n d, n_owner (h n) = Some d -> n_owner (h c) = Some d ->
  n_parent (h n) = None -> n_parent (h c) = None -> n <> c -> n_ro (h c) = false -> n_kind (h c) <> KDocument ->
  child_kind_ok (n_kind (h c)) (n_kind (h n)) = true -> vappend (S (S f)) h c n = Ok (tail_of h c n) n.
Proof.
  intros f h c n d ON OC PN PC NC RO KD CK. unfold vappend. cbn [vinsert].
  assert (CH : childless (n_kind (h c)) = false) by (destruct (n_kind (h c)); try discriminate; reflexivity).
  assert (HD : has_kind h c KDocument = false) by (unfold has_kind; destruct (n_kind (h c)); try reflexivity; contradiction).
  assert (KN : n_kind (h n) <> KFragment /\ n_kind (h n) <> KDocument /\ n_kind (h n) <> KDocType).
  { destruct (n_kind (h c)); try contradiction; destruct (n_kind (h n)); try discriminate; repeat split; discriminate. }
  destruct KN as (K1 & K2 & K3).
  assert (HF : has_kind h n KFragment = false) by (unfold has_kind; destruct (n_kind (h n)); try reflexivity; contradiction).
  assert (HN : has_kind h n KDocument = false) by (unfold has_kind; destruct (n_kind (h n)); try reflexivity; contradiction).
  rewrite CH, HD, RO, HF. unfold insert_node, check_can_add. rewrite ON, HN, OC, Nat.eqb_refl. cbn [negb climb].
  assert (E : Nat.eqb c n = false) by (apply Nat.eqb_neq; auto). rewrite E.
  assert (G : get_parent h c = None) by (unfold get_parent; rewrite PC; destruct (n_kind (h c)); reflexivity). rewrite G.
  rewrite RO, Bool.andb_false_r, CK. cbn [rbind]. unfold remove_if_required.
  assert (G' : get_parent h n = None) by (unfold get_parent; rewrite PN; destruct (n_kind (h n)); reflexivity). rewrite G'. cbn [rbind]. reflexivity.
Qed.
Lemma last_opt_in : forall (l : list nat) x, last_opt l = Some x -> In x l.
Proof. induction l as [|a [|b r] IH]; intros x E; cbn in E; [discriminate|injection E as ->; left; reflexivity|right; apply IH; exact E]. Qed.
Lemma same_upd : forall h j i f, (forall x, j = i -> same_node x (f x)) -> same_node (h j) (upd h i f j).
Proof. intros h j i f H. unfold upd. destruct (Nat.eqb_spec j i); [apply H; assumption|reflexivity]. Qed.
Lemma same_trans : forall x y z, same_node x y -> same_node y z -> same_node x z.
Proof. unfold same_node. congruence. Qed.
Lemma same_skip : forall h j i f, j <> i -> same_node (h j) (upd h i f j).
Proof. intros h j i f N. unfold upd. destruct (Nat.eqb_spec j i); [contradiction|reflexivity]. Qed.
Lemma tail_other : forall h c n j, j <> c -> j <> n -> ~ In j (n_kids (h c)) -> same_node (h j) (tail_of h c n j).
Proof.
  intros h c n j JC JN JK. unfold tail_of, SaxToDomProof.tail_of.
  set (h1 := match last_child h c with Some l => set_prev (set_next h l (Some n)) n (Some l) | None => h end).
  assert (S1 : same_node (h j) (h1 j)).
  { unfold h1. destruct (last_child h c) as [l|] eqn:L; [|reflexivity]. assert (JL : j <> l) by (intros ->; apply JK; apply last_opt_in; exact L).
    unfold set_prev, set_next. eapply same_trans; [|apply same_skip; exact JN]. apply same_skip. exact JL. }
  clearbody h1. eapply same_trans; [exact S1|]. set (h2 := set_kids h1 c _). assert (S2 : same_node (h1 j) (h2 j)) by (apply same_skip; exact JC).
  clearbody h2. eapply same_trans; [exact S2|]. set (h3 := set_parent h2 n (Some c)). assert (S3 : same_node (h2 j) (h3 j)).
  { unfold h3, set_parent. eapply same_trans; [|apply same_skip; exact JN]. destruct (n_owner (h2 n)); [|reflexivity]. destruct (n_parent (h2 n)); [reflexivity|]. apply same_skip. exact JN. }
  clearbody h3. eapply same_trans; [exact S3|]. unfold mark_changed. destruct (n_owner (h3 c)); [|reflexivity]. apply same_upd. intros x _. reflexivity.
Qed.
Lemma tail_orphan : forall h c n j, j <> n -> n_orphan (tail_of h c n j) = n_orphan (h j).
Proof.
  intros h c n j J. unfold tail_of, SaxToDomProof.tail_of. rewrite mark_orphan, set_parent_orphan. apply Nat.eqb_neq in J. rewrite J. cbn.
  rewrite set_kids_orphan. destruct (last_child h c); [rewrite set_prev_orphan, set_next_orphan|]; reflexivity.
Qed.
Lemma info_fields : forall a b, info a = info b -> n_kind a = n_kind b /\ naming_of a = naming_of b /\ n_owner a = n_owner b /\ n_ro a = n_ro b.
Proof. intros a b E. apply SaxToDomProof.info_look in E. destruct E as (L & O & _). unfold SaxToDomProof.look in L. unfold naming_of. injection L as -> -> -> -> -> ->. auto. Qed.

(** * A node while it is made *)
Record build (s0 s : store) (d i : nat) (k : nkind) (nm : naming) (ats ks : list tree) : Prop := {
  bu_old : untouched s0 s; bu_at : i = s_next s0; bu_lt : (i < s_next s)%nat;
  bu_kind : n_kind (s_heap s i) = k; bu_naming : naming_of (s_heap s i) = nm; bu_owner : n_owner (s_heap s i) = Some d;
  bu_spec : s_spec s i = true; bu_ro : n_ro (s_heap s i) = false; bu_parent : n_parent (s_heap s i) = None;
  bu_host : s_host s i = None; bu_orphan : n_orphan (s_heap s i) = true;
  bu_atts : Forall2 (inside s i (shows (S i) s d (Some false))) ats (s_atts s i);
  bu_kids : Forall2 (under s i (shows (S i) s d (Some false))) ks (n_kids (s_heap s i)) }.
Lemma build_alloc : forall s d k nm, k <> KDocument -> k <> KDocType -> build s (fst (alloc s k d nm)) d (s_next s) k nm [] [].
Proof.
  intros s d k nm K1 K2. set (i := s_next s).
  assert (N : new_node i k d nm = Node k None None None [] (Some d) false true None None 0 (nm_data nm) (nm_name nm) (nm_uri nm) (nm_local nm)) by (destruct k; try reflexivity; contradiction).
  assert (E : s_heap (fst (alloc s k d nm)) i = new_node i k d nm). { unfold alloc, upd. cbn. fold i. rewrite Nat.eqb_refl. reflexivity. }
  assert (EA : s_atts (fst (alloc s k d nm)) i = []). { unfold alloc. cbn. fold i. rewrite Nat.eqb_refl. reflexivity. }
  assert (EH : s_host (fst (alloc s k d nm)) i = None). { unfold alloc. cbn. fold i. rewrite Nat.eqb_refl. reflexivity. }
  assert (ES : s_spec (fst (alloc s k d nm)) i = true). { unfold alloc. cbn. fold i. rewrite Nat.eqb_refl. reflexivity. }
  assert (EN : s_next (fst (alloc s k d nm)) = S i) by reflexivity.
  assert (U : untouched s (fst (alloc s k d nm))).
  { unfold untouched, alloc. cbn. split; [lia|]. split; [intros j J; split; reflexivity|]. intros j J. fold i in J. assert (NE : Nat.eqb j (s_next s) = false) by (apply Nat.eqb_neq; fold i; lia). rewrite NE.
    unfold upd. rewrite NE. repeat split. }
  rewrite N in E. constructor; rewrite ?E, ?EA, ?EH, ?ES, ?EN; try exact U; try reflexivity; try (destruct nm; reflexivity); try lia; try constructor.
Qed.
Lemma build_later : forall s0 s s' d i k nm ats ks, untouched s s' -> build s0 s d i k nm ats ks -> build s0 s' d i k nm ats ks.
Proof.
  intros s0 s s' d i k nm ats ks U []. pose proof U as (N & _ & H). destruct (H i bu_lt0) as (A & B & C & D). apply same_fields in A.
  destruct A as (A1 & A2 & A3 & A4 & A5 & A6 & A7 & _). constructor; try congruence; try lia.
  - eapply untouched_trans; eauto.
  - rewrite B. eapply f2_impl; [|exact bu_atts0]. intros t a [S1 S2]. split; [eapply untouched_shows; eauto|]. apply shows_range in S1. destruct (H a ltac:(lia)) as (_ & _ & -> & _). exact S2.
  - rewrite A3. eapply f2_impl; [|exact bu_kids0]. intros t a [S1 S2]. split; [eapply untouched_shows; eauto|]. apply shows_range in S1. destruct (H a ltac:(lia)) as (E & _). apply same_fields in E.
    destruct E as (_ & -> & _). exact S2.
Qed.
Lemma f2_in : forall {A B} (P : A -> B -> Prop) l l' y, Forall2 P l l' -> In y l' -> exists x, In x l /\ P x y.
Proof. intros A B P l l' y F. induction F as [|a b l l' H F IH]; cbn; [tauto|]. intros [->|I]; [eauto|]. destruct (IH I) as (x & X & Y). eauto. Qed.
Lemma build_kid : forall f s0 s s1 d i k nm ats ks c t, build s0 s d i k nm ats ks -> made s s1 d c t ->
  k <> KDocument -> child_kind_ok k (kind t) = true ->
  exists s2, append (S (S f)) s1 i c = Done s2 tt /\ build s0 s2 d i k nm ats (ks ++ [t]) /\ untouched s0 s2.
Proof.
  intros f s0 s s1 d i k nm ats ks c t B M KD CK. assert (LT := bu_lt _ _ _ _ _ _ _ _ B). destruct M as [MU MS MP MH MO].
  apply (build_later _ _ _ _ _ _ _ _ _ MU) in B. destruct B.
  pose proof (shows_range _ _ _ _ _ _ MS) as RC. assert (NE : c <> i) by lia.
  unfold append. rewrite (vappend_exact f (s_heap s1) i c d); auto.
  2: { eapply shows_owner; eauto. } 2: { congruence. } 2: { rewrite bu_kind0, (shows_kind _ _ _ _ _ _ MS). exact CK. }
  set (h2 := tail_of (s_heap s1) i c). exists (put_heap h2 s1). split; [reflexivity|].
  destruct (SaxToDomProof.tail_spec (s_heap s1) i c) as (TK & TP & TI). fold (tail_of (s_heap s1) i c) in TK, TP, TI. fold h2 in TK, TP, TI.
  assert (TO : forall j, j <> c -> n_orphan (h2 j) = n_orphan (s_heap s1 j)) by (intros j; apply tail_orphan).
  assert (KG : forall x, In x (n_kids (s_heap s1 i)) -> (S i <= x < s_next s1)%nat).
  { intros x X. destruct (f2_in _ _ _ _ bu_kids0 X) as (t' & _ & S' & _). eapply shows_range; eauto. }
  assert (UN : untouched s0 (put_heap h2 s1)).
  { destruct bu_old0 as (U1 & U2 & U4). split; [cbn; lia|]. split; [exact U2|]. intros j J. destruct (U4 j J) as (V1 & V2 & V3 & V4).
    split; [|cbn; auto]. eapply same_trans; [exact V1|]. cbn. apply tail_other; try lia. intros X. apply KG in X. lia. }
  split; [|exact UN].
  destruct (info_fields _ _ (TI i)) as (I1 & I2 & I3 & I4).
  assert (KE : forall j, (S i <= j < s_next s1)%nat -> keeps s1 (put_heap h2 s1) j /\ (Some false = None \/ n_ro (s_heap (put_heap h2 s1) j) = n_ro (s_heap s1 j))).
  { intros j J. destruct (info_fields _ _ (TI j)) as (J1 & J2 & J3 & J4). cbn. split; [|right; exact J4]. constructor; cbn; auto.
    - unfold core. cbn. rewrite J1, J2, J3, TK. assert (E : Nat.eqb j i = false) by (apply Nat.eqb_neq; lia). rewrite E. reflexivity.
    - intros p P. rewrite TP. destruct (Nat.eqb_spec j c) as [->|]; [congruence|exact P]. }
  assert (SH : forall t' x, shows (S i) s1 d (Some false) t' x -> shows (S i) (put_heap h2 s1) d (Some false) t' x).
  { intros t' x. apply shows_frame; [lia|cbn; lia|exact KE]. }
  constructor; cbn [put_heap s_heap s_atts s_host s_spec s_next]; auto; try congruence.
  - rewrite TP. assert (E : Nat.eqb i c = false) by (apply Nat.eqb_neq; lia). rewrite E. exact bu_parent0.
  - rewrite TO by lia. exact bu_orphan0.
  - eapply f2_impl; [|exact bu_atts0]. intros t' a [S1 S2]. split; [apply SH; exact S1|exact S2].
  - rewrite TK, Nat.eqb_refl. apply Forall2_app.
    + eapply f2_impl; [|exact bu_kids0]. intros t' a [S1 S2]. split; [apply SH; exact S1|]. cbn. rewrite TP. destruct (Nat.eqb_spec a c) as [->|]; [reflexivity|exact S2].
    + constructor; [|constructor]. split; [|cbn; rewrite TP, Nat.eqb_refl; reflexivity]. apply SH. eapply shows_low; [|exact MS]. lia.
Qed.
Lemma build_att : forall s0 s s1 d i k nm ats ks a t p, build s0 s d i k nm ats ks -> made s s1 d a t ->
  (forall t' x, In t' ats -> naming_of x = naming_ t' -> p x = false) ->
  exists s2, set_attr s1 i a p = Done s2 tt /\ build s0 s2 d i k nm (ats ++ [t]) ks /\ untouched s s2 = untouched s s2.
Proof.
  intros s0 s s1 d i k nm ats ks a t p B M NC. assert (LT := bu_lt _ _ _ _ _ _ _ _ B). destruct M as [MU MS MP MH MO].
  apply (build_later _ _ _ _ _ _ _ _ _ MU) in B. destruct B.
  pose proof (shows_range _ _ _ _ _ _ MS) as RA. assert (NE : a <> i) by lia.
  unfold set_attr. rewrite bu_ro0, bu_owner0, (shows_owner _ _ _ _ _ _ MS). cbn [opt_eqb]. rewrite Nat.eqb_refl. cbn [negb].
  assert (FN : find (fun x => p (s_heap s1 x)) (s_atts s1 i) = None).
  { assert (AL : forall x, In x (s_atts s1 i) -> p (s_heap s1 x) = false).
    { intros x X. destruct (f2_in _ _ _ _ bu_atts0 X) as (t' & T' & S' & _). eapply NC; [exact T'|]. eapply shows_naming; eauto. }
    revert AL. generalize (s_atts s1 i). induction l as [|x r IH]; intros AL; [reflexivity|]. cbn. rewrite (AL x (or_introl eq_refl)). apply IH. intros y Y. apply AL. right. exact Y. }
  rewrite FN. set (s2 := put_atts i _ _). exists s2. split; [reflexivity|]. split; [|reflexivity].
  assert (HE : forall j, s_heap s2 j = if Nat.eqb j a then set_orphan_f false (s_heap s1 j) else s_heap s1 j) by (intros j; reflexivity).
  assert (AE : forall j, s_atts s2 j = if Nat.eqb j i then s_atts s1 i ++ [a] else s_atts s1 j) by (intros j; reflexivity).
  assert (OE : forall j, s_host s2 j = if Nat.eqb j a then Some i else s_host s1 j) by (intros j; reflexivity).
  assert (SE : forall j, s_spec s2 j = s_spec s1 j) by (intros j; reflexivity).
  assert (NX : s_next s2 = s_next s1) by reflexivity.
  assert (EE : s_ents s2 = s_ents s1) by reflexivity. assert (DE : s_defs s2 = s_defs s1) by reflexivity. clearbody s2.
  assert (CE : forall j, naming_of (s_heap s2 j) = naming_of (s_heap s1 j) /\ n_kind (s_heap s2 j) = n_kind (s_heap s1 j) /\ n_owner (s_heap s2 j) = n_owner (s_heap s1 j) /\
     n_kids (s_heap s2 j) = n_kids (s_heap s1 j) /\ n_ro (s_heap s2 j) = n_ro (s_heap s1 j) /\ n_parent (s_heap s2 j) = n_parent (s_heap s1 j)).
  { intros j. rewrite HE. destruct (Nat.eqb j a); repeat split. }
  assert (KE : forall j, (S i <= j < s_next s1)%nat -> keeps s1 s2 j /\ (Some false = None \/ n_ro (s_heap s2 j) = n_ro (s_heap s1 j))).
  { intros j J. destruct (CE j) as (J1 & J2 & J3 & J4 & J5 & J6). split; [|right; exact J5]. constructor.
    - unfold core. rewrite J1, J2, J3, J4, SE, AE. assert (E : Nat.eqb j i = false) by (apply Nat.eqb_neq; lia). rewrite E. reflexivity.
    - intros q Q. congruence.
    - intros q Q. rewrite OE. destruct (Nat.eqb_spec j a) as [->|]; congruence. }
  assert (SH : forall t' x, shows (S i) s1 d (Some false) t' x -> shows (S i) s2 d (Some false) t' x).
  { intros t' x. apply shows_frame; [lia|lia|exact KE]. }
  destruct (CE i) as (I1 & I2 & I3 & I4 & I5 & I6). assert (IA : Nat.eqb i a = false) by (apply Nat.eqb_neq; lia).
  constructor; try congruence; try lia.
  - destruct bu_old0 as (U1 & U2 & U4). split; [lia|]. split; [rewrite EE, DE; exact U2|]. intros j J. destruct (U4 j J) as (V1 & V2 & V3 & V4).
    rewrite HE, AE, OE, SE. assert (E1 : Nat.eqb j a = false) by (apply Nat.eqb_neq; lia). assert (E2 : Nat.eqb j i = false) by (apply Nat.eqb_neq; lia). rewrite E1, E2. auto.
  - rewrite OE, IA. exact bu_host0.
  - rewrite HE, IA. exact bu_orphan0.
  - rewrite AE, Nat.eqb_refl. apply Forall2_app.
    + eapply f2_impl; [|exact bu_atts0]. intros t' x [S1 S2]. split; [apply SH; exact S1|]. rewrite OE. destruct (Nat.eqb_spec x a) as [->|]; [reflexivity|exact S2].
    + constructor; [|constructor]. split; [|rewrite OE, Nat.eqb_refl; reflexivity]. apply SH. eapply shows_low; [|exact MS]. lia.
  - rewrite I4. eapply f2_impl; [|exact bu_kids0]. intros t' x [S1 S2]. split; [apply SH; exact S1|]. destruct (CE x) as (_ & _ & _ & _ & _ & ->). exact S2.
Qed.
Lemma build_end : forall s0 s d i k nm ats ks, build s0 s d i k nm ats ks -> is_ref k = false -> made s0 s d i (Tree k nm true ats ks).
Proof.
  intros s0 s d i k nm ats ks [] R. constructor; auto. apply shows_eq. assert (L : (s_next s0 <= S i)%nat) by lia.
  split; [lia|]. repeat (split; [assumption|]). split. { cbn. rewrite R. exact bu_ro0. }
  cbn [below]. rewrite R. cbn [orb]. split.
  - eapply f2_impl; [|exact bu_atts0]. intros t x [S1 S2]. split; [eapply shows_low; eauto|exact S2].
  - eapply f2_impl; [|exact bu_kids0]. intros t x [S1 S2]. split; [eapply shows_low; eauto|exact S2].
Qed.

(** * Making read-only *)
Definition deaf (s s' : store) (lo : nat) : Prop :=
  s_atts s' = s_atts s /\ s_host s' = s_host s /\ s_spec s' = s_spec s /\ s_next s' = s_next s /\ s_ents s' = s_ents s /\ s_defs s' = s_defs s /\
  forall j, s_heap s' j = s_heap s j \/ ((lo <= j)%nat /\ s_heap s' j = set_ro_f true (s_heap s j)).
Lemma deaf_refl : forall s lo, deaf s s lo. Proof. intros s lo. unfold deaf. repeat split; auto. Qed.
Lemma deaf_trans : forall a b c lo, deaf a b lo -> deaf b c lo -> deaf a c lo.
Proof.
  intros a b c lo (A1 & A2 & A3 & A4 & A5 & A6 & A7) (B1 & B2 & B3 & B4 & B5 & B6 & B7). unfold deaf. repeat (split; [congruence|]). intros j.
  destruct (A7 j) as [E|[L E]], (B7 j) as [E'|[L' E']]; rewrite E', E; auto.
Qed.
Lemma deaf_keeps : forall s s' lo j, deaf s s' lo -> keeps s s' j.
Proof.
  intros s s' lo j (A1 & A2 & A3 & A4 & A5 & A6 & A7). destruct (A7 j) as [E|[_ E]]; constructor; unfold core; rewrite ?A1, ?A2, ?A3, ?E; auto.
Qed.
Lemma deaf_any : forall s s' lo lo' d t i, deaf s s' lo -> shows lo' s d None t i -> shows lo' s' d None t i.
Proof. intros s s' lo lo' d t i D. apply shows_frame; [lia|destruct D as (_ & _ & _ & -> & _); lia|]. intros j _. split; [eapply deaf_keeps; eauto|auto]. Qed.
Lemma deaf_hard : forall t s s' lo lo' d i, deaf s s' lo -> shows lo' s d (Some true) t i -> shows lo' s' d (Some true) t i.
Proof.
  induction t as [k nm sp atts kids FA FK] using tree_ind2. intros s s' lo lo' d i D H. pose proof (deaf_keeps _ _ _ i D) as [KC KP KH].
  apply shows_eq in H. apply shows_eq. destruct H as (R & HK & HN & HO & HS & HF & HA & HC). unfold core in KC. injection KC as C1 N1 N2 N3 N4 C3 C4 C5 C6.
  assert (C2' : naming_of (s_heap s' i) = naming_of (s_heap s i)) by (unfold naming_of; congruence).
  assert (NX : s_next s' = s_next s) by apply D. rewrite C1, C2', C3, C4, C5, C6, NX. repeat (split; [assumption|]).
  split. { cbn in *. destruct D as (_ & _ & _ & _ & _ & _ & D). destruct (D i) as [->|[_ ->]]; [exact HF|reflexivity]. }
  split.
  - eapply f2_impl_in; [|exact HA]. eapply Forall_impl; [|exact FA]. intros t IH a [S1 S2]. split; [eapply IH; eauto|].
    destruct (deaf_keeps _ _ _ a D) as [_ _ H']. apply H'. exact S2.
  - eapply f2_impl_in; [|exact HC]. eapply Forall_impl; [|exact FK]. intros t IH a [S1 S2]. split; [eapply IH; eauto|].
    destruct (deaf_keeps _ _ _ a D) as [_ H' _]. apply H'. exact S2.
Qed.
Definition freeze_each (f : nat) : list nat -> store -> option store :=
  fix each (l : list nat) (s : store) : option store :=
    match l with
    | [] => Some s
    | c :: r => match freeze_all f s c with Some s' => each r s' | None => None end
    end.
Lemma freeze_eq : forall f s i, freeze_all (S f) s i =
  match freeze_each f (n_kids (s_heap s i)) (put_heap (set_read_only (s_heap s) i) s) with
  | Some s1 => freeze_each f (s_atts s i) s1
  | None => None
  end.
Proof. reflexivity. Qed.
Definition freezes (f0 : nat) (t : tree) : Prop := forall f s lo d i, (f0 <= f)%nat -> shows lo s d None t i ->
  exists s', freeze_all f s i = Some s' /\ deaf s s' lo /\ shows lo s' d (Some true) t i.
Lemma freeze_list : forall f0 ts, Forall (freezes f0) ts -> forall f s lo d l, (f0 <= f)%nat -> Forall2 (shows lo s d None) ts l ->
  exists s', freeze_each f l s = Some s' /\ deaf s s' lo /\ Forall2 (shows lo s' d (Some true)) ts l.
Proof.
  intros f0 ts F. induction F as [|t ts H F IH]; intros f s lo d l L H2; inversion H2; subst.
  - exists s. cbn. split; [reflexivity|]. split; [apply deaf_refl|constructor].
  - destruct (H f s lo d y L H3) as (s1 & E1 & D1 & S1). assert (G : Forall2 (shows lo s1 d None) ts l') by (eapply f2_impl; [|exact H5]; intros; eapply deaf_any; eauto).
    destruct (IH f s1 lo d l' L G) as (s2 & E2 & D2 & S2). exists s2. cbn [freeze_each]. rewrite E1. split; [exact E2|]. split; [eapply deaf_trans; eauto|]. constructor; [|exact S2].
    eapply deaf_hard; eauto.
Qed.
Lemma freezes_up : forall f0 f1 t, (f0 <= f1)%nat -> freezes f0 t -> freezes f1 t.
Proof. intros f0 f1 t L H f s lo d i L'. apply H. lia. Qed.
Lemma bound_all : forall (P : nat -> tree -> Prop) l, (forall a b t, (a <= b)%nat -> P a t -> P b t) -> Forall (fun t => exists f0, P f0 t) l -> exists f0, Forall (P f0) l.
Proof.
  intros P l UP F. induction F as [|t l (f1 & H) F (f2 & IH)]; [exists 0%nat; constructor|]. exists (Nat.max f1 f2). constructor; [eapply UP; [|exact H]; lia|].
  eapply Forall_impl; [|exact IH]. intros x. apply UP. lia.
Qed.
Lemma freeze_tree : forall t, exists f0, freezes f0 t.
Proof.
  induction t as [k nm sp atts kids FA FK] using tree_ind2. destruct (bound_all freezes atts freezes_up FA) as (fa & GA). destruct (bound_all freezes kids freezes_up FK) as (fk & GK).
  exists (S (Nat.max fa fk)). intros [|f] s lo d i L H; [lia|]. apply shows_eq in H. destruct H as (R & HK & HN & HO & HS & HF & HA & HC).
  rewrite freeze_eq. set (s1 := put_heap (set_read_only (s_heap s) i) s).
  assert (D1 : deaf s s1 lo). { unfold deaf, s1, set_read_only, upd. cbn. repeat (split; [reflexivity|]). intros j. destruct (Nat.eqb_spec j i) as [->|]; [right; split; [lia|reflexivity]|auto]. }
  assert (R1 : n_ro (s_heap s1 i) = true). { unfold s1, set_read_only, upd. cbn. rewrite Nat.eqb_refl. reflexivity. }
  assert (C1 : Forall2 (shows lo s1 d None) kids (n_kids (s_heap s i))). { eapply f2_impl; [|exact HC]. intros t c [S1 _]. eapply deaf_any; eauto. }
  destruct (freeze_list fk kids GK f s1 lo d _ ltac:(lia) C1) as (s2 & E2 & D2 & S2). rewrite E2.
  assert (C2 : Forall2 (shows lo s2 d None) atts (s_atts s i)). { eapply f2_impl; [|exact HA]. intros t c [S1 _]. eapply deaf_any; [exact D2|]. eapply deaf_any; eauto. }
  destruct (freeze_list fa atts GA f s2 lo d _ ltac:(lia) C2) as (s3 & E3 & D3 & S3). exists s3. split; [exact E3|].
  assert (D : deaf s s3 lo) by (eapply deaf_trans; [exact D1|]; eapply deaf_trans; eauto). split; [exact D|].
  apply shows_eq. destruct (deaf_keeps _ _ _ i D) as [KC _ _]. unfold core in KC. injection KC as X1 N1 N2 N3 N4 X3 X4 X5 X6.
  assert (X2 : naming_of (s_heap s3 i) = naming_of (s_heap s i)) by (unfold naming_of; congruence).
  assert (NX : s_next s3 = s_next s) by apply D. rewrite X1, X2, X3, X4, X5, X6, NX. repeat (split; [assumption|]). split.
  { cbn. assert (D' : deaf s1 s3 lo) by (eapply deaf_trans; eauto). destruct D' as (_ & _ & _ & _ & _ & _ & D'). destruct (D' i) as [->|[_ ->]]; [exact R1|reflexivity]. }
  cbn [below orb]. split.
  - assert (W : Forall2 (fun t a => s_host s a = Some i) atts (s_atts s i)) by (eapply f2_impl; [|exact HA]; intros t a [_ S']; exact S').
    clear -S3 W D. revert W. induction S3 as [|t y ts l A B IH]; intros W; inversion W; subst; constructor; auto. split; [assumption|]. destruct (deaf_keeps _ _ _ y D) as [_ _ K]. auto.
  - assert (W : Forall2 (fun t a => n_parent (s_heap s a) = Some i) kids (n_kids (s_heap s i))) by (eapply f2_impl; [|exact HC]; intros t a [_ S']; exact S').
    assert (S2' : Forall2 (shows lo s3 d (Some true)) kids (n_kids (s_heap s i))) by (eapply f2_impl; [|exact S2]; intros t a Q; exact (deaf_hard _ _ _ _ _ _ _ D3 Q)).
    clear -S2' W D. revert W. induction S2' as [|t y ts l A B IH]; intros W; inversion W; subst; constructor; auto. split; [assumption|]. destruct (deaf_keeps _ _ _ y D) as [_ K _]. auto.
Qed.

(** * Names *)
Lemma legal_checked : forall w name, legal w name -> checked w name = true.
Proof. intros [|] name L; [reflexivity|]. cbn. rewrite SaxToDomProof.check_name_ok. apply L. reflexivity. Qed.
Lemma level2_naming : forall x, level2 x = negb (is_empty (nm_local (naming_of x))). Proof. reflexivity. Qed.
Lemma plain_level : forall w x name, naming_of x = plain name -> is_ns w x = false.
Proof. intros w x name E. unfold naming_of, plain in E. injection E as _ _ U L. destruct w; unfold is_ns, level2; rewrite L; cbn; [reflexivity|]. rewrite U. reflexivity. Qed.
Lemma ns_level : forall w x, nm_local (naming_of x) <> [] -> is_ns w x = true.
Proof. intros w x N. cbn in N. destruct w; unfold is_ns, level2; destruct (n_local x); try contradiction; reflexivity. Qed.
Lemma ns_naming_ok : forall x, named false (naming_of x) -> nm_local (naming_of x) <> [] -> ns_naming (uri_of x) (n_name x) = Some (naming_of x).
Proof.
  intros x N L. destruct x as [? ? ? ? ? ? ? ? ? ? ? data name uri local]. unfold naming_of in *. unfold uri_of in *. cbn [n_name n_data n_uri n_local nm_name nm_data nm_uri nm_local] in *. unfold ns_naming.
  destruct N as [N|(D & _ & N)]; cbn [nm_name nm_data nm_uri nm_local] in *. { unfold plain in N. injection N as -> -> ->. contradiction. }
  subst data. destruct N as [(E & NC & U & _)|(p & u & E & NC & -> & U & X & _)].
  - subst name. rewrite SaxToDomProof.at_colon_none by exact NC. destruct uri as [[|c r]|]; [contradiction|reflexivity|reflexivity].
  - subst name. change (p ++ colon :: local) with (p ++ SaxTree.colon :: local). rewrite SaxToDomProof.at_colon_some by exact NC. rewrite SaxToDomProof.has_colon_false by exact NC.
    destruct (str_eqb p AttrMap.xml_prefix) eqn:P.
    + apply str_eqb_true in P. rewrite (X P). reflexivity.
    + destruct u; [contradiction|reflexivity].
Qed.
Lemma ns_attr_naming_ok : forall x, named true (naming_of x) -> nm_local (naming_of x) <> [] -> ns_attr_naming (uri_of x) (n_name x) = Some (naming_of x).
Proof.
  intros x N L. destruct x as [? ? ? ? ? ? ? ? ? ? ? data name uri local]. unfold naming_of in *. unfold uri_of in *. cbn [n_name n_data n_uri n_local nm_name nm_data nm_uri nm_local] in *. unfold ns_attr_naming, AttrMap.ns_attr.
  destruct N as [N|(D & _ & N)]; cbn [nm_name nm_data nm_uri nm_local] in *. { unfold plain in N. injection N as -> -> ->. contradiction. }
  subst data. destruct N as [(E & NC & U & X)|(p & u & E & NC & -> & U & X1 & X2)].
  - subst name. rewrite SaxToDomProof.at_colon_none by exact NC. destruct (str_eqb local AttrMap.xmlns_prefix) eqn:P.
    + apply str_eqb_true in P. rewrite (X eq_refl P). rewrite P. reflexivity.
    + unfold AttrMap.check_prefix. destruct uri as [[|c r]|]; [contradiction|reflexivity|reflexivity].
  - subst name. change (p ++ colon :: local) with (p ++ SaxTree.colon :: local). rewrite SaxToDomProof.at_colon_some by exact NC. unfold AttrMap.check_prefix. rewrite SaxToDomProof.has_colon_false by exact NC.
    destruct (str_eqb p AttrMap.xml_prefix) eqn:P.
    + apply str_eqb_true in P. rewrite (X1 P). reflexivity.
    + destruct (str_eqb p AttrMap.xmlns_prefix) eqn:P'.
      * apply str_eqb_true in P'. rewrite (X2 eq_refl P'). reflexivity.
      * destruct u; [contradiction|reflexivity].
Qed.
Lemma create_attribute_ok : forall w s d n, named true (naming_of (s_heap s n)) -> legal w (n_name (s_heap s n)) ->
  create_attribute w s d n = Done (fst (alloc s KAttr d (naming_of (s_heap s n)))) (s_next s).
Proof.
  intros w s d n N L. unfold create_attribute. rewrite (legal_checked _ _ L). destruct N as [N|N].
  - rewrite (plain_level w _ _ N). cbn [nm_name naming_of] in N. rewrite N. reflexivity.
  - destruct N as (D & LO & N). rewrite (ns_level w _ LO), ns_attr_naming_ok; [reflexivity| |exact LO]. right. auto.
Qed.
Lemma create_element_ok : forall f w s d n, named false (naming_of (s_heap s n)) -> legal w (n_name (s_heap s n)) -> (forall name, s_defs s d name = []) ->
  create_element f w s d n = Done (fst (alloc s KElement d (naming_of (s_heap s n)))) (s_next s).
Proof.
  intros f w s d n N L D. unfold create_element. rewrite (legal_checked _ _ L), D. destruct N as [N|N].
  - rewrite (plain_level w _ _ N). cbn [nm_name naming_of] in N. rewrite N. reflexivity.
  - destruct N as (D' & LO & N). rewrite (ns_level w _ LO), ns_naming_ok; [reflexivity| |exact LO]. right. auto.
Qed.
(** An attribute that no other has the name of takes the place of none. *)
Lemma no_clash1 : forall x y, n_name x <> n_name y -> name_is (n_name x) y = false.
Proof. intros x y N. unfold name_is. apply str_eqb_false. auto. Qed.
Lemma no_clash2 : forall x y, full (naming_of x) <> full (naming_of y) -> n_local x <> [] -> n_uri x <> Some [] -> n_uri y <> Some [] ->
  ns_name_is (uri_of x) (n_local x) y = false.
Proof.
  intros x y N L UX UY. destruct (ns_name_is (uri_of x) (n_local x) y) eqn:E; [|reflexivity]. exfalso. apply N. unfold ns_name_is in E. unfold full, naming_of. cbn [nm_uri nm_local nm_name].
  unfold uri_of in *. apply Bool.orb_true_iff in E. destruct E as [E|E].
  - apply Bool.andb_true_iff in E. destruct E as [E E3]. apply Bool.andb_true_iff in E. destruct E as [E1 E2].
    assert (X : n_uri x = None). { destruct (n_uri x) as [[|c r]|]; try reflexivity; [contradiction|discriminate]. }
    assert (Y : n_uri y = None) by (destruct (n_uri y); [discriminate|reflexivity]). rewrite X, Y. f_equal.
    apply Bool.orb_true_iff in E3. destruct E3 as [E3|E3].
    + apply str_eqb_true in E3. rewrite E3. destruct (n_local x); [contradiction|reflexivity].
    + apply Bool.andb_true_iff in E3. destruct E3 as [E3 E4]. apply str_eqb_true in E4. destruct (n_local y); [|discriminate]. rewrite E4. destruct (n_local x); [contradiction|reflexivity].
  - apply Bool.andb_true_iff in E. destruct E as [E1 E2]. apply str_eqb_true in E1. apply str_eqb_true in E2. rewrite E2. f_equal.
    + destruct (n_uri x) as [[|c r]|], (n_uri y) as [[|c' r']|]; try contradiction; try discriminate; try reflexivity. rewrite E1. reflexivity.
    + destruct (n_local x); [contradiction|reflexivity].
Qed.
Lemma named_uri : forall b nm, named b nm -> nm_uri nm <> Some [].
Proof. intros b nm [->|(_ & _ & [(_ & _ & U & _)|(p & u & _ & _ & -> & U & _)])]; [discriminate|exact U|congruence]. Qed.

(** * Copying *)
Section Copy.
Context (d : nat) (defn : str -> option (list tree)).
Definition body (f0 : nat) (t t' : tree) : Prop := forall f w deep s n d0, (f0 <= f)%nat -> good w t -> defines s d defn -> shows 0 s d0 None t n ->
  exists s' i, copy_node f w d deep s n = Done s' i /\ made s s' d i (cut deep t').
Definition lens (f0 : nat) (t t' : tree) : Prop := body f0 t t' /\ kind t' = kind t /\ naming_ t' = naming_ t.
Lemma body_up : forall a b t t', (a <= b)%nat -> body a t t' -> body b t t'.
Proof. intros a b t t' L B f w deep s n d0 F. apply B. lia. Qed.
Lemma lens_up : forall a b l l', (a <= b)%nat -> Forall2 (lens a) l l' -> Forall2 (lens b) l l'.
Proof. intros a b l l' L. apply f2_impl. intros t t' (A & B & C). split; [eapply body_up; eauto|auto]. Qed.
Lemma cut_deep : forall t, cut true t = t.
Proof. intros [k nm sp atts kids]. destruct k; reflexivity. Qed.
Lemma kids_ok : forall f0 l l', Forall2 (lens f0) l l' -> forall f w s0 s i k nm ats ks d0 lk, (f0 <= f)%nat -> (2 <= f)%nat ->
  Forall (good w) l -> k <> KDocument -> Forall (fun t => child_kind_ok k (kind t) = true) l -> defines s0 d defn -> Forall2 (shows 0 s0 d0 None) l lk ->
  build s0 s d i k nm ats ks ->
  exists s', copy_kids (copy_node f w d true) f s i lk = Done s' tt /\ build s0 s' d i k nm ats (ks ++ l').
Proof.
  intros f0 l l' H. induction H as [|t t' l l' (BT & KT & NT) H IH]; intros f w s0 s i k nm ats ks d0 lk F0 F2 G KD CK DF SH B; inversion SH as [|? y ? lk' SY SL]; subst.
  - exists s. rewrite app_nil_r. split; [reflexivity|exact B].
  - inversion G as [|? ? G1 G2]; subst. inversion CK as [|? ? C1 C2]; subst. pose proof (bu_old _ _ _ _ _ _ _ _ B) as U.
    destruct (BT f w true s y d0 F0 G1 (untouched_defines _ _ _ _ U DF) (untouched_shows _ _ _ _ _ _ _ U SY)) as (s1 & c & E1 & M1).
    rewrite cut_deep in M1. destruct f as [|[|f]]; try lia. rewrite <- KT in C1. destruct (build_kid f _ _ _ _ _ _ _ _ _ _ _ B M1 KD C1) as (s2 & E2 & B2 & _).
    destruct (IH (S (S f)) w s0 s2 i k nm ats (ks ++ [t']) d0 lk' F0 F2 G2 KD C2 DF SL B2) as (s3 & E3 & B3).
    exists s3. cbn [copy_kids]. rewrite E1. cbn [cbind]. rewrite E2. cbn [cbind]. rewrite <- app_assoc in B3. split; [exact E3|exact B3].
Qed.
Lemma nodup_mid' : forall {A} (a b : list A) x, NoDup (a ++ x :: b) -> ~ In x a.
Proof. intros A a b x N I. apply NoDup_remove_2 in N. apply N. apply in_or_app. left. exact I. Qed.
Lemma atts_ok : forall f0 l l', Forall2 (lens f0) (filter specified l) l' -> forall f w s0 s i k nm ats ks d0 lk, (f0 <= f)%nat ->
  Forall (fun a => specified a = true -> good w a) l -> Forall (fun a => kind a = KAttr) l -> Forall (fun a => named true (naming_ a)) ats ->
  apart (ats ++ filter specified l) -> defines s0 d defn -> Forall2 (shows 0 s0 d0 None) l lk ->
  build s0 s d i k nm ats ks ->
  exists s', copy_atts (copy_node f w d true) s i lk = Done s' tt /\ build s0 s' d i k nm (ats ++ l') ks.
Proof.
  intros f0 l. induction l as [|t l IH]; intros l' H f w s0 s i k nm ats ks d0 lk F0 G KA NA AP DF SH B; inversion SH as [|? y ? lk' SY0 SL]; subst.
  - cbn in H. inversion H; subst. exists s. rewrite app_nil_r. split; [reflexivity|exact B].
  - inversion G as [|? ? G1 G2]; subst. inversion KA as [|? ? K1 K2]; subst. pose proof (bu_old _ _ _ _ _ _ _ _ B) as U. pose proof (untouched_shows _ _ _ _ _ _ _ U SY0) as SY.
    cbn [copy_atts]. rewrite (shows_spec _ _ _ _ _ _ SY). cbn [filter] in H, AP. destruct (specified t) eqn:SP.
    2: { eapply IH; eauto. }
    inversion H as [|? t' ? l2 (BT & KT & NT) HR]; subst. pose proof (G1 eq_refl) as GT.
    destruct (BT f w true s y d0 F0 GT (untouched_defines _ _ _ _ U DF) SY) as (s1 & c & E1 & M1). rewrite cut_deep in M1. rewrite E1. cbn [cbind].
    pose proof (m_old _ _ _ _ _ M1) as U1. pose proof (shows_naming _ _ _ _ _ _ (untouched_shows _ _ _ _ _ _ _ U1 SY)) as NY. pose proof (shows_naming _ _ _ _ _ _ (m_shows _ _ _ _ _ M1)) as NC. rewrite NT in NC.
    assert (NM : named true (naming_ t)). { destruct t as [kk nn ss aa cc]. cbn in K1. subst kk. cbn in GT. apply GT. }
    destruct AP as [AP1 AP2]. rewrite map_app in AP1, AP2. cbn [map] in AP1, AP2.
    assert (GO : exists s2, (if level2 (s_heap s1 y) then set_attribute_node_ns s1 i c else set_attribute_node s1 i c) = Done s2 tt /\ build s0 s2 d i k nm (ats ++ [t']) ks).
    { rewrite level2_naming, NY. destruct (negb (is_empty (nm_local (naming_ t)))) eqn:LV.
      - assert (LN : nm_local (naming_ t) <> []) by (destruct (nm_local (naming_ t)); [discriminate|discriminate]).
        unfold set_attribute_node_ns. edestruct (build_att s0 s s1 d i k nm ats ks c t' (ns_name_is (uri_of (s_heap s1 c)) (n_local (s_heap s1 c))) B M1) as (s2 & E2 & B2 & _); [|eauto].
        intros t0 x IN NX. apply no_clash2.
        + rewrite NC, NX. intros EQ. apply (nodup_mid' _ _ _ AP2). rewrite EQ. apply in_map_iff. exists t0. auto.
        + change (n_local (s_heap s1 c)) with (nm_local (naming_of (s_heap s1 c))). rewrite NC. exact LN.
        + change (n_uri (s_heap s1 c)) with (nm_uri (naming_of (s_heap s1 c))). rewrite NC. eapply named_uri; eauto.
        + change (n_uri x) with (nm_uri (naming_of x)). rewrite NX. rewrite Forall_forall in NA. eapply named_uri. apply NA. exact IN.
      - unfold set_attribute_node. edestruct (build_att s0 s s1 d i k nm ats ks c t' (name_is (n_name (s_heap s1 c))) B M1) as (s2 & E2 & B2 & _); [|eauto].
        intros t0 x IN NX. apply no_clash1. change (n_name (s_heap s1 c)) with (nm_name (naming_of (s_heap s1 c))). change (n_name x) with (nm_name (naming_of x)). rewrite NC, NX.
        intros EQ. apply (nodup_mid' _ _ _ AP1). rewrite EQ. apply in_map_iff. exists t0. auto. }
    destruct GO as (s2 & E2 & B2). rewrite E2. cbn [cbind].
    destruct (IH l2 HR f w s0 s2 i k nm (ats ++ [t']) ks d0 lk' F0 G2 K2) as (s3 & E3 & B3); auto.
    + apply Forall_app. split; [exact NA|]. constructor; [rewrite NT; exact NM|constructor].
    + rewrite <- app_assoc. cbn [app]. split; rewrite map_app; cbn [map]; rewrite NT; assumption.
    + exists s3. rewrite <- app_assoc in B3. split; [exact E3|exact B3].
Qed.
Lemma build_any : forall s0 s i k nm ats ks, build s0 s d i k nm ats ks -> shows (s_next s0) s d None (Tree k nm true ats ks) i.
Proof.
  intros s0 s i k nm ats ks []. apply shows_eq. assert (L : (s_next s0 <= S i)%nat) by lia. split; [lia|]. repeat (split; [assumption|]). split; [exact Logic.I|]. cbn [below]. split.
  - eapply f2_impl; [|exact bu_atts0]. intros t x [S1 S2]. split; [eapply shows_any, shows_low; eauto|exact S2].
  - eapply f2_impl; [|exact bu_kids0]. intros t x [S1 S2]. split; [eapply shows_any, shows_low; eauto|exact S2].
Qed.
Lemma ref_end : forall f0 f s0 s i nm ks, freezes f0 (Tree KEntityRef nm true [] ks) -> (f0 <= f)%nat -> build s0 s d i KEntityRef nm [] ks ->
  exists s', frozen f s i = Done s' tt /\ made s0 s' d i (Tree KEntityRef nm true [] ks).
Proof.
  intros f0 f s0 s i nm ks FZ L B. destruct (FZ f s (s_next s0) d i L (build_any _ _ _ _ _ _ _ B)) as (s1 & E & D & S). exists s1. unfold frozen. rewrite E. split; [reflexivity|].
  destruct B. destruct D as (D1 & D2 & D3 & D4 & D5 & D6 & D7). constructor.
  - destruct bu_old0 as (U1 & U2 & U4). split; [congruence|]. split; [rewrite D5, D6; exact U2|]. intros j J. destruct (U4 j J) as (V1 & V2 & V3 & V4).
    destruct (D7 j) as [->|[K _]]; [|lia]. rewrite D1, D2, D3. auto.
  - apply shows_eq in S. apply shows_eq. exact S.
  - destruct (D7 i) as [->|[_ ->]]; [exact bu_parent0|exact bu_parent0].
  - rewrite D2. exact bu_host0.
  - destruct (D7 i) as [->|[_ ->]]; [exact bu_orphan0|exact bu_orphan0].
Qed.
Lemma old_kids : forall s0 s n, untouched s0 s -> (n < s_next s0)%nat -> n_kids (s_heap s n) = n_kids (s_heap s0 n) /\ s_atts s n = s_atts s0 n.
Proof. intros s0 s n (_ & _ & U) L. destruct (U n L) as (A & B & _). apply same_fields in A. split; [apply A|exact B]. Qed.
Lemma strip_in : forall s i P l l', Forall2 (inside s i P) l l' -> Forall2 P l l'.
Proof. intros s i P l l'. apply f2_impl. intros t a [A _]. exact A. Qed.
Lemma strip_un : forall s i P l l', Forall2 (under s i P) l l' -> Forall2 P l l'.
Proof. intros s i P l l'. apply f2_impl. intros t a [A _]. exact A. Qed.
Lemma all_good : forall w l, every (good w) l -> Forall (good w) l. Proof. intros w l. apply every_Forall. Qed.
Lemma content_under : forall k l, k = KElement \/ k = KFragment \/ k = KEntityRef -> Forall (fun t => content_kind (kind t) = true) l -> Forall (fun t => child_kind_ok k (kind t) = true) l.
Proof. intros k l [->|[->| ->]]; apply Forall_impl; intros t E; exact E. Qed.
Scheme copied_mut := Minimality for copied Sort Prop with all_copied_mut := Minimality for all_copied Sort Prop.
Lemma copied_shape : forall t t', copied defn t t' -> kind t' = kind t /\ naming_ t' = naming_ t.
Proof. intros t t' C. inversion C; subst; auto. Qed.
Lemma copy_all : forall t t', copied defn t t' -> exists f0, body f0 t t'.
Proof.
  apply (copied_mut defn (fun t t' => exists f0, body f0 t t') (fun l l' => exists f0, Forall2 (lens f0) l l')).
  - (* leaves *)
    intros k nm sp K. exists 1%nat. intros [|f] w deep s n d0 L G DF SH; [lia|]. apply shows_eq in SH. destruct SH as (R & HK & HN & HO & HS & _ & HA & HC).
    assert (KK : k <> KDocument /\ k <> KDocType /\ is_ref k = false) by (destruct K as [->|[->|[->| ->]]]; repeat split; discriminate). destruct KK as (K1 & K2 & K3).
    pose proof (build_end _ _ _ _ _ _ _ _ (build_alloc s d k nm K1 K2) K3) as M.
    exists (fst (alloc s k d nm)), (s_next s). split.
    + assert (ND : n_data (s_heap s n) = nm_data nm) by (rewrite <- HN; reflexivity). assert (NN : n_name (s_heap s n) = nm_name nm) by (rewrite <- HN; reflexivity).
      cbn [copy_node]. rewrite HK. destruct K as [->|[->|[->| ->]]]; cbn in G.
      1-3: destruct G as (G1 & _); rewrite ND, G1; reflexivity.
      destruct G as (G1 & _ & _ & G2 & G3). rewrite ND, NN, (legal_checked _ _ G2). assert (CD : checked_data w (nm_data nm) = true) by (destruct w; [reflexivity|apply G3; reflexivity]). rewrite CD. cbn [andb]. rewrite G1. reflexivity.
    + destruct K as [->|[->|[->| ->]]]; exact M.
  - (* references *)
    intros nm sp kids kids' _ (f0 & H). destruct (freeze_tree (Tree KEntityRef nm true [] kids')) as (fz & FZ). exists (S (f0 + fz + 2)). intros [|f] w deep s n d0 L G DF SH; [lia|].
    apply shows_eq in SH. destruct SH as (R & HK & HN & HO & HS & _ & HA & HC). cbn in G. destruct G as (G1 & _ & G2).
    assert (NN : n_name (s_heap s n) = nm_name nm) by (rewrite <- HN; reflexivity).
    pose proof (build_alloc s d KEntityRef nm ltac:(discriminate) ltac:(discriminate)) as B0. cbn [copy_node]. rewrite HK, NN, (legal_checked _ _ G2), <- G1.
    change (let '(s1, i) := alloc s KEntityRef d nm in ?X s1 i) with (X (fst (alloc s KEntityRef d nm)) (snd (alloc s KEntityRef d nm))).
    destruct (alloc s KEntityRef d nm) as [s1 i] eqn:EA. cbn [fst] in B0. assert (EI : i = s_next s) by (unfold alloc in EA; injection EA as _ <-; reflexivity). rewrite <- EI in B0.
    assert (GO : exists s2, match s_ents s1 d (nm_name nm) with
                   | Some ent => copy_kids (copy_node f Import d true) f s1 i (n_kids (s_heap s1 ent))
                   | None => Done s1 tt
                   end = Done s2 tt /\ build s s2 d i KEntityRef nm [] kids').
    { pose proof (bu_old _ _ _ _ _ _ _ _ B0) as U. pose proof DF as (L0 & _ & DE). assert (SE : s_ents s1 d = s_ents s d) by (apply U; exact L0). rewrite SE. specialize (DE (nm_name nm)). unfold content_of in H.
      destruct (s_ents s d (nm_name nm)) as [e|], (defn (nm_name nm)) as [ts|]; try contradiction.
      - destruct DE as (LE & (d' & SH) & GG & CC). destruct (old_kids s s1 e U LE) as [-> _].
        apply (kids_ok f0 ts kids' H f Import s s1 i KEntityRef nm [] [] d' (n_kids (s_heap s e))); auto; try lia; try discriminate.
      - inversion H; subst. exists s1. split; [reflexivity|exact B0]. }
    destruct GO as (s2 & E2 & B2). rewrite E2. cbn [cbind]. destruct (ref_end fz f s s2 i nm kids' FZ ltac:(lia) B2) as (s3 & E3 & M3). rewrite E3. cbn [cbind]. exists s3, i. split; [reflexivity|exact M3].
  - (* attributes *)
    intros nm sp kids kids' _ (f0 & H). exists (S (f0 + 2)). intros [|f] w deep s n d0 L G DF SH; [lia|]. apply shows_eq in SH. destruct SH as (R & HK & HN & HO & HS & _ & HA & HC).
    cbn in G. destruct G as (G1 & _ & G2 & G3 & G4 & G5). pose proof (build_alloc s d KAttr nm ltac:(discriminate) ltac:(discriminate)) as B0. cbn [copy_node]. rewrite HK.
    rewrite create_attribute_ok; [|rewrite HN; exact G1|change (n_name (s_heap s n)) with (nm_name (naming_of (s_heap s n))); rewrite HN; exact G2]. rewrite HN. cbn [cbind].
    destruct (old_kids s _ n (bu_old _ _ _ _ _ _ _ _ B0) ltac:(lia)) as [-> _].
    destruct (kids_ok f0 kids kids' H f w s (fst (alloc s KAttr d nm)) (s_next s) KAttr nm [] [] d0 (n_kids (s_heap s n))) as (s2 & E2 & B2); auto; try lia; try discriminate.
    { apply all_good. exact G5. } { apply every_Forall in G4. eapply Forall_impl; [|exact G4]. intros t [->| ->]; reflexivity. } { eapply strip_un; eauto. }
    rewrite E2. cbn [cbind]. pose proof (build_end _ _ _ _ _ _ _ _ B2 eq_refl) as M2.
    assert (SP : s_spec s2 n = sp). { destruct (bu_old _ _ _ _ _ _ _ _ B2) as (_ & _ & U). destruct (U n ltac:(lia)) as (_ & _ & _ & ->). exact HS. }
    destruct w.
    + exists s2, (s_next s). split; [reflexivity|exact M2].
    + exists (put_spec (s_next s) (s_spec s2 n) s2), (s_next s). split; [reflexivity|]. rewrite SP, (G3 eq_refl).
      assert (PS : forall j, s_spec (put_spec (s_next s) true s2) j = s_spec s2 j). { intros j. cbn. destruct (Nat.eqb_spec j (s_next s)) as [->|]; [|reflexivity]. symmetry. apply (bu_spec _ _ _ _ _ _ _ _ B2). }
      destruct M2 as [MU MS MP MH MO]. constructor; try assumption.
      * destruct MU as (U1 & U2 & U4). split; [exact U1|]. split; [exact U2|]. intros j J. rewrite PS. apply U4. exact J.
      * eapply shows_frame; [| | |exact MS]; [lia|cbn; lia|]. intros j J. split; [|right; reflexivity]. constructor; auto. unfold core. rewrite PS. reflexivity.
  - (* fragments *)
    intros nm sp kids kids' _ (f0 & H). exists (S (f0 + 2)). intros [|f] w deep s n d0 L G DF SH; [lia|]. apply shows_eq in SH. destruct SH as (R & HK & HN & HO & HS & _ & HA & HC).
    cbn in G. destruct G as (G1 & _ & G4 & G5). pose proof (build_alloc s d KFragment nm ltac:(discriminate) ltac:(discriminate)) as B0. cbn [copy_node]. rewrite HK. rewrite G1 in *.
    destruct (alloc s KFragment d (plain [])) as [s1 i] eqn:EA. cbn [fst] in B0. assert (EI : i = s_next s) by (unfold alloc in EA; injection EA as _ <-; reflexivity). rewrite <- EI in B0.
    destruct deep; cbn [cut].
    2: { cbn [cbind]. exists s1, i. split; [reflexivity|]. apply build_end; [exact B0|reflexivity]. }
    destruct (old_kids s _ n (bu_old _ _ _ _ _ _ _ _ B0) ltac:(lia)) as [-> _].
    destruct (kids_ok f0 kids kids' H f w s s1 i KFragment (plain []) [] [] d0 (n_kids (s_heap s n))) as (s2 & E2 & B2); auto; try lia; try discriminate.
    { apply all_good. exact G5. } { apply content_under; [auto|]. apply every_Forall. exact G4. } { eapply strip_un; eauto. }
    rewrite E2. cbn [cbind]. exists s2, i. split; [reflexivity|]. apply build_end; [exact B2|reflexivity].
  - (* elements *)
    intros nm sp atts atts' kids kids' _ (fa & HAT) _ (f0 & H). exists (S (fa + f0 + 2)). intros [|f] w deep s n d0 L G DF SH; [lia|]. apply shows_eq in SH. destruct SH as (R & HK & HN & HO & HS & _ & HA & HC).
    cbn in G. destruct G as (G1 & G2 & G3 & G6 & G7 & G4 & G5). pose proof (build_alloc s d KElement nm ltac:(discriminate) ltac:(discriminate)) as B0. cbn [copy_node]. rewrite HK.
    rewrite create_element_ok; [|rewrite HN; exact G1|change (n_name (s_heap s n)) with (nm_name (naming_of (s_heap s n))); rewrite HN; exact G2|apply DF]. rewrite HN. cbn [cbind].
    destruct (old_kids s _ n (bu_old _ _ _ _ _ _ _ _ B0) ltac:(lia)) as [_ ->].
    destruct (atts_ok fa atts atts' HAT f w s (fst (alloc s KElement d nm)) (s_next s) KElement nm [] [] d0 (s_atts s n)) as (s2 & E2 & B2); auto; try lia; try discriminate.
    { apply every_Forall. exact G7. } { apply every_Forall. exact G6. } { eapply strip_in; eauto. }
    rewrite E2. cbn [cbind app] in *. destruct deep; cbn [cut].
    2: { cbn [cbind]. exists s2, (s_next s). split; [reflexivity|]. apply build_end; [exact B2|reflexivity]. }
    destruct (old_kids s _ n (bu_old _ _ _ _ _ _ _ _ B2) ltac:(lia)) as [-> _].
    destruct (kids_ok f0 kids kids' H f w s s2 (s_next s) KElement nm atts' [] d0 (n_kids (s_heap s n))) as (s3 & E3 & B3); auto; try lia; try discriminate.
    { apply all_good. exact G5. } { apply content_under; [auto|]. apply every_Forall. exact G4. } { eapply strip_un; eauto. }
    rewrite E3. cbn [cbind]. exists s3, (s_next s). split; [reflexivity|]. apply build_end; [exact B3|reflexivity].
  - exists 0%nat. constructor.
  - intros t t' l l' C (f1 & B) _ (f2 & F). exists (Nat.max f1 f2). constructor.
    + destruct (copied_shape _ _ C). split; [eapply body_up; [|exact B]; lia|auto].
    + eapply lens_up; [|exact F]. lia.
Qed.
End Copy.
