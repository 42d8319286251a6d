From Verif.Model Require Import Base Chars Dom Clone.
From Verif.Model Require AttrMap.
From Verif.Spec Require Import CloneSpec.
From Verif.Proof Require Import Tac ContainersProof DomProof CloneProof.
From Verif.Proof Require SaxToDomProof.
From Verif.Model Require Import Clone.
From Verif.Spec Require Import CloneSpec.

Definition crown (h : heap) (c n : nat) : heap :=
  if has_kind h n KElement then upd (tail_of h c n) c (set_docel_f (Some n)) else tail_of h c n.
Lemma vappend_doc : forall f h c n, n_kind (h c) = KDocument -> n_owner (h n) = Some c -> n_owner (h c) = Some c ->
  n_parent (h n) = None -> n <> c -> n_ro (h c) = false -> top_kind (n_kind (h n)) ->
  (n_kind (h n) = KElement -> n_docel (h c) = None) -> vappend (S (S f)) h c n = Ok (crown h c n) n.
Proof.
  intros f h c n KC ON OC PN NC RO TK DE. unfold vappend. cbn [vinsert].
  destruct (SaxToDomProof.tail_spec h c n) as (_ & _ & TI). fold (tail_of h c n) in TI.
  assert (CH : childless (n_kind (h c)) = false) by (rewrite KC; reflexivity).
  assert (HD : has_kind h c KDocument = true) by (unfold has_kind; rewrite KC; reflexivity).
  assert (HF : has_kind h n KFragment = false) by (unfold has_kind; destruct TK as [->|[->| ->]]; reflexivity).
  assert (HN : has_kind h n KDocument = false) by (unfold has_kind; destruct TK as [->|[->| ->]]; reflexivity).
  assert (HT : has_kind h n KDocType = false) by (unfold has_kind; destruct TK as [->|[->| ->]]; reflexivity).
  assert (HE : has_kind h n KElement && negb (opt_eqb (n_docel (h c)) None) = false).
  { unfold has_kind. destruct TK as [E|[E|E]]; rewrite E; try reflexivity. rewrite (DE E). reflexivity. }
  rewrite CH, HD, RO, HF, HE, HT. cbn [andb]. unfold insert_node, check_can_add. rewrite ON, HN, OC, Nat.eqb_refl. cbn [negb climb].
  assert (E : Nat.eqb c n = false) by (apply Nat.eqb_neq; auto). rewrite E.
  assert (G : get_parent h c = None) by (unfold get_parent; rewrite KC; reflexivity). rewrite G.
  rewrite RO, Bool.andb_false_r. assert (CK : child_kind_ok (n_kind (h c)) (n_kind (h n)) = true) by (rewrite KC; destruct TK as [->|[->| ->]]; reflexivity). rewrite CK. cbn [rbind]. unfold remove_if_required.
  assert (G' : get_parent h n = None) by (unfold get_parent; rewrite PN; destruct (n_kind (h n)); reflexivity). rewrite G'. cbn [rbind].
  match goal with |- context [mark_changed ?a c] => change (mark_changed a c) with (tail_of h c n) end.
  assert (KN : forall k, has_kind (tail_of h c n) n k = has_kind h n k). { intros k. unfold has_kind. destruct (info_fields _ _ (TI n)) as (-> & _). reflexivity. }
  assert (DC : n_docel (tail_of h c n c) = n_docel (h c)). { pose proof (SaxToDomProof.info_look _ _ (TI c)) as (_ & _ & X & _). exact X. }
  rewrite KN, DC. unfold crown. destruct (has_kind h n KElement) eqn:HE'.
  - cbn [andb]. assert (DN : n_docel (h c) = None). { apply DE. unfold has_kind in HE'. apply nkind_eqb_eq. exact HE'. } rewrite DN. cbn [opt_eqb].
    assert (X : has_kind (upd (tail_of h c n) c (set_docel_f (Some n))) n KDocType = false). { unfold has_kind. rewrite (SaxToDomProof.upd_proj n_kind) by reflexivity. fold (has_kind (tail_of h c n) n KDocType). rewrite KN. exact HT. }
    rewrite X. reflexivity.
  - cbn [andb]. rewrite KN, HT. reflexivity.
Qed.
Definition typed_doc (h : heap) (c n : nat) : heap :=
  upd (tail_of (upd h n (set_owner_f (n_owner (h c)))) c n) c (set_doctype_f (Some n)).
Lemma vappend_type : forall f h c n, n_kind (h c) = KDocument -> n_owner (h n) = None ->
  n_parent (h n) = None -> n <> c -> n_ro (h c) = false -> n_kind (h n) = KDocType -> n_doctype (h c) = None ->
  vappend (S (S f)) h c n = Ok (typed_doc h c n) n.
Proof.
  intros f h c n KC ON PN NC RO KN DT. unfold vappend. cbn [vinsert].
  assert (HK : forall k, has_kind h n k = nkind_eqb KDocType k) by (intros k; unfold has_kind; rewrite KN; reflexivity).
  assert (HD : has_kind h c KDocument = true) by (unfold has_kind; rewrite KC; reflexivity).
  rewrite KC, HD, RO, !HK. cbn [childless nkind_eqb andb]. rewrite DT. cbn [opt_eqb negb]. unfold insert_node, check_can_add. rewrite ON. cbn [rbind]. set (h1 := upd h n (set_owner_f (n_owner (h c)))).
  unfold remove_if_required. assert (G : get_parent h1 n = None). { unfold get_parent, h1. rewrite (SaxToDomProof.upd_proj n_kind), (SaxToDomProof.upd_proj n_parent) by reflexivity. rewrite KN. exact PN. }
  rewrite G. cbn [rbind]. match goal with |- context [mark_changed ?a c] => change (mark_changed a c) with (tail_of h1 c n) end.
  destruct (SaxToDomProof.tail_spec h1 c n) as (_ & _ & TI). fold (tail_of h1 c n) in TI.
  assert (KN' : forall k, has_kind (tail_of h1 c n) n k = nkind_eqb KDocType k).
  { intros k. unfold has_kind. destruct (info_fields _ _ (TI n)) as (-> & _). unfold h1. rewrite (SaxToDomProof.upd_proj n_kind) by reflexivity. rewrite KN. reflexivity. }
  rewrite !KN'. cbn [nkind_eqb andb]. rewrite ?KN'. cbn [nkind_eqb andb].
  assert (DC : n_doctype (tail_of h1 c n c) = None). { pose proof (SaxToDomProof.info_look _ _ (TI c)) as (_ & _ & _ & X). rewrite X. unfold h1. rewrite (SaxToDomProof.upd_proj n_doctype) by reflexivity. exact DT. }
  rewrite DC. reflexivity.
Qed.

(** A document while it is made; [pre] has its type. *)
Record dbuild (nm : str) (s0 s : store) (d : nat) (pre : list nat) (ks : list tree) (l : list nat) : Prop := {
  db_old : untouched s0 s; db_at : d = s_next s0; db_lt : (d < s_next s)%nat;
  db_kind : n_kind (s_heap s d) = KDocument; db_owner : n_owner (s_heap s d) = Some d; db_ro : n_ro (s_heap s d) = false;
  db_list : n_kids (s_heap s d) = pre ++ l; db_pre : Forall (fun x => (S d <= x < s_next s)%nat) pre;
  db_kids : Forall2 (under s d (shows (S d) s d (Some false))) ks l;
  db_docel : filter is_element ks = [] -> n_docel (s_heap s d) = None;
  db_root : forall c, In c l -> n_kind (s_heap s c) = KElement -> n_docel (s_heap s d) = Some c;
  db_type : n_doctype (s_heap s d) = hd_error pre;
  db_named : Forall (fun x => titled nm d (s_heap s x)) pre;
  db_ents : defines s d no_entities }.
Lemma same_kind : forall s s' j, untouched s s' -> (j < s_next s)%nat -> n_kind (s_heap s' j) = n_kind (s_heap s j).
Proof. intros s s' j (_ & _ & U) L. destruct (U j L) as (A & _). apply same_fields in A. apply A. Qed.
Lemma dbuild_later : forall nm s0 s s' d pre ks l, untouched s s' -> dbuild nm s0 s d pre ks l -> dbuild nm s0 s' d pre ks l.
Proof.
  intros nm s0 s s' d pre ks l U []. pose proof U as (N & _ & H). destruct (H d db_lt0) as (A & B & C & D). apply same_fields in A.
  destruct A as (A1 & A2 & A3 & A4 & A5 & A6 & A7 & A8 & A9).
  assert (RG : forall c, In c l -> (c < s_next s)%nat). { intros c I. destruct (f2_in _ _ _ _ db_kids0 I) as (t & _ & S1 & _). apply shows_range in S1. lia. }
  constructor; try congruence; try lia.
  - eapply untouched_trans; eauto.
  - eapply Forall_impl; [|exact db_pre0]. cbn. intros x X. lia.
  - eapply f2_impl; [|exact db_kids0]. intros t a [S1 S2]. split; [eapply untouched_shows; eauto|]. apply shows_range in S1. destruct (H a ltac:(lia)) as (E & _). apply same_fields in E.
    destruct E as (_ & -> & _). exact S2.
  - intros E. rewrite A9. auto.
  - intros c I K. rewrite A9. apply db_root0; [exact I|]. rewrite <- (same_kind _ _ _ U (RG c I)). exact K.
  - rewrite Forall_forall in *. intros x X. destruct (db_named0 x X) as (T1 & T2 & T3). specialize (db_pre0 x X). cbn in db_pre0. destruct (H x ltac:(lia)) as (E & _).
    apply same_fields in E. destruct E as (E1 & E2 & _ & _ & _ & _ & E4 & _). unfold titled. rewrite E1, E2. split; [exact T1|]. split; [|exact T3]. rewrite <- T2. exact (f_equal nm_name E4).
  - eapply untouched_defines; eauto.
Qed.
Lemma crown_fields : forall h c n, n <> c ->
  (forall j, n_kids (crown h c n j) = if Nat.eqb j c then n_kids (h c) ++ [n] else n_kids (h j)) /\
  (forall j, n_parent (crown h c n j) = if Nat.eqb j n then Some c else n_parent (h j)) /\
  (forall j, n_kind (crown h c n j) = n_kind (h j) /\ naming_of (crown h c n j) = naming_of (h j) /\ n_owner (crown h c n j) = n_owner (h j) /\ n_ro (crown h c n j) = n_ro (h j)) /\
  (n_docel (crown h c n c) = if has_kind h n KElement then Some n else n_docel (h c)) /\ n_doctype (crown h c n c) = n_doctype (h c) /\
  (forall j, j <> c -> j <> n -> ~ In j (n_kids (h c)) -> same_node (h j) (crown h c n j)).
Proof.
  intros h c n NC. destruct (SaxToDomProof.tail_spec h c n) as (TK & TP & TI). fold (tail_of h c n) in TK, TP, TI. unfold crown. destruct (has_kind h n KElement).
  - repeat split; intros; rewrite ?(SaxToDomProof.upd_proj n_kids), ?(SaxToDomProof.upd_proj n_parent), ?(SaxToDomProof.upd_proj n_kind), ?(SaxToDomProof.upd_proj naming_of), ?(SaxToDomProof.upd_proj n_owner), ?(SaxToDomProof.upd_proj n_ro), ?(SaxToDomProof.upd_proj n_doctype) by reflexivity; auto.
    + apply (info_fields _ _ (TI j)).
    + apply (info_fields _ _ (TI j)).
    + apply (info_fields _ _ (TI j)).
    + apply (info_fields _ _ (TI j)).
    + unfold upd. rewrite Nat.eqb_refl. reflexivity.
    + apply (SaxToDomProof.info_look _ _ (TI c)).
    + eapply same_trans; [|apply same_skip; assumption]. apply tail_other; assumption.
  - repeat split; intros; auto; try apply (info_fields _ _ (TI j)); try apply (SaxToDomProof.info_look _ _ (TI c)). apply tail_other; assumption.
Qed.
Lemma dbuild_kid : forall nm f s0 s s1 d pre ks l c t, dbuild nm s0 s d pre ks l -> made s s1 d c t -> top_kind (kind t) ->
  (is_element t = true -> filter is_element ks = []) ->
  exists s2, append (S (S f)) s1 d c = Done s2 tt /\ dbuild nm s0 s2 d pre (ks ++ [t]) (l ++ [c]).
Proof.
  intros nm f s0 s s1 d pre ks l c t B M TK ONE. assert (LT := db_lt _ _ _ _ _ _ _ B). destruct M as [MU MS MP MH MO].
  apply (dbuild_later _ _ _ _ _ _ _ _ MU) in B. destruct B.
  pose proof (shows_range _ _ _ _ _ _ MS) as RC. assert (NE : c <> d) by lia. pose proof (shows_kind _ _ _ _ _ _ MS) as KC.
  unfold append. rewrite (vappend_doc f (s_heap s1) d c); auto.
  2: { eapply shows_owner; eauto. } 2: { rewrite KC. exact TK. } 2: { intros E. apply db_docel0. apply ONE. unfold is_element. rewrite <- KC, E. reflexivity. }
  set (h2 := crown (s_heap s1) d c). exists (put_heap h2 s1). split; [reflexivity|].
  destruct (crown_fields (s_heap s1) d c NE) as (CK & CP & CF & CD & CT & CO). fold h2 in CK, CP, CF, CD, CT, CO.
  assert (KG : forall x, In x (n_kids (s_heap s1 d)) -> (S d <= x < s_next s1)%nat).
  { intros x X. rewrite db_list0 in X. apply in_app_or in X. destruct X as [X|X]; [rewrite Forall_forall in db_pre0; apply db_pre0; exact X|]. destruct (f2_in _ _ _ _ db_kids0 X) as (t' & _ & S' & _). eapply shows_range; eauto. }
  assert (OLD : forall j, (j < d)%nat -> same_node (s_heap s1 j) (h2 j)). { intros j J. apply CO; try lia. intros X. apply KG in X. lia. }
  assert (UN : untouched s0 (put_heap h2 s1)).
  { destruct db_old0 as (U1 & U2 & U4). split; [cbn; lia|]. split; [exact U2|]. intros j J. destruct (U4 j J) as (V1 & V2 & V3 & V4).
    split; [|cbn; auto]. eapply same_trans; [exact V1|]. cbn. apply OLD. lia. }
  assert (KE : forall j, (S d <= j < s_next s1)%nat -> keeps s1 (put_heap h2 s1) j /\ (Some false = None \/ n_ro (s_heap (put_heap h2 s1) j) = n_ro (s_heap s1 j))).
  { intros j J. destruct (CF j) as (J1 & J2 & J3 & J4). cbn. split; [|right; exact J4]. constructor; cbn; auto.
    - unfold core. cbn. rewrite J1, J2, J3, CK. assert (E : Nat.eqb j d = false) by (apply Nat.eqb_neq; lia). rewrite E. reflexivity.
    - intros p P. rewrite CP. destruct (Nat.eqb_spec j c) as [->|]; [congruence|exact P]. }
  assert (SH : forall t' x, shows (S d) s1 d (Some false) t' x -> shows (S d) (put_heap h2 s1) d (Some false) t' x).
  { intros t' x. apply shows_frame; [lia|cbn; lia|exact KE]. }
  destruct (CF d) as (I1 & I2 & I3 & I4).
  constructor; cbn [put_heap s_heap s_atts s_host s_spec s_next]; auto; try congruence.
  - rewrite CK, Nat.eqb_refl, db_list0, <- app_assoc. reflexivity.
  - apply Forall2_app.
    + eapply f2_impl; [|exact db_kids0]. intros t' a [S1 S2]. split; [apply SH; exact S1|]. cbn. rewrite CP. destruct (Nat.eqb_spec a c) as [->|]; [reflexivity|exact S2].
    + constructor; [|constructor]. split; [|cbn; rewrite CP, Nat.eqb_refl; reflexivity]. apply SH. eapply shows_low; [|exact MS]. lia.
  - intros E. rewrite filter_app in E. apply app_eq_nil in E. destruct E as [E1 E2]. rewrite CD. unfold has_kind. rewrite KC. cbn [filter] in E2. unfold is_element in E2. destruct (kind t); try discriminate; cbn; auto.
  - intros x I KX. rewrite CD. destruct (CF x) as (KX' & _). rewrite KX' in KX. apply in_app_or in I. destruct I as [I|[<-|[]]].
    + unfold has_kind. destruct (nkind_eqb (n_kind (s_heap s1 c)) KElement) eqn:E; [|apply db_root0; assumption]. apply nkind_eqb_eq in E. exfalso.
      assert (IE : is_element t = true) by (unfold is_element; rewrite <- KC, E; reflexivity). specialize (ONE IE). destruct (f2_in _ _ _ _ db_kids0 I) as (t' & T' & S' & _).
      assert (IN : In t' (filter is_element ks)). { apply filter_In. split; [exact T'|]. unfold is_element. rewrite <- (shows_kind _ _ _ _ _ _ S'), KX. reflexivity. } rewrite ONE in IN. destruct IN.
    + unfold has_kind. rewrite KX. reflexivity.
  - rewrite Forall_forall in *. intros x X. destruct (db_named0 x X) as (T1 & T2 & T3). destruct (CF x) as (X1 & X2 & _). unfold titled. rewrite X1, CP.
    split; [exact T1|]. split; [rewrite <- T2; exact (f_equal nm_name X2)|]. destruct (Nat.eqb x c); [reflexivity|exact T3].
Qed.

Lemma alloc_untouched : forall s k d nm, untouched s (fst (alloc s k d nm)).
Proof.
  intros s k d nm. unfold untouched, alloc. cbn. split; [lia|]. split; [intros j J; split; reflexivity|]. intros j J.
  assert (NE : Nat.eqb j (s_next s) = false) by (apply Nat.eqb_neq; lia). rewrite NE. unfold upd. rewrite NE. repeat split.
Qed.
Lemma dbuild_start : forall nm s d0, dbuild nm s (bare (s_next s) (fst (alloc s KDocument d0 (plain [])))) (s_next s) [] [] [].
Proof.
  intros nm s d0. set (d := s_next s). pose proof (alloc_untouched s KDocument d0 (plain [])) as (U1 & U2 & U3). set (s1 := fst (alloc s KDocument d0 (plain []))) in *.
  assert (E : s_heap s1 d = new_node d KDocument d0 (plain [])). { unfold s1, alloc, upd. cbn. fold d. rewrite Nat.eqb_refl. reflexivity. }
  constructor; cbn [bare s_heap s_next]; rewrite ?E; try reflexivity.
  - split; [exact U1|]. split; [|exact U3]. intros j J. cbn. assert (NE : Nat.eqb j d = false) by (apply Nat.eqb_neq; lia). rewrite NE. apply U2. exact J.
  - unfold s1. cbn. fold d. lia.
  - constructor.
  - constructor.
  - intros c [].
  - constructor.
  - split; [unfold s1; cbn; fold d; lia|]. split; intros name; cbn; rewrite Nat.eqb_refl; [reflexivity|exact Logic.I].
Qed.
Lemma typed_fields : forall h c n, n <> c -> let h2 := typed_doc h c n in
  (forall j, n_kids (h2 j) = if Nat.eqb j c then n_kids (h c) ++ [n] else n_kids (h j)) /\
  (forall j, n_kind (h2 j) = n_kind (h j) /\ naming_of (h2 j) = naming_of (h j) /\ n_ro (h2 j) = n_ro (h j)) /\
  n_owner (h2 c) = n_owner (h c) /\ n_parent (h2 n) = Some c /\ n_docel (h2 c) = n_docel (h c) /\ n_doctype (h2 c) = Some n /\
  (forall j, j <> c -> j <> n -> ~ In j (n_kids (h c)) -> same_node (h j) (h2 j)).
Proof.
  intros h c n NC h2. set (h1 := upd h n (set_owner_f (n_owner (h c)))). destruct (SaxToDomProof.tail_spec h1 c n) as (TK & TP & TI). fold (tail_of h1 c n) in TK, TP, TI.
  assert (K1 : forall j, n_kids (h1 j) = n_kids (h j)) by (intros j; unfold h1; rewrite (SaxToDomProof.upd_proj n_kids) by reflexivity; reflexivity).
  assert (C1 : h1 c = h c). { unfold h1, upd. assert (E : Nat.eqb c n = false) by (apply Nat.eqb_neq; auto). rewrite E. reflexivity. }
  assert (F : forall j, n_kind (h1 j) = n_kind (h j) /\ naming_of (h1 j) = naming_of (h j) /\ n_ro (h1 j) = n_ro (h j)).
  { intros j. unfold h1. rewrite (SaxToDomProof.upd_proj n_kind), (SaxToDomProof.upd_proj naming_of), (SaxToDomProof.upd_proj n_ro) by reflexivity. auto. }
  unfold h2, typed_doc. fold h1.
  split; [|split; [|split; [|split; [|split; [|split]]]]].
  - intros j. rewrite (SaxToDomProof.upd_proj n_kids) by reflexivity. rewrite TK, !K1. reflexivity.
  - intros j. rewrite (SaxToDomProof.upd_proj n_kind), (SaxToDomProof.upd_proj naming_of), (SaxToDomProof.upd_proj n_ro) by reflexivity.
    destruct (info_fields _ _ (TI j)) as (-> & -> & _ & ->). apply F.
  - rewrite (SaxToDomProof.upd_proj n_owner) by reflexivity. destruct (info_fields _ _ (TI c)) as (_ & _ & -> & _). rewrite C1. reflexivity.
  - rewrite (SaxToDomProof.upd_proj n_parent) by reflexivity. rewrite TP, Nat.eqb_refl. reflexivity.
  - rewrite (SaxToDomProof.upd_proj n_docel) by reflexivity. pose proof (SaxToDomProof.info_look _ _ (TI c)) as (_ & _ & -> & _). rewrite C1. reflexivity.
  - unfold upd. rewrite Nat.eqb_refl. reflexivity.
  - intros j J1 J2 J3. eapply same_trans; [|apply same_skip; assumption]. eapply same_trans; [apply (same_skip h j n (set_owner_f (n_owner (h c)))); assumption|].
    fold h1. apply tail_other; auto. rewrite K1. exact J3.
Qed.
Lemma dbuild_type : forall f s0 s d nm name, dbuild nm s0 s d [] [] [] ->
  exists s2, append (S (S f)) (fst (alloc s KDocType d (plain name))) d (s_next s) = Done s2 tt /\ dbuild name s0 s2 d [s_next s] [] [].
Proof.
  intros f s0 s d nm name B. assert (LT := db_lt _ _ _ _ _ _ _ B). apply (dbuild_later _ _ _ _ _ _ _ _ (alloc_untouched s KDocType d (plain name))) in B. set (s1 := fst (alloc s KDocType d (plain name))) in *.
  set (n := s_next s) in *. assert (E : s_heap s1 n = new_node n KDocType d (plain name)). { unfold s1, alloc, upd. cbn. fold n. rewrite Nat.eqb_refl. reflexivity. }
  destruct B. assert (NC : n <> d) by lia. unfold append. rewrite vappend_type; auto; try (rewrite E; reflexivity).
  set (h2 := typed_doc (s_heap s1) d n). exists (put_heap h2 s1). split; [reflexivity|]. destruct (typed_fields (s_heap s1) d n NC) as (TK & TF & TO & TP & TE & TD & TS). fold h2 in TK, TF, TO, TP, TE, TD, TS.
  destruct (TF d) as (D1 & D2 & D3). destruct (TF n) as (N1 & N2 & N3). rewrite db_list0 in TK, TS. cbn [app] in TK, TS.
  assert (SN : s_next s1 = S n) by reflexivity.
  assert (NN : n_name (h2 n) = nm_name (naming_of (h2 n))) by reflexivity.
  constructor; cbn [put_heap s_heap s_next]; try congruence.
  - destruct db_old0 as (U1 & U2 & U3). split; [exact U1|]. split; [exact U2|]. intros j J. destruct (U3 j J) as (V1 & V2). split; [|exact V2]. eapply same_trans; [exact V1|]. apply TS; [lia|lia|intros []].
  - rewrite TK, Nat.eqb_refl. reflexivity.
  - constructor; [lia|constructor].
  - constructor.
  - intros X. rewrite TE. auto.
  - intros c [].
  - exact TD.
  - constructor; [|constructor]. split; [rewrite N1, E; reflexivity|]. split; [rewrite NN, N2, E; reflexivity|exact TP].
  - exact db_ents0.
Qed.
Lemma import_all : forall nm f0 new ts ts', Forall2 (lens new no_entities f0) ts ts' ->
  forall f s0 s d pre ks l lk, (f0 <= f)%nat -> (2 <= f)%nat -> Forall (good Import) ts -> Forall (fun t => top_kind (kind t)) ts ->
  (length (filter is_element (ks ++ ts)) <= 1)%nat -> (d < s_next s0)%nat ->
  Forall2 (shows 0 s0 d None) ts (filter (fun c => negb (opt_eqb (Some c) (n_doctype (s_heap s0 d)))) lk) ->
  dbuild nm s0 s new pre ks l ->
  exists s' l', import_kids f s d new lk = Done s' tt /\ dbuild nm s0 s' new pre (ks ++ ts') (l ++ l').
Proof.
  intros nm f0 new ts ts' H f s0 s d pre ks l lk F0 F2. revert ts ts' H s ks l. induction lk as [|c lk IH]; intros ts ts' H s ks l G TK ONE LD SH B.
  - cbn [filter] in SH. inversion SH; subst. inversion H; subst. exists s, []. rewrite !app_nil_r. split; [reflexivity|exact B].
  - cbn [import_kids filter] in *. assert (DT : n_doctype (s_heap s d) = n_doctype (s_heap s0 d)).
    { destruct (db_old _ _ _ _ _ _ _ B) as (_ & _ & U). destruct (U d LD) as (A & _). apply same_fields in A. apply A. }
    rewrite DT. destruct (opt_eqb (Some c) (n_doctype (s_heap s0 d))); cbn [negb] in SH.
    + apply IH with ts; auto.
    + inversion SH as [|t ? ts1 ? ST SR]; subst. inversion H as [|? t' ? ts1' (BT & KT & NT) HR]; subst. inversion G as [|? ? G1 G2]; subst. inversion TK as [|? ? T1 T2]; subst.
      pose proof (db_old _ _ _ _ _ _ _ B) as U.
      destruct (BT f Import true s c d F0 G1 (db_ents _ _ _ _ _ _ _ B) (untouched_shows _ _ _ _ _ _ _ U ST)) as (s1 & i & E1 & M1). rewrite cut_deep in M1.
      assert (E1' : import_node f s new c true = Done s1 i) by exact E1. rewrite E1'. cbn [cbind].
      destruct f as [|[|f]]; try lia. assert (TK' : top_kind (kind t')) by (rewrite KT; exact T1).
      assert (IE : is_element t' = is_element t) by (unfold is_element; rewrite KT; reflexivity).
      assert (O1 : is_element t' = true -> filter is_element ks = []).
      { intros X. rewrite IE in X. rewrite filter_app, app_length in ONE. cbn [filter] in ONE. rewrite X in ONE. cbn [length] in ONE. destruct (filter is_element ks); [reflexivity|cbn in ONE; lia]. }
      destruct (dbuild_kid nm f s0 s s1 new pre ks l i t' B M1 TK' O1) as (s2 & E2 & B2). rewrite E2. cbn [cbind].
      assert (ONE' : (length (filter is_element ((ks ++ [t']) ++ ts1)) <= 1)%nat).
      { rewrite <- app_assoc. cbn [app]. rewrite !filter_app in *. cbn [filter] in *. rewrite IE. rewrite app_length in *. destruct (is_element t); exact ONE. }
      destruct (IH ts1 ts1' HR s2 (ks ++ [t']) (l ++ [i]) G2 T2 ONE' LD SR B2) as (s3 & l3 & E3 & B3).
      exists s3, (i :: l3). rewrite <- !app_assoc in B3. split; [exact E3|exact B3].
Qed.

Lemma others_build : forall nm s0 s d pre ks l, dbuild nm s0 s d pre ks l -> (length pre <= 1)%nat -> ~ In KDocType (map kind ks) -> others s d = l.
Proof.
  intros nm s0 s d pre ks l [] L NT. unfold others. rewrite db_list0, db_type0. rewrite filter_app.
  assert (A : forall o, (forall x, o = Some x -> n_kind (s_heap s x) = KDocType) -> filter (fun c => negb (opt_eqb (Some c) o)) l = l).
  { intros o O. clear db_list0 db_docel0 db_root0. induction db_kids0 as [|t c ks l [S1 S2] F IH]; [reflexivity|]. cbn [filter map In] in *. rewrite IH by tauto.
    destruct (opt_eqb (Some c) o) eqn:E; [|reflexivity]. exfalso. apply NT. left. rewrite <- (shows_kind _ _ _ _ _ _ S1). apply O. destruct o as [x|]; [|discriminate].
    cbn in E. apply Nat.eqb_eq in E. congruence. }
  destruct pre as [|x [|y pre]]; cbn [hd_error filter app] in *.
  - apply A. discriminate.
  - rewrite A; [|intros y E; injection E as <-; inversion db_named0 as [|? ? (T & _) _]; exact T]. cbn [opt_eqb]. rewrite Nat.eqb_refl. reflexivity.
  - cbn in L. lia.
Qed.
Lemma clone_document_ok : forall s d ts ts', (d < s_next s)%nat -> Forall2 (shows 0 s d None) ts (others s d) ->
  Forall (good Import) ts -> Forall (fun t => top_kind (kind t)) ts -> (length (filter is_element ts) <= 1)%nat -> all_copied no_entities ts ts' ->
  exists f0, forall f, (f0 <= f)%nat -> exists s' new, clone_document f s d true = Done s' new /\ twin s s' d new ts'.
Proof.
  intros s d ts ts' LD SH G TK ONE AC. set (new := s_next s).
  assert (LE : exists f0, Forall2 (lens new no_entities f0) ts ts').
  { clear SH G TK ONE. induction AC as [|t t' l l' C A (f0 & IH)]; [exists 0%nat; constructor|]. destruct (copy_all new no_entities t t' C) as (f1 & B). exists (f0 + f1)%nat. constructor.
    - split; [eapply body_up; [|exact B]; lia|]. eapply copied_shape; eauto.
    - eapply lens_up; [|exact IH]. lia. }
  destruct LE as (f0 & LE).
  assert (NT : ~ In KDocType (map kind ts')).
  { clear - LE TK. induction LE as [|t t' l l' (_ & K & _) H IH]; [intros []|]. inversion TK as [|? ? T1 T2]; subst. intros [X|X]; [|exact (IH T2 X)]. rewrite K in X. destruct T1 as [E|[E|E]]; congruence. }
  exists (S (S f0)). intros f F. destruct f as [|[|f]]; try lia. unfold clone_document.
  pose proof (dbuild_start (match n_doctype (s_heap s d) with Some y => n_name (s_heap s y) | None => [] end) s d) as B0. fold new in B0.
  change (alloc s KDocument d (plain [])) with (fst (alloc s KDocument d (plain [])), new).
  cbv iota zeta. set (s2 := bare new (fst (alloc s KDocument d (plain [])))) in *.
  assert (ST : exists s4 pre, match n_doctype (s_heap s d) with
         | None => Done s2 tt
         | Some t => let '(s3, dt) := alloc s2 KDocType new (plain (n_name (s_heap s t))) in append (S (S f)) s3 new dt
         end = Done s4 tt /\ dbuild (match n_doctype (s_heap s d) with Some y => n_name (s_heap s y) | None => [] end) s s4 new pre [] [] /\
         length pre = match n_doctype (s_heap s d) with Some _ => 1%nat | None => 0%nat end).
  { destruct (n_doctype (s_heap s d)) as [y|].
    - destruct (dbuild_type f s s2 new _ (n_name (s_heap s y)) B0) as (s4 & E4 & B4). exists s4, [s_next s2]. split; [exact E4|]. split; [exact B4|reflexivity].
    - exists s2, []. split; [reflexivity|]. split; [exact B0|reflexivity]. }
  destruct ST as (s4 & pre & E4 & B4 & LP). rewrite E4. cbn [cbind].
  destruct (import_all _ f0 new ts ts' LE (S (S f)) s s4 d pre [] [] (n_kids (s_heap s d)) ltac:(lia) ltac:(lia) G TK ONE LD SH B4) as (s5 & l & E5 & B5).
  rewrite E5. cbn [cbind app] in *. exists s5, new. split; [reflexivity|].
  assert (L1 : (length pre <= 1)%nat) by (rewrite LP; destruct (n_doctype (s_heap s d)); lia).
  pose proof (others_build _ _ _ _ _ _ _ B5 L1 NT) as OB. destruct B5. constructor; rewrite ?OB; auto.
  - eapply f2_impl; [|exact db_kids0]. intros t c [S1 S2]. split; [|exact S2]. eapply shows_low; [|exact S1]. apply Nat.le_succ_diag_r.
  - intros c I K. rewrite db_list0 in I. apply in_app_or in I. destruct I as [I|I]; [|apply db_root0; assumption]. rewrite Forall_forall in db_named0. destruct (db_named0 c I) as (X & _). congruence.
  - destruct (n_doctype (s_heap s d)) as [y|].
    + destruct pre as [|y' [|? ?]]; try discriminate. exists y'. split; [exact db_type0|]. split; [exact db_list0|]. inversion db_named0; assumption.
    + destruct pre; [exact db_type0|discriminate].
Qed.

Lemma whole_copied : forall defn t, whole defn t -> copied defn t t.
Proof.
  intros defn. induction t as [k nm sp atts kids IA IK] using tree_ind2. cbn [whole]. intros (-> & WA & WK & C). rewrite every_Forall in WA, WK.
  assert (L : forall l, Forall (fun t => whole defn t -> copied defn t t) l -> Forall (whole defn) l -> all_copied defn l l /\ filter specified l = l).
  { induction l as [|t l IH]; intros H W; [split; [constructor|reflexivity]|]. inversion H; subst. inversion W as [|? ? W1 W2]; subst. destruct (IH H3 W2) as [I1 I2].
    split; [constructor; auto|]. cbn [filter]. destruct t as [k' nm' sp' a' k'']. cbn in W1. destruct W1 as (-> & _). cbn [specified]. rewrite I2. reflexivity. }
  destruct (L atts IA WA) as [A1 A2]. destruct (L kids IK WK) as [K1 _].
  destruct k; try contradiction.
  all: try (destruct C as [C1 C2]; subst atts kids; apply copied_leaf; auto; fail).
  all: try (subst atts; constructor; exact K1).
  all: try (apply copied_element; [rewrite A2|]; assumption).
  destruct C as [C1 C2]. subst atts. apply copied_ref. rewrite <- C2. exact K1.
Qed.
Lemma copy_ok : forall d defn t t', copied defn t t' -> exists f0, forall f w deep s n d0, (f0 <= f)%nat -> good w t -> defines s d defn -> shows 0 s d0 None t n ->
  exists s' i, copy_node f w d deep s n = Done s' i /\ made s s' d i (cut deep t').
Proof. exact copy_all. Qed.
Lemma import_ok : forall d defn t t', copied defn t t' -> good Import t -> exists f0, forall f deep s n d0, (f0 <= f)%nat -> defines s d defn -> shows 0 s d0 None t n ->
  exists s' i, import_node f s d n deep = Done s' i /\ made s s' d i (cut deep t').
Proof. intros d defn t t' C G. destruct (copy_ok d defn t t' C) as (f0 & H). exists f0. intros. eapply H; eauto. Qed.
Lemma clone_ok : forall d defn t t', copied defn t t' -> good Clone t -> exists f0, forall f deep s n, (f0 <= f)%nat -> defines s d defn -> shows 0 s d None t n ->
  exists s' i, clone_node f s n deep = Done s' i /\ made s s' d i (cut deep t').
Proof.
  intros d defn t t' C G. destruct (copy_ok d defn t t' C) as (f0 & H). exists f0. intros f deep s n F D S0. unfold clone_node. rewrite (shows_owner _ _ _ _ _ _ S0). eapply H; eauto.
Qed.
