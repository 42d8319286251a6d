(** Proofs about filters above readers. *)
From Coq Require Import String.
From Verif.Model Require Import Base Containers FilterChain.
From Verif.Spec Require Import FilterChainSpec.
From Verif.Proof Require Import ContainersProof UriProof.
From Coq Require Import List Bool ZArith Lia Sorted.
Import ListNotations.

Lemma put_same : forall h a o, put h a o a = o.
Proof. intros. unfold put. rewrite Nat.eqb_refl. reflexivity. Qed.
Lemma put_other : forall h a o b, b <> a -> put h a o b = h b.
Proof. intros h a o b N. unfold put. apply Nat.eqb_neq in N. rewrite N. reflexivity. Qed.

(** * Chains *)
Lemma above_fun : forall h a l b r, above h a l b r -> forall l' b' r', above h a l' b' r' -> l' = l /\ b' = b /\ r' = r.
Proof.
  induction 1 as [b r E|a p s fs b r E H IH]; intros l' b' r' H'; inversion H'; subst; try congruence.
  - split; [reflexivity|]. split; [reflexivity|]. congruence.
  - rewrite E in H0. injection H0 as <- <-. destruct (IH _ _ _ H1) as (-> & -> & ->). auto.
Qed.
Lemma above_in : forall h a l b r, above h a l b r -> forall x, In x l -> exists l', above h x (x :: l') b r /\ (length l' < length l)%nat.
Proof.
  induction 1 as [b r E|a p s fs b r E H IH]; intros x I; [destruct I|]. destruct I as [<-|I].
  - exists fs. split; [econstructor; eauto|cbn; lia].
  - destruct (IH _ I) as (l' & H' & L). exists l'. split; [exact H'|cbn; lia].
Qed.
Lemma above_nodup : forall h a l b r, above h a l b r -> NoDup l.
Proof.
  induction 1 as [b r E|a p s fs b r E H IH]; constructor; [|exact IH]. intros I. destruct (above_in _ _ _ _ _ H _ I) as (l' & H' & L).
  assert (Q : above h a (a :: fs) b r) by (econstructor; eauto). destruct (above_fun _ _ _ _ _ H' _ _ _ Q) as (E' & _ & _).
  injection E' as <-. lia.
Qed.
Lemma above_base : forall h a l b r, above h a l b r -> h b = FilterChain.Base r /\ ~ In b l.
Proof.
  induction 1 as [b r E|a p s fs b r E H IH]; [auto|]. destruct IH as [B N]. split; [exact B|]. intros [<-|I]; [congruence|auto].
Qed.
Lemma above_put : forall h a l b r r', above h a l b r -> above (put h b (FilterChain.Base r')) a l b r'.
Proof.
  induction 1 as [b r E|a p s fs b r E H IH]; [constructor; apply put_same|].
  destruct (above_base _ _ _ _ _ H) as [B _]. econstructor; [rewrite put_other by congruence; exact E|exact IH].
Qed.

(** * Features *)
Lemma get_above : forall h a l b r n, above h a l b r -> forall f, (length l < f)%nat -> get_feature f h a n = Val (reader_get r n).
Proof.
  induction 1 as [b r E|a p s fs b r E H IH]; intros f L; (destruct f as [|f]; [cbn in L; lia|]); cbn [get_feature]; rewrite E; [reflexivity|].
  apply IH. cbn in L. lia.
Qed.
Lemma set_above : forall h a l b r n v, above h a l b r -> forall f, (length l < f)%nat ->
  set_feature f h a n v = Val match reader_set r n v with inl r => inl (put h b (FilterChain.Base r)) | inr x => inr x end.
Proof.
  induction 1 as [b r E|a p s fs b r E H IH]; intros f L; (destruct f as [|f]; [cbn in L; lia|]); cbn [set_feature]; rewrite E; [reflexivity|].
  apply IH. cbn in L. lia.
Qed.
Lemma set_get : forall r n v r', reader_set r n v = inl r' -> reader_get r' n = inl v.
Proof.
  intros r n v r' E. unfold reader_set in E. unfold reader_get.
  destruct (str_eqb n namespaces_name); [destruct (r_parsing r); [discriminate|]; injection E as <-; reflexivity|].
  destruct (str_eqb n prefixes_name); [destruct (r_parsing r); [discriminate|]; injection E as <-; reflexivity|].
  destruct (str_eqb n general_name || str_eqb n parameter_name); [destruct (r_parsing r); [discriminate|]; injection E as <-; reflexivity|].
  destruct (str_eqb n validation_name); discriminate.
Qed.
Lemma feature_lemma : forall h a l b r n v a' l', above h a l b r -> above h a' l' b r -> r_parsing r = false ->
  In n [namespaces_name; prefixes_name; general_name; parameter_name] -> forall f, (length l < f)%nat -> exists h',
  set_feature f h a n v = Val (inl h') /\ (forall f', (length l' < f')%nat -> get_feature f' h' a' n = Val (inl v)) /\ forall x, x <> b -> h' x = h x.
Proof.
  intros h a l b r n v a' l' H H' P I f L. rewrite (set_above _ _ _ _ _ n v H f L).
  assert (Q : exists r', reader_set r n v = inl r').
  { unfold reader_set. rewrite P. destruct I as [<-|[<-|[<-|[<-|[]]]]]; vm_compute; eexists; reflexivity. }
  destruct Q as [r' Q]. rewrite Q. eexists. split; [reflexivity|]. split.
  - intros f' L'. rewrite (get_above _ _ _ _ _ n (above_put _ _ _ _ _ r' H') f' L'). rewrite (set_get _ _ _ _ Q). reflexivity.
  - intros x N. apply put_other, N.
Qed.
Lemma parsing_lemma : forall h a l b r n v f, above h a l b r -> r_parsing r = true -> (length l < f)%nat ->
  exists x, set_feature f h a n v = Val (inr x).
Proof.
  intros h a l b r n v f H P L. rewrite (set_above _ _ _ _ _ n v H f L). unfold reader_set. rewrite P.
  repeat (match goal with |- context [if ?c then _ else _] => destruct c end); eexists; reflexivity.
Qed.

(** * Handlers *)
Definition set_up (o : object) (x : handler) (o' : object) : Prop :=
  match o, o' with
  | Filter p _, Filter p' s' => p' = p /\ forall k, s' k = x
  | FilterChain.Base r, FilterChain.Base r' =>
      (forall k, r_slots r' k = Some x) /\ same_features r r' /\ r_parsing r' = r_parsing r /\ r_library r' = r_library r
  | _, _ => False
  end.
Lemma set_up_again : forall o x o', set_up o x o' -> set_up o' x o'.
Proof. intros [p s|r] x [p' s'|r']; unfold set_up; try tauto. intros (A & _). repeat split; auto. Qed.
Lemma setup_spec : forall h a p, set_up (h p) (AFilter a) (setup h a p p) /\ forall x, x <> p -> setup h a p x = h x.
Proof.
  intros h a p. split.
  - unfold setup. cbn [fold_left]. unfold set_slot. rewrite !put_same. destruct (h p) as [q s|r]; cbn.
    + split; [reflexivity|]. destruct k; reflexivity.
    + split; [destruct k; reflexivity|]. repeat split.
  - intros x N. unfold setup. cbn [fold_left]. unfold set_slot. rewrite !(put_other _ p) by exact N. reflexivity.
Qed.
Section Told.
Context (throws : nat -> event -> bool).
(** What an object makes of an event: a reader tells its handler, a filter is told it. *)
Lemma parse_filter : forall f h a p s d, h a = Filter (Some p) s -> parse throws (S f) h a d = parse throws f (setup h a p) p d.
Proof. intros f h a p s d E. cbn [parse]. rewrite E. reflexivity. Qed.
Lemma parse_reader : forall f h a r d, h a = FilterChain.Base r -> parse throws (S f) h a d = reader_parse throws (S f) h a r d.
Proof. intros f h a r d E. cbn [parse]. rewrite E. reflexivity. Qed.
Lemma above_setup : forall h a p fs b r x, above h p fs b r -> ~ In a fs -> a <> b -> x = a ->
  exists r', above (setup h a p) p fs b r' /\ same_features r r' /\ r_parsing r' = r_parsing r /\ r_library r' = r_library r.
Proof.
  intros h a p fs b r x H N NB _. destruct (setup_spec h a p) as [U O]. destruct H as [b r E|p q s fs b r E H].
  - rewrite E in U. unfold set_up in U. destruct (setup h a b b) as [|r'] eqn:E'; [destruct U|]. exists r'. destruct U as (_ & F & P & L).
    split; [constructor; exact E'|]. auto.
  - rewrite E in U. unfold set_up in U. destruct (setup h a p p) as [q' s'|] eqn:E'; [|destruct U]. destruct U as [-> _].
    exists r. split; [|repeat split]. econstructor; [exact E'|].
    assert (NP : ~ In p fs). { pose proof (above_nodup h p (p :: fs) b r ltac:(econstructor; eauto)) as D. inversion D; assumption. }
    assert (BP : b <> p). { destruct (above_base _ _ _ _ _ H) as [B _]. congruence. }
    clear - H NP BP O. induction H as [b r E|q p' s fs b r E H IH]; [constructor; rewrite O by congruence; exact E|].
    econstructor; [rewrite O; [exact E|]|apply IH].
    + intros ->. apply NP. left. reflexivity.
    + intros I. apply NP. right. exact I.
    + exact BP.
Qed.
(** The heap in which the reader at the end tells: its way back up to [top], whose handlers are [s]. *)
Inductive leads (h : heap) (s : kind -> handler) : handler -> list nat -> Prop :=
  | L_top : forall a p, h a = Filter p s -> leads h s (AFilter a) [a]
  | L_next : forall a p s' x path, h a = Filter p s' -> (forall k, s' k = x) -> leads h s x path -> leads h s (AFilter a) (a :: path).
Lemma dispatch_leads : forall h s x path, leads h s x path -> plain s -> forall f e, (length path <= f)%nat ->
  dispatch throws f h x e = Val (goes path s e, upset throws s e).
Proof.
  intros h s x path H P. induction H as [a p E|a p s' x path E A H IH]; intros f e L; (destruct f as [|f]; [cbn in L; lia|]); cbn [dispatch]; rewrite E.
  - specialize (P (kind_of e)). unfold goes, upset. destruct (s (kind_of e)); [destruct P| |]; destruct f; reflexivity.
  - rewrite A, IH by (cbn in L; lia). reflexivity.
Qed.
Lemma leads_put : forall h s x path b r r', leads h s x path -> h b = FilterChain.Base r -> leads (put h b (FilterChain.Base r')) s x path.
Proof.
  intros h s x path b r r' H B. induction H as [a p E|a p s' x path E A H IH].
  - econstructor. rewrite put_other by congruence. exact E.
  - econstructor; [rewrite put_other by congruence; exact E|exact A|exact IH].
Qed.
Lemma leads_in : forall h s x path y, leads h s x path -> In y path -> exists p s', h y = Filter p s'.
Proof. intros h s x path y H. induction H as [a p E|a p s' x path E A H IH]; intros [<-|I]; eauto. destruct I. Qed.
Lemma leads_setup : forall h s x path a p, leads h s x path -> ~ In p path -> leads (setup h a p) s x path.
Proof.
  intros h s x path a p H N. destruct (setup_spec h a p) as [_ O]. induction H as [q p' E|q p' s' x path E A H IH].
  - econstructor. rewrite O; [exact E|]. intros ->. apply N. left. reflexivity.
  - econstructor; [rewrite O; [exact E|]|exact A|apply IH].
    + intros ->. apply N. left. reflexivity.
    + intros I. apply N. right. exact I.
Qed.
(** The reader, told through: emit is what goes. *)
Lemma emit_all_until : forall f h r s path, (forall e, emit throws f h r e = Val (goes path s e, upset throws s e)) -> forall l,
  emit_all throws f h r l = Val (flat_map (goes path s) (until (upset throws s) l), existsb (upset throws s) l).
Proof.
  intros f h r s path E. induction l as [|e l IH]; [reflexivity|]. cbn [emit_all until flat_map existsb]. rewrite E. cbn [obind].
  destruct (upset throws s e); [cbn; rewrite app_nil_r; reflexivity|]. rewrite IH. reflexivity.
Qed.
Lemma until_app : forall p l k, until p (l ++ k) = if existsb p l then until p l else l ++ until p k.
Proof. induction l as [|e l IH]; intros k; [reflexivity|]. cbn. destruct (p e); [reflexivity|]. cbn. rewrite IH. destruct (existsb p l); reflexivity. Qed.
Lemma until_all : forall p l, existsb p l = false -> until p l = l.
Proof. induction l as [|e l IH]; intros E; [reflexivity|]. cbn in *. destruct (p e); [discriminate|]. rewrite IH by exact E. reflexivity. Qed.
Lemma reader_told : forall f h b r s path d, (forall e, emit throws f h r e = Val (goes path s e, upset throws s e)) -> r_library r = Fresh ->
  exists r', reader_parse throws f h b r d =
    Val (if upset throws s LocatorSet then h else put h b (FilterChain.Base r'),
         flat_map (goes path s) (until (upset throws s) (whole d)), existsb (upset throws s) (whole d)) /\
    same_features r r' /\ r_slots r' = r_slots r /\ (existsb (upset throws s) (whole d) = false -> ready r').
Proof.
  intros f h b r s path d E F. unfold reader_parse, whole. rewrite F, !E. cbn [obind].
  set (evs := map (fun p => Said (fst p) (snd p)) (d_events d)). cbn [until existsb flat_map].
  destruct (upset throws s LocatorSet) eqn:U1.
  { exists r. cbn. rewrite app_nil_r. split; [reflexivity|]. repeat split; discriminate. }
  cbn [obind orb]. destruct (upset throws s DocStart) eqn:U2.
  { eexists. cbn [obind orb flat_map]. rewrite app_nil_r. split; [reflexivity|]. repeat split; discriminate. }
  cbn [obind orb]. rewrite (emit_all_until _ _ _ _ _ E). cbn [obind]. rewrite until_app, existsb_app.
  destruct (existsb (upset throws s) evs) eqn:U3.
  { eexists. cbn [orb flat_map]. split; [reflexivity|]. repeat split; discriminate. }
  rewrite (until_all _ evs U3). cbn [orb]. cbn [existsb until app orb obind flat_map]. destruct (d_broken d).
  - cbn [obind until existsb app flat_map orb]. destruct (upset throws s Fatal) eqn:U4.
    + eexists. cbn [orb]. split; [rewrite ?flat_map_app; cbn [flat_map]; rewrite !app_nil_r; reflexivity|]. repeat split; discriminate.
    + cbn [orb]. rewrite orb_false_r. rewrite !flat_map_app. destruct (upset throws s DocEnd) eqn:U5; cbn [flat_map]; rewrite !app_nil_r;
        (eexists; split; [reflexivity|]); repeat split; discriminate.
  - cbn [obind until existsb app flat_map orb]. rewrite orb_false_r, !flat_map_app. cbn [app]. destruct (upset throws s DocEnd) eqn:U5; cbn [flat_map]; rewrite ?app_nil_r;
        (eexists; split; [reflexivity|]); repeat split; discriminate.
Qed.
(** Down from a filter that has already been wired to [top]. *)
Lemma parse_down : forall fs h p b r x path s, above h p fs b r -> leads h s (AFilter x) path -> plain s -> ~ In p path ->
  (forall y, In y fs -> ~ In y path) -> r_library r = Fresh -> set_up (h p) (AFilter x) (h p) -> forall f d,
  (length fs + length fs + length path < f)%nat -> exists h' r',
  parse throws f h p d = Val (h', flat_map (goes (rev fs ++ path) s) (until (upset throws s) (whole d)), existsb (upset throws s) (whole d)) /\
  above h' p fs b r' /\ same_features r r' /\ (existsb (upset throws s) (whole d) = false -> ready r') /\
  (forall y, ~ In y fs -> y <> b -> h' y = h y).
Proof.
  induction fs as [|p0 fs IH]; intros h p b r x path s H L PL NP NF F U f d Lf; (destruct f as [|f]; [cbn in Lf; lia|]).
  - inversion H; subst. rewrite (parse_reader _ _ _ _ _ H0). assert (U0 := U). rewrite H0 in U0. cbn in U0. destruct U0 as (SL & _).
    destruct (reader_told (S f) h b r s path d) as (r' & E & SF & SS & RR); [|exact F|].
    + intros e. unfold emit. rewrite SL. apply dispatch_leads; [exact L|exact PL|cbn in Lf; lia].
    + rewrite E. cbn [rev app]. destruct (upset throws s LocatorSet) eqn:U1.
      * exists h, r. split; [reflexivity|]. split; [exact H|]. split; [repeat split|]. split; [|auto]. intros Q. unfold whole in Q. cbn in Q. rewrite U1 in Q. discriminate.
      * eexists _, r'. split; [reflexivity|]. split; [exact (above_put _ _ _ _ _ r' H)|]. split; [exact SF|]. split; [exact RR|].
        intros y _ N. apply put_other, N.
  - inversion H as [|a q s0 fs' b' r0 E H1]; subst. rewrite (parse_filter _ _ _ _ _ d E).
    assert (ND := above_nodup _ _ _ _ _ H). inversion ND as [|? ? N1 N2]; subst.
    assert (NB : p0 <> b). { destruct (above_base _ _ _ _ _ H) as [_ N]. intros ->. apply N. left. reflexivity. }
    destruct (above_setup h p0 q fs b r p0 H1 N1 NB eq_refl) as (r1 & H2 & SF1 & _ & LB1).
    assert (NQ : q <> p0). { intros ->. destruct (above_in _ _ _ _ _ H p0 ltac:(left; reflexivity)) as (l' & A1 & A2).
      destruct (above_fun _ _ _ _ _ H1 _ _ _ H) as (Q & _). apply (f_equal (@length nat)) in Q. cbn in Q. lia. }
    assert (NQP : ~ In q path).
    { inversion H1; subst; [|apply NF; right; left; reflexivity].
      intros I. destruct (leads_in _ _ _ _ _ L I) as (p1 & s1 & E1). congruence. }
    assert (Sp := setup_spec h p0 q). destruct Sp as [US UO].
    destruct (IH (setup h p0 q) q b r1 p0 (p0 :: path) s H2) with (f := f) (d := d) as (h' & r' & E' & A' & SF' & RD' & O').
    + rewrite E in U. cbn in U. destruct U as [_ U]. apply L_next with (p := Some q) (s' := s0) (x := AFilter x); [rewrite UO by congruence; exact E|exact U|].
      apply leads_setup; [exact L|exact NQP].
    + exact PL.
    + intros [I|I]; [congruence|exact (NQP I)].
    + intros y I [<-|J]; [exact (N1 I)|]. exact (NF y (or_intror I) J).
    + congruence.
    + exact (set_up_again _ _ _ US).
    + cbn in Lf |- *. lia.
    + exists h', r'. rewrite E'. cbn [rev]. rewrite <- app_assoc. cbn [app]. split; [reflexivity|].
      split. { econstructor; [|exact A']. rewrite O'; [rewrite UO by congruence; exact E|exact N1|exact NB]. }
      split. { unfold same_features in *. intuition congruence. }
      split; [exact RD'|]. intros y Ny NB'. rewrite O'; [|intros I; apply Ny; right; exact I|exact NB'].
      apply UO. intros ->. inversion H1; subst; [congruence|]. apply Ny. right. left. reflexivity.
Qed.
Lemma delivered_lemma : forall h a fs b r p s d, above h a (a :: fs) b r -> h a = Filter p s -> plain s -> r_library r = Fresh ->
  forall f, (2 * length (a :: fs) < f)%nat -> exists h' r',
  parse throws f h a d = Val (h', flat_map (goes (rev (a :: fs)) s) (until (upset throws s) (whole d)), existsb (upset throws s) (whole d)) /\
  above h' a (a :: fs) b r' /\ h' a = h a /\ same_features r r' /\ (existsb (upset throws s) (whole d) = false -> ready r') /\
  (forall y, ~ In y (a :: fs) -> y <> b -> h' y = h y).
Proof.
  intros h a fs b r p s d H E PL F f Lf. inversion H as [|a0 q s0 fs' b' r0 E0 H1]; subst. rewrite E in E0. injection E0 as -> <-.
  destruct f as [|f]; [cbn in Lf; lia|]. rewrite (parse_filter _ _ _ _ _ d E).
  assert (ND := above_nodup _ _ _ _ _ H). inversion ND as [|? ? N1 N2]; subst.
  assert (NB : a <> b). { destruct (above_base _ _ _ _ _ H) as [_ N]. intros ->. apply N. left. reflexivity. }
  destruct (above_setup h a q fs b r a H1 N1 NB eq_refl) as (r1 & H2 & SF1 & _ & LB1).
  assert (NQ : q <> a). { intros ->. destruct (above_fun _ _ _ _ _ H1 _ _ _ H) as (Q & _). apply (f_equal (@length nat)) in Q. cbn in Q. lia. }
  destruct (setup_spec h a q) as [US UO].
  destruct (parse_down fs (setup h a q) q b r1 a [a] s H2) with (f := f) (d := d) as (h' & r' & E' & A' & SF' & RD' & O').
  - econstructor. rewrite UO by congruence. exact E.
  - exact PL.
  - intros [I|[]]. congruence.
  - intros y I [<-|[]]. exact (N1 I).
  - congruence.
  - exact (set_up_again _ _ _ US).
  - cbn in Lf |- *. lia.
  - exists h', r'. assert (EA : h' a = h a). { rewrite O'; [apply UO; congruence|exact N1|exact NB]. }
    cbn [rev]. split; [exact E'|]. split. { econstructor; [|exact A']. rewrite EA. exact E. }
    split; [exact EA|]. split. { unfold same_features in *. intuition congruence. }
    split; [exact RD'|]. intros y Ny NB'. rewrite O'; [|intros I; apply Ny; right; exact I|exact NB'].
    apply UO. intros ->. inversion H1; subst; [congruence|]. apply Ny. right. left. reflexivity.
Qed.
End Told.

(** * Histories *)
Section History.
Context (throws : nat -> event -> bool).
Lemma ready_put : forall h a r, all_ready h -> ready r -> all_ready (put h a (FilterChain.Base r)).
Proof. intros h a r A R x r0. unfold put. destruct (Nat.eqb x a); [intros Q; injection Q as <-; exact R|apply A]. Qed.
Lemma ready_filter : forall h a p s, all_ready h -> all_ready (put h a (Filter p s)).
Proof. intros h a p s A x r0. unfold put. destruct (Nat.eqb x a); [discriminate|apply A]. Qed.
Lemma ready_slot : forall h a k x, all_ready h -> all_ready (set_slot h a k x).
Proof.
  intros h a k x A. unfold set_slot. destruct (h a) as [p s|r] eqn:E; [apply ready_filter, A|]. apply ready_put; [exact A|].
  destruct (A _ _ E) as [P L]. split; assumption.
Qed.
Lemma ready_setup : forall h a p, all_ready h -> all_ready (setup h a p).
Proof. intros h a p A. unfold setup. cbn [fold_left]. repeat apply ready_slot. exact A. Qed.
Lemma ready_reader : forall f h a r d h' l, all_ready h -> reader_parse throws f h a r d = Val (h', l, false) -> all_ready h'.
Proof.
  intros f h a r d h' l A E. unfold reader_parse in E.
  repeat (match type of E with
          | obind ?o _ = Val _ => destruct o as [[? t]| |]; cbn [obind] in E; [destruct t; [try discriminate|]|discriminate|discriminate]
          end).
  injection E as <- _. apply ready_put; [exact A|]. split; reflexivity.
Qed.
Lemma ready_parse : forall f h a d h' l, all_ready h -> parse throws f h a d = Val (h', l, false) -> all_ready h'.
Proof.
  induction f as [|f IH]; intros h a d h' l A E; [discriminate|]. cbn [parse] in E. destruct (h a) as [[p|] s|r] eqn:Ha; [|discriminate|].
  - exact (IH _ _ _ _ _ (ready_setup _ a p A) E).
  - exact (ready_reader _ _ _ _ _ _ _ A E).
Qed.
Lemma ready_feature : forall f h a n v h', all_ready h -> set_feature f h a n v = Val (inl h') -> all_ready h'.
Proof.
  induction f as [|f IH]; intros h a n v h' A E; [discriminate|]. cbn [set_feature] in E. destruct (h a) as [[p|] s|r] eqn:Ha; [|discriminate|].
  - exact (IH _ _ _ _ _ A E).
  - destruct (reader_set r n v) as [r'|] eqn:S; [|discriminate]. injection E as <-. apply ready_put; [exact A|].
    destruct (A _ _ Ha) as [P L]. unfold reader_set in S. rewrite P in S.
    repeat (match type of S with (if ?c then _ else _) = _ => destruct c end); try discriminate; injection S as <-; split; solve [assumption|reflexivity].
Qed.
Lemma ready_lemma : forall h l h', all_ready h -> history throws h l h' -> all_ready h'.
Proof.
  intros h l h' A H. induction H as [h|h c h' l h'' C H IH]; [exact A|]. apply IH. clear IH H. destruct C.
  - apply ready_put; [exact A|split; reflexivity].
  - apply ready_filter, A.
  - unfold set_parent. destruct (h a) as [q s|r] eqn:E; [apply ready_filter, A|]. apply ready_put; [exact A|exact (A _ _ E)].
  - apply ready_slot, A.
  - exact (ready_feature _ _ _ _ _ _ A H).
  - exact A.
  - exact (ready_parse _ _ _ _ _ _ A H).
Qed.
End History.

(** * The features of a DOM parser *)
Definition later (x y : str * bool) : Prop := str_ltb (fst x) (fst y) = true.
Lemma set_in : forall k v (m : wishes) x, In x (map_set k v m) -> fst x = k \/ In x m.
Proof.
  induction m as [|[k' v'] m IH]; intros x I; cbn [map_set] in I; [destruct I as [<-|[]]; auto|].
  destruct (str_eqb k' k) eqn:E; [|destruct (str_ltb k k')].
  - apply str_eqb_true in E. subst k'. destruct I as [<-|I]; [auto|]. right. right. exact I.
  - destruct I as [<-|I]; auto.
  - destruct I as [<-|I]; [right; left; reflexivity|]. destruct (IH _ I); [auto|]. right. right. assumption.
Qed.
Lemma set_sorted : forall k v (m : wishes), StronglySorted later m -> StronglySorted later (map_set k v m).
Proof.
  induction m as [|[k' v'] m IH]; intros S; cbn [map_set]; [repeat constructor|]. inversion S as [|? ? S1 F]; subst.
  destruct (str_eqb k' k) eqn:E; [|destruct (str_ltb k k') eqn:L].
  - constructor; [exact S1|]. exact F.
  - constructor; [exact S|]. constructor; [exact L|]. eapply Forall_impl; [|exact F]. intros y Y. unfold later in *. cbn in *. exact (str_ltb_trans _ _ _ L Y).
  - constructor; [exact (IH S1)|]. apply Forall_forall. intros x I. destruct (set_in _ _ _ _ I) as [Ex|I'].
    + unfold later. cbn. rewrite Ex. destruct (str_ltb k' k) eqn:L'; [reflexivity|]. pose proof (str_ltb_total _ _ L L') as Q. subst k'. rewrite str_eqb_refl in E. discriminate.
    + rewrite Forall_forall in F. exact (F _ I').
Qed.
Definition about (x : str * bool) : bool := str_eqb (fst x) namespaces_name || str_eqb (fst x) prefixes_name.
Definition change (k : str) (v : bool) (x : str * bool) : str * bool := if str_eqb (fst x) k then (fst x, v) else x.
Lemma change_none : forall k v (m : wishes), ~ In k (map fst m) -> map (change k v) m = m.
Proof.
  induction m as [|[k' v'] m IH]; intros N; [reflexivity|]. cbn. unfold change at 1. cbn. destruct (str_eqb k' k) eqn:E.
  - apply str_eqb_true in E. subst. exfalso. apply N. left. reflexivity.
  - rewrite IH; [reflexivity|]. intros I. apply N. right. exact I.
Qed.
Lemma sorted_head : forall k v (m : wishes), StronglySorted later ((k, v) :: m) -> ~ In k (map fst m).
Proof.
  intros k v m S I. inversion S as [|? ? _ F]; subst. apply in_map_iff in I. destruct I as ([k' v'] & E & I). cbn in E. subst k'.
  rewrite Forall_forall in F. specialize (F _ I). unfold later in F. cbn in F. rewrite str_ltb_irrefl in F. discriminate.
Qed.
Lemma set_change : forall k v (m : wishes), StronglySorted later m -> In k (map fst m) -> map_set k v m = map (change k v) m.
Proof.
  induction m as [|[k' v'] m IH]; intros S I; [destruct I|]. cbn [map_set map]. unfold change at 1. cbn [fst].
  destruct (str_eqb k' k) eqn:E.
  - apply str_eqb_true in E. subst k'. rewrite change_none; [reflexivity|]. exact (sorted_head _ _ _ S).
  - inversion S as [|? ? S1 F]; subst. destruct I as [I|I]; [cbn in I; subst; rewrite str_eqb_refl in E; discriminate|].
    destruct (str_ltb k k') eqn:L.
    + exfalso. apply in_map_iff in I. destruct I as ([k2 v2] & E2 & I). cbn in E2. subst k2. rewrite Forall_forall in F. specialize (F _ I). unfold later in F. cbn in F.
      rewrite (str_ltb_asym _ _ L) in F. discriminate.
    + rewrite IH by assumption. reflexivity.
Qed.
Lemma set_other : forall k v (m : wishes), about (k, v) = false -> filter about (map_set k v m) = filter about m.
Proof.
  intros k v m N. assert (N' : forall v', about (k, v') = false) by (intros v'; exact N).
  induction m as [|[k' v'] m IH]; cbn [map_set filter]; [rewrite N; reflexivity|]. destruct (str_eqb k' k) eqn:E; [|destruct (str_ltb k k')].
  - apply str_eqb_true in E. subst k'. cbn [filter]. rewrite !N'. reflexivity.
  - cbn [filter]. rewrite N. reflexivity.
  - cbn [filter]. rewrite IH. reflexivity.
Qed.
Lemma filter_change : forall k v (m : wishes), filter about (map (change k v) m) = map (change k v) (filter about m).
Proof.
  induction m as [|[k' v'] m IH]; [reflexivity|]. cbn [map filter].
  assert (E : about (change k v (k', v')) = about (k', v')) by (unfold change; cbn; destruct (str_eqb k' k); reflexivity).
  rewrite E. destruct (about (k', v')); cbn [map]; rewrite IH; reflexivity.
Qed.
Definition kept (w : wishes) (n p : bool) : Prop := StronglySorted later w /\ filter about w = [(prefixes_name, p); (namespaces_name, n)].
Lemma names_differ : str_eqb namespaces_name prefixes_name = false /\ str_eqb prefixes_name namespaces_name = false.
Proof. split; vm_compute; reflexivity. Qed.
Lemma kept_wish : forall w n p k v, kept w n p -> kept (wish w k v) (if str_eqb k namespaces_name then v else n) (if str_eqb k prefixes_name then v else p).
Proof.
  intros w n p k v [S F]. destruct names_differ as [D1 D2]. unfold wish. split; [apply set_sorted, S|].
  destruct (about (k, v)) eqn:A.
  - rewrite set_change; [|exact S|].
    + rewrite filter_change, F. cbn [map]. unfold change. cbn [fst]. unfold about in A. cbn [fst] in A.
      destruct (str_eqb k namespaces_name) eqn:E1.
      * apply str_eqb_true in E1. subst k. rewrite D1, D2, str_eqb_refl. reflexivity.
      * cbn [fst orb] in A. rewrite A. apply str_eqb_true in A. subst k. rewrite D1, str_eqb_refl. reflexivity.
    + assert (Q : In k (map fst (filter about w))).
      { rewrite F. unfold about in A. cbn [fst orb] in A. apply orb_true_iff in A. destruct A as [A|A]; apply str_eqb_true in A; subst k; cbn [map fst In]; auto. }
      apply in_map_iff in Q. destruct Q as (x & <- & I). apply filter_In in I. apply in_map, I.
  - rewrite set_other by exact A. unfold about in A. cbn [fst orb] in A. apply orb_false_iff in A. destruct A as [-> ->]. exact F.
Qed.
Lemma kept_first : kept first_wishes true true.
Proof.
  split; [|vm_compute; reflexivity]. unfold first_wishes. apply set_sorted, set_sorted, set_sorted. constructor.
Qed.
Lemma kept_all : forall l w n p, kept w n p ->
  kept (fold_left (fun w x => wish w (fst x) (snd x)) l w) (last_wish namespaces_name n l) (last_wish prefixes_name p l).
Proof. induction l as [|[k v] l IH]; intros w n p K; [exact K|]. cbn [fold_left last_wish fst snd]. apply IH, kept_wish, K. Qed.
Lemma grant_about : forall w r, r_parsing r = false -> r_namespaces (grant r w) = r_namespaces (grant r (filter about w)) /\
  r_prefixes (grant r w) = r_prefixes (grant r (filter about w)) /\ forall r', r_parsing r' = false -> r_namespaces r' = r_namespaces r -> r_prefixes r' = r_prefixes r ->
  r_namespaces (grant r' w) = r_namespaces (grant r w) /\ r_prefixes (grant r' w) = r_prefixes (grant r w).
Proof.
  induction w as [|[k v] w IH]; intros r P; [cbn; auto|]. cbn [filter]. unfold about. cbn [fst].
  unfold grant. cbn [fold_left fst snd]. fold (grant r w).
  set (one := fun r0 : reader => match reader_set r0 k v with inl r => r | inr _ => r0 end).
  assert (P1 : forall r0, r_parsing r0 = false -> r_parsing (one r0) = false).
  { intros r0 P0. unfold one, reader_set. rewrite P0. repeat (match goal with |- context [if ?c then _ else _] => destruct c eqn:? end); solve [assumption|reflexivity]. }
  assert (S1 : forall r', r_parsing r' = false -> r_namespaces r' = r_namespaces r -> r_prefixes r' = r_prefixes r ->
    r_namespaces (one r') = r_namespaces (one r) /\ r_prefixes (one r') = r_prefixes (one r)).
  { intros r' P' N' X'. unfold one, reader_set. rewrite P, P', N', X'.
    destruct (str_eqb k namespaces_name); [cbn; auto|]. destruct (str_eqb k prefixes_name); [cbn; auto|].
    destruct (str_eqb k general_name || str_eqb k parameter_name); [cbn; auto|]. destruct (str_eqb k validation_name); auto. }
  destruct (IH (one r) (P1 _ P)) as (N & X & R). split; [|split].
  - destruct (str_eqb k namespaces_name || str_eqb k prefixes_name) eqn:A; [exact N|].
    apply orb_false_iff in A. destruct A as [A1 A2]. destruct (IH r P) as (N0 & _ & R0).
    destruct (R0 (one r) (P1 _ P)) as [Q _]; [| |exact (eq_trans Q N0)];
      unfold one, reader_set; rewrite A1, A2, P; destruct (str_eqb k general_name || str_eqb k parameter_name); try reflexivity; destruct (str_eqb k validation_name); reflexivity.
  - destruct (str_eqb k namespaces_name || str_eqb k prefixes_name) eqn:A; [exact X|].
    apply orb_false_iff in A. destruct A as [A1 A2]. destruct (IH r P) as (_ & X0 & R0).
    destruct (R0 (one r) (P1 _ P)) as [_ Q]; [| |exact (eq_trans Q X0)];
      unfold one, reader_set; rewrite A1, A2, P; destruct (str_eqb k general_name || str_eqb k parameter_name); try reflexivity; destruct (str_eqb k validation_name); reflexivity.
  - intros r' P' N' X'. destruct (S1 r' P' N' X') as [N1 X1]. exact (R (one r') (P1 _ P') N1 X1).
Qed.
Lemma dom_lemma : forall l r, grant new_reader (fold_left (fun w x => wish w (fst x) (snd x)) l first_wishes) = r ->
  r_namespaces r = last_wish namespaces_name true l /\
  r_prefixes r = (last_wish prefixes_name true l || negb (last_wish namespaces_name true l)).
Proof.
  intros l r <-. destruct (kept_all l _ _ _ kept_first) as [_ F].
  destruct (grant_about (fold_left (fun w x => wish w (fst x) (snd x)) l first_wishes) new_reader eq_refl) as (N & X & _).
  rewrite F in N, X. rewrite N, X. clear. destruct names_differ as [D1 D2]. unfold grant. cbn [fold_left fst snd].
  destruct (last_wish namespaces_name true l), (last_wish prefixes_name true l); split; vm_compute; reflexivity.
Qed.

(** * What setting a feature does to the others, and what is refused *)
Lemma others_lemma : forall h a l b r n v f h', above h a l b r -> (length l < f)%nat -> set_feature f h a n v = Val (inl h') ->
  exists r', above h' a l b r' /\ set_as n v r r'.
Proof.
  intros h a l b r n v f h' H L E. rewrite (set_above _ _ _ _ _ n v H f L) in E. destruct (reader_set r n v) as [r'|x] eqn:Q; [|discriminate]. injection E as <-. exists r'. split; [exact (above_put _ _ _ _ _ r' H)|]. unfold reader_set in Q.
  destruct (str_eqb n namespaces_name) eqn:E1; [apply str_eqb_true in E1; destruct (r_parsing r) eqn:P; [discriminate|]; injection Q as <-; cbn; unfold set_as; cbn; repeat split; auto; left; repeat split; auto; destruct v, (r_prefixes r); reflexivity|].
  destruct (str_eqb n prefixes_name) eqn:E2; [apply str_eqb_true in E2; destruct (r_parsing r) eqn:P; [discriminate|]; injection Q as <-; unfold set_as; cbn; repeat split; auto; right; left; repeat split; auto; destruct v, (r_namespaces r); reflexivity|].
  destruct (str_eqb n general_name || str_eqb n parameter_name) eqn:E3; [|destruct (str_eqb n validation_name); discriminate]. destruct (r_parsing r) eqn:P; [discriminate|]. injection Q as <-. unfold set_as. cbn. repeat split; auto. right. right. repeat split; auto. apply orb_true_iff in E3. destruct E3 as [E3|E3]; apply str_eqb_true in E3; auto.
Qed.
Lemma refused_lemma : forall h a l b r n v f, above h a l b r -> (length l < f)%nat -> ~ In n [namespaces_name; prefixes_name; general_name; parameter_name] ->
  (n = validation_name -> set_feature f h a n v = Val (inr NotSupported) /\ get_feature f h a n = Val (inl false)) /\
  (n <> validation_name -> set_feature f h a n v = Val (inr NotRecognized) /\ get_feature f h a n = Val (inr NotRecognized)).
Proof.
  intros h a l b r n v f H L N. rewrite (set_above _ _ _ _ _ n v H f L), (get_above _ _ _ _ _ n H f L). unfold reader_set, reader_get.
  assert (Q : forall m, In m [namespaces_name; prefixes_name; general_name; parameter_name] -> str_eqb n m = false). { intros m I. destruct (str_eqb n m) eqn:E; [|reflexivity]. apply str_eqb_true in E. subst m. contradiction. }
  rewrite (Q namespaces_name), (Q prefixes_name), (Q general_name), (Q parameter_name) by (cbn; auto). cbn [orb]. split.
  - intros ->. rewrite str_eqb_refl. split; reflexivity.
  - intros NV. destruct (str_eqb n validation_name) eqn:E; [apply str_eqb_true in E; contradiction|]. split; reflexivity.
Qed.
Lemma parent_lemma : forall h a p, (forall x k, get_slot (set_parent h a p) x k = get_slot h x k) /\ (forall q s, h a = Filter q s -> set_parent h a p a = Filter (Some p) s) /\ forall x, x <> a -> set_parent h a p x = h x.
Proof.
  intros h a p. unfold set_parent. split; [|split].
  - intros x k. unfold get_slot. destruct (Nat.eq_dec x a) as [->|N]; [|rewrite put_other by exact N; reflexivity]. rewrite put_same. destruct (h a); reflexivity.
  - intros q s E. rewrite put_same, E. reflexivity.
  - intros x N. apply put_other. exact N.
Qed.
