(** Owners agree along child lists; every change of a list is counted. *)
From Verif.Model Require Import Base Dom DomText TagList.
From Verif.Spec Require Import DomSpec DomTextSpec TagListSpec.
From Verif.Proof Require Import ContainersProof DomProof DomProof2 DomProof3 DomTextProof.

(** * Owners *)
Definition owners_ok (h : heap) : Prop :=
  forall c p, n_parent (h c) = Some p -> n_kind (h c) <> KDocType -> n_owner (h c) = n_owner (h p).
Definition res_owners {A} (h : heap) (r : res A) : Prop :=
  match r with
  | Ok h' _ | Ex _ h' => owners_ok h' /\ (forall i, n_owner (h i) <> None -> n_owner (h' i) = n_owner (h i))
  | Div => True
  end.
Lemma owners_refl : forall {A} h (r : res A) , owners_ok h ->
  match r with Ok h' _ | Ex _ h' => h' = h | Div => True end -> res_owners h r.
Proof. intros A h [h' a|e h'|] O E; cbn; auto; subst; auto. Qed.
(** Parents are taken away only, or one is given. *)
Lemma owners_less : forall h h1, owners_ok h -> typed h -> (forall i, n_kind (h1 i) = n_kind (h i)) ->
  (forall i, n_owner (h i) <> None -> n_owner (h1 i) = n_owner (h i)) ->
  (forall i p, n_parent (h1 i) = Some p -> n_parent (h i) = Some p) -> owners_ok h1.
Proof.
  intros h h1 O T K OW P c p X. rewrite K. intro NT. assert (Y := P _ _ X).
  rewrite OW, OW; auto.
  - intro Z. apply (t_owned h T) in Z. assert (CL := t_kids h T _ _ Y). rewrite Z in CL. discriminate.
  - intro Z. apply (t_owned h T) in Z. contradiction.
Qed.
Lemma owners_more : forall h h1 this new, owners_ok h -> typed h -> (forall i, n_kind (h1 i) = n_kind (h i)) ->
  (forall i, n_owner (h i) <> None -> n_owner (h1 i) = n_owner (h i)) ->
  (forall i p, n_parent (h1 i) = Some p -> n_parent (h i) = Some p \/ (i = new /\ p = this)) ->
  childless (n_kind (h this)) = false ->
  (n_kind (h new) <> KDocType -> n_owner (h new) = n_owner (h this)) -> owners_ok h1.
Proof.
  intros h h1 this new O T K OW P CL NW c p X. rewrite K. intro NT. destruct (P _ _ X) as [Y|[-> ->]].
  - rewrite OW, OW; auto.
    + intro Z. apply (t_owned h T) in Z. assert (CL2 := t_kids h T _ _ Y). rewrite Z in CL2. discriminate.
    + intro Z. apply (t_owned h T) in Z. contradiction.
  - rewrite OW, OW; auto.
    + intro Z. apply (t_owned h T) in Z. rewrite Z in CL. discriminate.
    + intro Z. apply (t_owned h T) in Z. contradiction.
Qed.

(** * The change counter *)
Ltac chg := intros; unfold set_prev, set_next, set_kids, set_prev_opt, set_next_opt; rewrite ?upd_at; cbn; apply if_same.
Lemma chg_prev : forall h i v j, n_changes (set_prev h i v j) = n_changes (h j). Proof. chg. Qed.
Lemma chg_next : forall h i v j, n_changes (set_next h i v j) = n_changes (h j). Proof. chg. Qed.
Lemma chg_kids : forall h i v j, n_changes (set_kids h i v j) = n_changes (h j). Proof. chg. Qed.
Lemma chg_prev_opt : forall h i v j, n_changes (set_prev_opt h i v j) = n_changes (h j).
Proof. intros h [i|] v j; [apply chg_prev|reflexivity]. Qed.
Lemma chg_next_opt : forall h i v j, n_changes (set_next_opt h i v j) = n_changes (h j).
Proof. intros h [i|] v j; [apply chg_next|reflexivity]. Qed.
Lemma chg_parent : forall h i v j, n_changes (set_parent h i v j) = n_changes (h j).
Proof. set_parent_tac. Qed.
Lemma own_prev : forall h i v j, n_owner (set_prev h i v j) = n_owner (h j). Proof. chg. Qed.
Lemma own_next : forall h i v j, n_owner (set_next h i v j) = n_owner (h j). Proof. chg. Qed.
Lemma own_kids : forall h i v j, n_owner (set_kids h i v j) = n_owner (h j). Proof. chg. Qed.
Lemma own_prev_opt : forall h i v j, n_owner (set_prev_opt h i v j) = n_owner (h j).
Proof. intros h [i|] v j; [apply own_prev|reflexivity]. Qed.
Lemma own_next_opt : forall h i v j, n_owner (set_next_opt h i v j) = n_owner (h j).
Proof. intros h [i|] v j; [apply own_next|reflexivity]. Qed.
Lemma own_parent : forall h i v j, n_owner (set_parent h i v j) = n_owner (h j).
Proof. set_parent_tac. Qed.
Lemma own_mark : forall h i j, n_owner (mark_changed h i j) = n_owner (h j).
Proof. intros h i j. unfold mark_changed. destruct (n_owner (h i)); [|reflexivity]. rewrite upd_at. cbn. apply if_same. Qed.
Lemma chg_mark : forall h i j, n_changes (mark_changed h i j) =
  if opt_eqb (n_owner (h i)) (Some j) then n_changes (h j) + 1 else n_changes (h j).
Proof.
  intros h i j. unfold mark_changed. destruct (n_owner (h i)) as [d|]; [|reflexivity]. cbn [opt_eqb].
  unfold upd. rewrite Nat.eqb_sym. destruct (Nat.eqb d j); reflexivity.
Qed.
#[global] Hint Rewrite chg_prev chg_next chg_kids chg_prev_opt chg_next_opt chg_parent own_prev own_next own_kids own_prev_opt own_next_opt
  own_parent own_mark chg_mark : chg.

Record tracked (h h' : heap) : Prop := {
  tr_owner : forall i, n_owner (h i) <> None -> n_owner (h' i) = n_owner (h i);
  tr_mono : forall d, n_changes (h d) <= n_changes (h' d);
  tr_kids : forall d, n_changes (h' d) = n_changes (h d) -> forall i, n_owner (h i) = Some d -> n_kids (h' i) = n_kids (h i) }.
Lemma tracked_refl : forall h, tracked h h.
Proof. intro h. constructor; auto. intro d; lia. Qed.
Lemma tracked_trans : forall a b c, tracked a b -> tracked b c -> tracked a c.
Proof.
  intros a b c [A1 A2 A3] [B1 B2 B3]. constructor.
  - intros i N. rewrite B1, A1; auto. rewrite A1; auto.
  - intro d. specialize (A2 d). specialize (B2 d). lia.
  - intros d E i O. assert (X := A2 d). assert (Y := B2 d). rewrite (B3 d) by (try lia; rewrite A1; congruence).
    apply (A3 d); auto. lia.
Qed.
Lemma tracked_same : forall h h', (forall i, n_owner (h' i) = n_owner (h i) /\ n_changes (h' i) = n_changes (h i) /\ n_kids (h' i) = n_kids (h i)) ->
  tracked h h'.
Proof. intros h h' E. constructor; [intros i _; apply E|intro d; destruct (E d) as (_ & -> & _); lia|intros d _ i _; apply E]. Qed.
Lemma tracked_one : forall h h' this, n_owner (h this) <> None ->
  (forall i, n_owner (h' i) = n_owner (h i)) ->
  (forall d, n_changes (h' d) = if opt_eqb (n_owner (h this)) (Some d) then n_changes (h d) + 1 else n_changes (h d)) ->
  (forall i, i <> this -> n_kids (h' i) = n_kids (h i)) -> tracked h h'.
Proof.
  intros h h' this NO O C K. constructor; auto.
  - intro d. rewrite C. destruct (opt_eqb _ _); lia.
  - intros d E i OI. destruct (Nat.eq_dec i this) as [->|N]; [|apply K, N]. exfalso.
    rewrite C, OI in E. cbn in E. rewrite Nat.eqb_refl in E. lia.
Qed.
Definition res_tracked {A} (h : heap) (r : res A) : Prop :=
  match r with Ok h' _ | Ex _ h' => tracked h h' | Div => True end.
Lemma res_tracked_trans : forall {A} a b (r : res A), tracked a b -> res_tracked b r -> res_tracked a r.
Proof. intros A a b [h x|e h|] T; cbn; auto; apply tracked_trans, T. Qed.
Lemma res_tracked_bind : forall {A B} h (r : res A) (k : heap -> A -> res B), res_tracked h r ->
  (forall h' a, r = Ok h' a -> res_tracked h' (k h' a)) -> res_tracked h (rbind r k).
Proof. intros A B h [h1 a|e h1|] k R K; cbn in *; auto. apply res_tracked_trans with h1; auto. Qed.
Lemma has_owner : forall h this, good h -> childless (n_kind (h this)) = false -> n_owner (h this) <> None.
Proof. intros h this [L T] CL X. apply (t_owned h T) in X. rewrite X in CL. discriminate. Qed.

Lemma do_remove_tracked : forall h p o, good h -> childless (n_kind (h p)) = false -> res_tracked h (do_remove h p o).
Proof.
  intros h p o G CL. unfold do_remove. destruct (n_ro _); [apply tracked_refl|]. destruct o as [o|]; [|apply tracked_refl].
  destruct (erase o (n_kids (h p))) as [l|]; [|apply tracked_refl]. cbn [res_tracked].
  apply tracked_one with p; [apply has_owner; auto| | |].
  - intro i. autorewrite with chg. reflexivity.
  - intro d. autorewrite with chg. reflexivity.
  - intros i N. rewrite mark_kids, set_next_kids, set_prev_kids, set_parent_kids, set_prev_opt_kids, set_next_opt_kids, set_kids_kids.
    destruct (Nat.eqb_spec i p); [contradiction|reflexivity].
Qed.
Lemma docel_tracked : forall h d v, tracked h (upd h d (set_docel_f v)).
Proof. intros h d v. apply tracked_same. intro i. rewrite !upd_at. cbn. rewrite !if_same. auto. Qed.
Lemma doctype_tracked : forall h d v, tracked h (upd h d (set_doctype_f v)).
Proof. intros h d v. apply tracked_same. intro i. rewrite !upd_at. cbn. rewrite !if_same. auto. Qed.
Lemma vremove_tracked : forall h p o, good h -> res_tracked h (vremove h p o).
Proof.
  intros h p o G. unfold vremove. destruct (childless (n_kind (h p))) eqn:CL; [apply tracked_refl|].
  assert (D := do_remove_tracked h p o G CL). destruct (has_kind h p KDocument); [|exact D].
  destruct (opt_eqb _ _); [apply tracked_refl|]. apply res_tracked_bind; [exact D|]. intros h' a _.
  destruct (opt_eqb _ _); cbn; [apply docel_tracked|apply tracked_refl].
Qed.
Lemma check_tracked : forall f h this new, res_tracked h (check_can_add f h this new).
Proof.
  intros f h this new. destruct (check_can_add f h this new) as [h1 u|e h1|] eqn:E; [| |exact I].
  - cbn. unfold check_can_add in E. destruct (n_owner (h new)) as [cd|] eqn:OW.
    + assert (h1 = h); [|subst; apply tracked_refl].
      destruct (has_kind h new KDocument); [destruct (_ && _); congruence|]. destruct (match n_owner (h this) with Some d => _ | None => _ end); [congruence|].
      destruct (climb f h this new) as [[|]|]; try congruence. destruct (_ && _); [congruence|]. destruct (child_kind_ok _ _); congruence.
    + injection E as <- _. constructor.
      * intros i N. rewrite upd_at. destruct (Nat.eqb_spec i new) as [->|]; [contradiction|reflexivity].
      * intro d. rewrite upd_at. cbn. rewrite if_same. lia.
      * intros d _ i _. rewrite upd_at. cbn. apply if_same.
  - apply check_ex in E. subst. apply tracked_refl.
Qed.
Lemma out_tracked : forall h new, good h -> res_tracked h (remove_if_required h new).
Proof.
  intros h new G. unfold remove_if_required. destruct (get_parent h new) as [p|]; [|apply tracked_refl].
  apply res_tracked_bind; [apply vremove_tracked, G|]. intros. apply tracked_refl.
Qed.
Lemma insert_node_tracked : forall f h this new ref, good h -> childless (n_kind (h this)) = false ->
  (n_kind (h new) = KDocument -> this <> new) -> res_tracked h (insert_node f h this new ref).
Proof.
  intros f h this new ref G CL ND. unfold insert_node. apply res_tracked_bind; [apply check_tracked|]. intros h1 u1 CA.
  destruct (can_add_spec _ _ _ _ _ _ G CL ND CA) as (_ & G1 & ST1 & _).
  apply res_tracked_bind; [apply out_tracked, G1|]. intros h2 u2 RR.
  destruct (out_spec _ _ _ _ G1 RR) as (G2 & M).
  assert (CL2 : childless (n_kind (h2 this)) = false).
  { rewrite (static_kind _ _ (mo_static _ _ _ M this)), (static_kind _ _ (ST1 this)). exact CL. }
  assert (OW2 := has_owner h2 this G2 CL2). clear -OW2.
  destruct ref as [r|].
  - destruct (insert_at _ _ _) as [l|]; [|apply tracked_refl]. cbn [res_tracked]. apply tracked_one with this; auto.
    + intro i. autorewrite with chg. reflexivity.
    + intro d. autorewrite with chg. reflexivity.
    + intros i N. rewrite mark_kids, set_parent_kids, set_prev_kids, set_next_kids, set_prev_kids, set_next_opt_kids, set_kids_kids.
      destruct (Nat.eqb_spec i this); [contradiction|reflexivity].
  - cbn [res_tracked]. destruct (last_child h2 this) as [l|]; apply tracked_one with this; auto.
    + intro i. autorewrite with chg. reflexivity.
    + intro d. autorewrite with chg. reflexivity.
    + intros i N. rewrite mark_kids, set_parent_kids, set_kids_kids. destruct (Nat.eqb_spec i this); [contradiction|].
      rewrite set_prev_kids, set_next_kids. reflexivity.
    + intro i. autorewrite with chg. reflexivity.
    + intro d. autorewrite with chg. reflexivity.
    + intros i N. rewrite mark_kids, set_parent_kids, set_kids_kids. destruct (Nat.eqb_spec i this); [contradiction|reflexivity].
Qed.
Lemma replace_node_tracked : forall f h this new old, good h -> childless (n_kind (h this)) = false ->
  (n_kind (h new) = KDocument -> this <> new) -> res_tracked h (replace_node f h this new old).
Proof.
  intros f h this new old G CL ND. unfold replace_node. apply res_tracked_bind; [apply check_tracked|]. intros h1 u1 CA.
  destruct (can_add_spec _ _ _ _ _ _ G CL ND CA) as (_ & G1 & ST1 & _).
  apply res_tracked_bind; [apply out_tracked, G1|]. intros h2 u2 RR.
  destruct (out_spec _ _ _ _ G1 RR) as (G2 & M).
  assert (CL2 : childless (n_kind (h2 this)) = false).
  { rewrite (static_kind _ _ (mo_static _ _ _ M this)), (static_kind _ _ (ST1 this)). exact CL. }
  assert (OW2 := has_owner h2 this G2 CL2). clear -OW2.
  destruct (replace_at _ _ _) as [l|]; [|apply tracked_refl]. cbn [res_tracked]. apply tracked_one with this; auto.
  - intro i. autorewrite with chg. reflexivity.
  - intro d. autorewrite with chg. reflexivity.
  - intros i N. rewrite mark_kids, set_next_kids, set_prev_kids, set_parent_kids, set_prev_opt_kids, set_next_opt_kids,
      set_next_kids, set_prev_kids, set_parent_kids, set_kids_kids.
    destruct (Nat.eqb_spec i this); [contradiction|reflexivity].
Qed.
Lemma vinsert_tracked : forall f,
  (forall h this new ref, good h -> (n_kind (h new) = KDocument -> this <> new) -> res_tracked h (vinsert f h this new ref)) /\
  (forall h this frag ref, good h -> res_tracked h (frag_loop f h this frag ref)).
Proof.
  induction f as [|f [IH1 IH2]]; [split; intros; exact I|]. split.
  - intros h this new ref G ND. cbn [vinsert].
    destruct (childless (n_kind (h this))) eqn:CL; [apply tracked_refl|].
    assert (BASE : res_tracked h (if n_ro (h this) then Ex NO_MODIFICATION h
        else if has_kind h new KFragment then frag_loop f h this new ref else insert_node f h this new ref)).
    { destruct (n_ro (h this)); [apply tracked_refl|]. destruct (has_kind h new KFragment); [apply IH2; auto|].
      apply insert_node_tracked; auto. }
    destruct (has_kind h this KDocument); [|exact BASE].
    destruct (has_kind h new KElement && _); [apply tracked_refl|]. destruct (has_kind h new KDocType && _); [apply tracked_refl|].
    apply res_tracked_bind; [exact BASE|]. intros h1 r1 _. cbn [res_tracked].
    match goal with |- tracked h1 (if _ then upd ?g _ _ else _) => assert (T1 : tracked h1 g) end.
    { destruct (_ && _); [apply docel_tracked|apply tracked_refl]. }
    match goal with |- tracked h1 (if ?b then _ else _) => destruct b end; [|exact T1].
    apply tracked_trans with (1 := T1). apply doctype_tracked.
  - intros h this frag ref G. cbn [frag_loop]. destruct (first_child h frag) as [c|] eqn:FC; [|apply tracked_refl].
    apply res_tracked_bind; [apply vremove_tracked, G|]. intros h1 r1 V.
    assert (CH := vremove_child_kind _ _ _ _ _ G V).
    destruct (vremove_spec _ _ _ _ _ G V) as (R & G1 & _).
    apply res_tracked_bind; [apply IH1; auto; apply (not_doc _ _ CH)|]. intros h2 r2 VI.
    assert (S2 := proj1 (vinsert_step f) h1 this c ref G1 (not_doc _ _ CH)). rewrite VI in S2. apply IH2. apply S2.
Qed.
Lemma vreplace_tracked : forall f h this new old, good h -> (n_kind (h new) = KDocument -> this <> new) ->
  res_tracked h (vreplace f h this new old).
Proof.
  induction f as [|f IH]; intros h this new old G ND; [exact I|]. cbn [vreplace].
  destruct (childless (n_kind (h this))) eqn:CL; [apply tracked_refl|].
  match goal with |- res_tracked h (if _ then if _ then _ else if _ then _ else if _ then _ else rbind ?b _ else _) =>
    assert (BASE : res_tracked h b) end.
  { destruct (n_ro (h this)) eqn:RO; [apply tracked_refl|].
    destruct (has_kind h new KFragment) eqn:KF; [|apply replace_node_tracked; auto].
    apply has_kind_eq in KF.
    destruct (last_child h new) as [c|] eqn:LC.
    2:{ apply res_tracked_bind; [apply vremove_tracked, G|]. intros h1 [x|] V; [|exact I]. exfalso. apply (vremove_none _ _ _ _ V). }
    apply res_tracked_bind; [apply vremove_tracked, G|]. intros h1 r1 V.
    assert (CH := vremove_child_kind _ _ _ _ _ G V).
    destruct (vremove_spec _ _ _ _ _ G V) as (R & G1 & -> & _).
    apply res_tracked_bind; [apply IH; auto; apply (not_doc _ _ CH)|]. intros h2 r2 VR.
    assert (S2 := vreplace_step f h1 this c old G1 (not_doc _ _ CH)). rewrite VR in S2.
    apply res_tracked_bind; [|intros; apply tracked_refl].
    apply (proj1 (vinsert_tracked f)); [apply S2|].
    rewrite (static_kind _ _ (proj2 S2 new)), (static_kind _ _ (r_static _ _ _ _ R new)). congruence. }
  destruct (has_kind h this KDocument); [|exact BASE].
  destruct (negb _); [apply tracked_refl|].
  destruct (_ && _); [apply tracked_refl|]. destruct (_ && _); [apply tracked_refl|].
  apply res_tracked_bind; [exact BASE|]. intros h1 r1 _. destruct (_ && _); cbn; [apply docel_tracked|apply tracked_refl].
Qed.

(** * Owners agree *)
Definition owners_res {A} (r : res A) : Prop := match r with Ok h' _ | Ex _ h' => owners_ok h' | Div => True end.
Lemma check_owner : forall f h this new h1 u, good h -> check_can_add f h this new = Ok h1 u -> n_kind (h new) <> KDocType ->
  childless (n_kind (h this)) = false -> n_owner (h new) = n_owner (h this).
Proof.
  intros f h this new h1 u [L T] E NT CL. unfold check_can_add in E. destruct (n_owner (h new)) as [cd|] eqn:OW.
  - destruct (has_kind h new KDocument) eqn:KD.
    + destruct (has_kind h this KDocument) eqn:KT; cbn [andb] in E; [|discriminate].
      destruct (Nat.eqb_spec cd this) as [->|]; [|discriminate]. apply has_kind_eq in KT. rewrite (t_doc h T this KT). reflexivity.
    + destruct (n_owner (h this)) as [d|] eqn:OT.
      * destruct (Nat.eqb_spec cd d) as [->|]; [reflexivity|discriminate].
      * apply (t_owned h T) in OT. rewrite OT in CL. discriminate.
  - apply (t_owned h T) in OW. contradiction.
Qed.
Lemma step_owners : forall h h', good h -> owners_ok h -> tracked h h' -> (forall i, n_kind (h' i) = n_kind (h i)) ->
  (forall i p, n_parent (h' i) = Some p -> n_parent (h i) = Some p) -> owners_ok h'.
Proof. intros h h' G O T K P. apply owners_less with h; auto; [apply G|apply T]. Qed.
Lemma vremove_owners : forall h p o, good h -> owners_ok h -> owners_res (vremove h p (Some o)).
Proof.
  intros h p o G O. assert (T := vremove_tracked h p (Some o) G).
  destruct (vremove h p (Some o)) as [h1 r1|e1 h1|] eqn:V; [| |exact I].
  - destruct (vremove_spec _ _ _ _ _ G V) as (R & G1 & _). cbn. apply step_owners with h; auto.
    + intro i. apply static_kind, (r_static _ _ _ _ R).
    + intros i q. rewrite (r_parents _ _ _ _ R). destruct (Nat.eqb i o); [discriminate|auto].
  - apply vremove_ex in V. subst; exact O.
Qed.
Lemma check_owners : forall f h this new h1 u, good h ->
  childless (n_kind (h this)) = false -> (n_kind (h new) = KDocument -> this <> new) ->
  owners_ok h -> check_can_add f h this new = Ok h1 u -> owners_ok h1.
Proof.
  intros f h this new h1 u G CL ND O CA.
  destruct (can_add_spec _ _ _ _ _ _ G CL ND CA) as (S1 & G1 & ST1 & _).
  assert (T := check_tracked f h this new). rewrite CA in T. apply step_owners with h; auto.
  - intro i. apply static_kind, ST1.
  - intros i p. destruct (S1 i) as (_ & -> & _). auto.
Qed.
Lemma out_owners : forall h new, good h -> owners_ok h -> owners_res (remove_if_required h new).
Proof.
  intros h new G O. assert (T := out_tracked h new G). destruct (remove_if_required h new) as [h1 u|e h1|] eqn:RR; [| |exact I].
  - destruct (out_spec _ _ _ _ G RR) as (G2 & M). cbn. apply step_owners with h; auto.
    + intro i. apply static_kind, (mo_static _ _ _ M).
    + intros i p. rewrite (mo_parents _ _ _ M). destruct (Nat.eqb i new); [discriminate|auto].
  - apply out_ex in RR. subst. exact O.
Qed.
Lemma insert_node_owners : forall f h this new ref, good h ->
  childless (n_kind (h this)) = false -> (n_kind (h new) = KDocument -> this <> new) ->
  owners_ok h -> owners_res (insert_node f h this new ref).
Proof.
  intros f h this new ref G CL ND O. assert (T := insert_node_tracked f h this new ref G CL ND).
  destruct (insert_node f h this new ref) as [h' r|e h'|] eqn:E; [| |exact I].
  - destruct (insert_node_spec _ _ _ _ _ _ _ G CL ND E) as (G' & _ & P & PP & _). unfold insert_node in E.
    destruct (check_can_add f h this new) as [h1 u1|e1 h1|] eqn:CA; cbn [rbind] in E; try discriminate.
    cbn. apply owners_more with h this new; auto; [apply G|intro i; apply static_kind, (p_static _ _ _ _ _ P)|apply T| |].
    + intros i p. rewrite PP. destruct (Nat.eqb_spec i new) as [->|]; [|auto]. intro X. injection X as <-. auto.
    + intro NT. apply (check_owner _ _ _ _ _ _ G CA NT CL).
  - unfold insert_node in E.
    destruct (check_can_add f h this new) as [h1 u1|e1 h1|] eqn:CA; cbn [rbind] in E; try discriminate.
    2:{ injection E as -> ->. apply check_ex in CA. subst; exact O. }
    assert (O1 := check_owners _ _ _ _ _ _ G CL ND O CA).
    destruct (can_add_spec _ _ _ _ _ _ G CL ND CA) as (_ & G1 & _).
    assert (O2 := out_owners h1 new G1 O1).
    destruct (remove_if_required h1 new) as [h2 u2|e2 h2|]; cbn [rbind owners_res] in *; [| |discriminate].
    + destruct ref; [|discriminate]. destruct (insert_at _ _ _); [discriminate|]. injection E as _ <-. exact O2.
    + injection E as -> ->. exact O2.
Qed.
Lemma replace_node_owners : forall f h this new old, good h ->
  childless (n_kind (h this)) = false -> (n_kind (h new) = KDocument -> this <> new) -> n_ro (h this) = false ->
  owners_ok h -> owners_res (replace_node f h this new old).
Proof.
  intros f h this new old G CL ND RO O. assert (T := replace_node_tracked f h this new old G CL ND).
  destruct (replace_node f h this new old) as [h' r|e h'|] eqn:E; [| |exact I].
  - destruct (replace_node_spec _ _ _ _ _ _ _ G CL ND RO E) as (G' & _ & P & PP & _). unfold replace_node in E.
    destruct (check_can_add f h this new) as [h1 u1|e1 h1|] eqn:CA; cbn [rbind] in E; try discriminate.
    cbn. apply owners_more with h this new; auto; [apply G|intro i; apply static_kind, (p_static _ _ _ _ _ P)|apply T| |].
    + intros i p. rewrite PP. destruct (Nat.eqb_spec i new) as [->|]; [intro X; injection X as <-; auto|].
      destruct (Nat.eqb i old); [discriminate|auto].
    + intro NT. apply (check_owner _ _ _ _ _ _ G CA NT CL).
  - unfold replace_node in E.
    destruct (check_can_add f h this new) as [h1 u1|e1 h1|] eqn:CA; cbn [rbind] in E; try discriminate.
    2:{ injection E as -> ->. apply check_ex in CA. subst; exact O. }
    assert (O1 := check_owners _ _ _ _ _ _ G CL ND O CA).
    destruct (can_add_spec _ _ _ _ _ _ G CL ND CA) as (_ & G1 & _).
    assert (O2 := out_owners h1 new G1 O1).
    destruct (remove_if_required h1 new) as [h2 u2|e2 h2|]; cbn [rbind owners_res] in *; [| |discriminate].
    + destruct (replace_at _ _ _); [discriminate|]. injection E as _ <-. exact O2.
    + injection E as -> ->. exact O2.
Qed.
Lemma owners_same : forall h h', (forall i, n_kind (h' i) = n_kind (h i) /\ n_owner (h' i) = n_owner (h i) /\ n_parent (h' i) = n_parent (h i)) ->
  owners_ok h -> owners_ok h'.
Proof.
  intros h h' E O c p. destruct (E c) as (-> & -> & ->). destruct (E p) as (_ & -> & _). apply O.
Qed.
Lemma docel_owners : forall h d v, owners_ok h -> owners_ok (upd h d (set_docel_f v)).
Proof. intros h d v. apply owners_same. intro i. rewrite !upd_at. cbn. rewrite !if_same. auto. Qed.
Lemma doctype_owners : forall h d v, owners_ok h -> owners_ok (upd h d (set_doctype_f v)).
Proof. intros h d v. apply owners_same. intro i. rewrite !upd_at. cbn. rewrite !if_same. auto. Qed.
Lemma vinsert_owners : forall f,
  (forall h this new ref, good h -> (n_kind (h new) = KDocument -> this <> new) ->
     owners_ok h -> owners_res (vinsert f h this new ref)) /\
  (forall h this frag ref, good h -> owners_ok h -> owners_res (frag_loop f h this frag ref)).
Proof.
  induction f as [|f [IH1 IH2]]; [split; intros; exact I|]. split.
  - intros h this new ref G ND K. cbn [vinsert].
    destruct (childless (n_kind (h this))) eqn:CL; [exact K|].
    assert (BASE : owners_res (if n_ro (h this) then Ex NO_MODIFICATION h
        else if has_kind h new KFragment then frag_loop f h this new ref else insert_node f h this new ref)).
    { destruct (n_ro (h this)); [exact K|]. destruct (has_kind h new KFragment) eqn:KF.
      - apply IH2; auto.
      - apply insert_node_owners; auto. }
    destruct (has_kind h this KDocument); [|exact BASE].
    destruct (has_kind h new KElement && _); [exact K|].
    destruct (has_kind h new KDocType && _); [exact K|].
    destruct (if n_ro (h this) then _ else _) as [h1 r1|e1 h1|]; cbn [rbind owners_res] in *; auto.
    match goal with |- owners_ok (if _ then upd ?g _ _ else _) => assert (T1 : owners_ok g) end.
    { destruct (_ && _); [apply docel_owners|]; exact BASE. }
    match goal with |- owners_ok (if ?b then _ else _) => destruct b end; [|exact T1]. apply doctype_owners, T1.
  - intros h this frag ref G K. cbn [frag_loop].
    destruct (first_child h frag) as [c|] eqn:FC; [|exact K].
    assert (VK := vremove_owners h frag c G K).
    destruct (vremove h frag (Some c)) as [h1 r1|e1 h1|] eqn:V; cbn [rbind owners_res] in *; auto.
    assert (CH := vremove_child_kind _ _ _ _ _ G V).
    destruct (vremove_spec _ _ _ _ _ G V) as (R & G1 & _ & PC & _).
    assert (S2 := proj1 (vinsert_step f) h1 this c ref G1 (not_doc _ _ CH)).
    assert (K2 := IH1 h1 this c ref G1 (not_doc _ _ CH) VK).
    destruct (vinsert f h1 this c ref) as [h2 r2|e2 h2|]; cbn [rbind owners_res res_step] in *; auto.
    apply IH2; auto; apply S2.
Qed.
Lemma vreplace_owners : forall f h this new old, good h -> (n_kind (h new) = KDocument -> this <> new) ->
  owners_ok h -> owners_res (vreplace f h this new old).
Proof.
  induction f as [|f IH]; intros h this new old G ND K; [exact I|]. cbn [vreplace].
  destruct (childless (n_kind (h this))) eqn:CL; [exact K|].
  match goal with |- owners_res (if _ then if _ then _ else if _ then _ else if _ then _ else rbind ?b _ else _) =>
    assert (BASE : owners_res b) end.
  { destruct (n_ro (h this)) eqn:RO; [exact K|].
    destruct (has_kind h new KFragment) eqn:KF; [|apply replace_node_owners; auto].
    apply has_kind_eq in KF.
    destruct (last_child h new) as [c|] eqn:LC.
    2:{ destruct (vremove h new None) as [h1 r1|e1 h1|] eqn:V; cbn [rbind]; [exfalso; apply (vremove_none _ _ _ _ V)| |exact I].
        apply vremove_ex in V. subst; exact K. }
    assert (VK := vremove_owners h new c G K).
    destruct (vremove h new (Some c)) as [h1 r1|e1 h1|] eqn:V; cbn [rbind owners_res] in *; auto.
    assert (CH := vremove_child_kind _ _ _ _ _ G V).
    destruct (vremove_spec _ _ _ _ _ G V) as (R & G1 & -> & PC & _).
    assert (S2 := vreplace_step f h1 this c old G1 (not_doc _ _ CH)).
    assert (K2 := IH h1 this c old G1 (not_doc _ _ CH) VK).
    destruct (vreplace f h1 this c old) as [h2 r2|e2 h2|]; cbn [rbind owners_res res_step] in *; auto.
    assert (KN : n_kind (h2 new) = KFragment).
    { rewrite (static_kind _ _ (proj2 S2 new)), (static_kind _ _ (r_static _ _ _ _ R new)). exact KF. }
    assert (K3 : owners_res (vinsert f h2 this new (Some c))).
    { apply (proj1 (vinsert_owners f)); auto; [apply S2|congruence]. }
    destruct (vinsert f h2 this new (Some c)); cbn [rbind owners_res] in *; auto. }
  destruct (has_kind h this KDocument); [|exact BASE].
  destruct (negb _); [exact K|].
  destruct (_ && _); [exact K|]. destruct (_ && _); [exact K|].
  match goal with |- owners_res (rbind ?b _) => destruct b as [h1 r1|e1 h1|] end; cbn [rbind owners_res] in *; auto.
  destruct (_ && _); cbn [owners_res]; [apply docel_owners|]; exact BASE.
Qed.

(** * All kinds of calls *)
Lemma normalize_tracked : forall f,
  (forall h this, good h -> res_tracked h (normalize f h this)) /\
  (forall h this child, good h -> res_tracked h (norm_loop f h this child)).
Proof.
  assert (SD : forall h i s, tracked h (set_data h i s)).
  { intros h i s. apply tracked_same. intro j. rewrite set_data_owner, set_data_changes, set_data_kids. auto. }
  assert (VR : forall h p o h' r, good h -> vremove h p o = Ok h' r -> good h').
  { intros h p o h' r G V. assert (S := vremove_step h p o G). rewrite V in S. apply S. }
  assert (MT : forall f h this t next, good h -> res_tracked h (merge_texts f h this t next) /\
     forall h' r, merge_texts f h this t next = Ok h' r -> good h').
  { induction f as [|f IH]; intros h this t next G; [split; [exact I|discriminate]|]. cbn [merge_texts].
    destruct next as [x|]; [|split; [apply tracked_refl|intros h' r E; injection E as <- _; exact G]].
    destruct (has_kind h x KText); [|split; [apply tracked_refl|intros h' r E; injection E as <- _; exact G]].
    unfold append_data, read_only. destruct (n_ro (h t)); cbn [rbind]; [split; [apply tracked_refl|discriminate]|].
    assert (G1 := set_data_good h t (n_data (h t) ++ n_data (h x)) G).
    assert (T1 := SD h t (n_data (h t) ++ n_data (h x))). set (h1 := set_data h t _) in *. clearbody h1.
    split.
    - apply res_tracked_trans with h1; [exact T1|]. apply res_tracked_bind; [apply vremove_tracked, G1|].
      intros h2 r2 V. apply IH. apply (VR _ _ _ _ _ G1 V).
    - destruct (vremove h1 this (Some x)) as [h2 r2|e2 h2|] eqn:V; cbn [rbind]; try discriminate.
      apply IH. apply (VR _ _ _ _ _ G1 V). }
  assert (NG : forall f, (forall h this, good h -> forall h' u, normalize f h this = Ok h' u -> good h')).
  { intros f h this G h' u E. assert (S := proj1 (normalize_spec f) h this G). rewrite E in S. apply S. }
  induction f as [|f [IH1 IH2]]; [split; intros; exact I|]. split.
  - intros h this G. cbn [normalize]. apply IH2, G.
  - intros h this [c|] G; cbn [norm_loop]; [|apply tracked_refl]. destruct (has_kind h c KText).
    + destruct (MT f h this c (n_next (h c)) G) as [M1 M2]. apply res_tracked_bind; [exact M1|]. intros h1 nx E.
      assert (G1 := M2 _ _ E). destruct (n_data (h1 c)); cbn [rbind].
      * apply res_tracked_bind; [apply res_tracked_bind; [apply vremove_tracked, G1|intros; apply tracked_refl]|].
        intros h2 u V. destruct (vremove h1 this (Some c)) as [h3 r3|e3 h3|] eqn:V2; cbn [rbind] in V; try discriminate.
        injection V as <- _. apply IH2. apply (VR _ _ _ _ _ G1 V2).
      * apply IH2, G1.
    + apply res_tracked_bind; [apply IH1, G|]. intros h1 u E. apply IH2. apply (NG _ _ _ G _ _ E).
Qed.
Lemma split_tracked : forall f h this new off h' r, good h -> owners_ok h -> unused h new -> n_owner (h new) = n_owner (h this) ->
  textual h this -> get_parent h this <> None -> int_sized (n_data (h this)) ->
  split_text f h this new off = Some (Ok h' r) -> good h' /\ owners_ok h' /\ tracked h h'.
Proof.
  intros f h this new off h' r G O U OW TX GP SZ E.
  rewrite hidden_parent in GP by apply G. destruct (n_parent (h this)) as [p|] eqn:P; [|contradiction].
  assert (IK : In this (kids h p)) by (apply (l_parent h (proj1 G)), P). destruct (in_split _ _ IK) as (a & b & KP).
  destruct (split_spec _ _ _ _ _ _ _ _ _ _ G U TX P KP SZ E) as (G' & _). split; [exact G'|].
  unfold split_text in E. destruct (n_ro (h this)) eqn:RO; [discriminate|].
  unfold substring_data in E. destruct (bad_offset _ _) eqn:BE; [discriminate|].
  destruct (_ <? 0) eqn:C0; [discriminate|]. unfold delete_data, read_only in E. rewrite RO, BE, C0 in E.
  set (sec := std_substr _ _ _) in *. set (fst' := std_replace _ _ _ _) in *. clearbody sec fst'.
  assert (G1 := set_data_good h this fst' G). set (h1 := set_data h this fst') in *.
  assert (P1 : n_parent (h1 this) = Some p) by (unfold h1; rewrite set_data_parent; exact P).
  rewrite (child_can h1 this p G1 P1) in E.
  assert (U1 : unused h1 new).
  { destruct U; constructor; unfold h1; rewrite ?set_data_parent, ?set_data_kids, ?set_data_changes; assumption. }
  assert (TX1 : textual h1 this) by (unfold textual, h1; rewrite set_data_kind; exact TX).
  assert (G2 := new_good h1 new this p sec G1 U1 P1 TX1). set (h2 := upd h1 new _) in *.
  assert (AT2 : h2 new = split_node h1 this sec true) by (unfold h2, upd; rewrite Nat.eqb_refl; reflexivity).
  assert (NE2 : forall i, i <> new -> h2 i = h1 i).
  { intros i N. unfold h2, upd. destruct (Nat.eqb_spec i new); [contradiction|reflexivity]. }
  assert (T2 : tracked h h2).
  { apply tracked_same. intro i. destruct (Nat.eq_dec i new) as [->|N].
    - rewrite AT2. cbn. unfold h1. rewrite set_data_owner, OW, (un_changes _ _ U), (un_kids _ _ U). auto.
    - rewrite (NE2 i N). unfold h1. rewrite set_data_owner, set_data_changes, set_data_kids. auto. }
  assert (O2 : owners_ok h2).
  { intros c q X NT. assert (CN : c <> new) by (intros ->; rewrite AT2 in X; discriminate).
    assert (QN : q <> new).
    { intros ->. apply (l_parent h2 (proj1 G2)) in X. rewrite AT2 in X. exact X. }
    rewrite (NE2 c CN) in *. rewrite (NE2 q QN). unfold h1 in *. rewrite !set_data_owner.
    rewrite set_data_parent in X. rewrite set_data_kind in NT. apply O; auto. }
  assert (ND : n_kind (h2 new) = KDocument -> p <> new).
  { rewrite AT2. cbn. destruct TX1 as [X|X]; rewrite X; discriminate. }
  assert (T3 := proj1 (vinsert_tracked f) h2 p new (n_next (h2 this)) G2 ND).
  assert (O3 := proj1 (vinsert_owners f) h2 p new (n_next (h2 this)) G2 ND O2).
  destruct (vinsert f h2 p new (n_next (h2 this))) as [h3 r3|e3 h3|]; try discriminate. injection E as <- _.
  split; [exact O3|]. apply tracked_trans with h2; auto.
Qed.
Lemma change_spec : forall h h', good h -> owners_ok h -> change h h' -> good h' /\ owners_ok h' /\ tracked h h'.
Proof.
  intros h h' G O C. destruct C as [o f h' ND E|i s|f this new off h' r U OW KN TX GP SZ E|f this h' u E].
  - assert (R : forall A (r : res A), res_step h r -> owners_res r -> res_tracked h r ->
      (exists u, rbind r (fun h _ => Ok h tt) = Ok h' u) \/ (exists e, rbind r (fun h _ => Ok h tt) = Ex e h') ->
      good h' /\ owners_ok h' /\ tracked h h').
    { intros A [h1 a|e1 h1|] S OO TR [[u X]|[e X]]; cbn [rbind] in X; try discriminate.
      - injection X as <- _. split; [apply S|]. auto.
      - injection X as _ <-. split; [apply S|]. auto. }
    unfold not_into_itself in ND. destruct o as [t n ref|t n old|t old|t]; cbn [dom_call op_target] in *.
    + assert (N : n_kind (h n) = KDocument -> t <> n) by (intro K; apply ND, has_kind_eq, K).
      apply (R _ (vinsert f h t n ref)); auto; [apply (proj1 (vinsert_step f))|apply (proj1 (vinsert_owners f))|apply (proj1 (vinsert_tracked f))]; auto.
    + assert (N : n_kind (h n) = KDocument -> t <> n) by (intro K; apply ND, has_kind_eq, K).
      apply (R _ (vreplace f h t n old)); auto; [apply vreplace_step|apply vreplace_owners|apply vreplace_tracked]; auto.
    + apply (R _ (vremove h t (Some old))); auto; [apply vremove_step|apply vremove_owners|apply vremove_tracked]; auto.
    + destruct (freeze f h t) as [h1|] eqn:FZ; [|exfalso; destruct E as [[u X]|[e X]]; discriminate].
      assert (h' = h1) as -> by (destruct E as [[u X]|[e X]]; [injection X as <- _; reflexivity|discriminate]).
      assert (M := freeze_only _ _ _ _ FZ). split; [apply (freeze_good _ _ _ _ G FZ)|]. split.
      * revert O. apply owners_same. intro i. destruct (M i) as [->| ->]; auto.
      * apply tracked_same. intro i. destruct (M i) as [->| ->]; auto.
  - split; [apply set_data_good, G|]. split.
    + revert O. apply owners_same. intro j. rewrite set_data_kind, set_data_owner, set_data_parent. auto.
    + apply tracked_same. intro j. rewrite set_data_owner, set_data_changes, set_data_kids. auto.
  - eapply split_tracked; eauto.
  - assert (S := proj1 (normalize_spec f) h this G). assert (T := proj1 (normalize_tracked f) h this G). rewrite E in *.
    destruct S as [F _]. assert (N := f_neutral _ _ _ F). split; [apply (ne_good _ _ N)|]. split; [|exact T].
    apply owners_less with h; auto; [apply G|apply (ne_kind _ _ N)|apply T|].
    intros i p X. assert (I := proj2 (l_parent h' (proj1 (ne_good _ _ N)) p i) X).
    apply (l_parent h (proj1 G)). apply (ne_less _ _ N), I.
Qed.
Lemma fresh_owners : forall kinds docs names, owners_ok (fresh_heap kinds docs names).
Proof.
  intros kinds docs names c p X. exfalso. unfold fresh_heap, new_node in X. destruct (kinds c); discriminate.
Qed.
Lemma evolves_spec : forall h h', good h -> owners_ok h -> evolves h h' -> good h' /\ owners_ok h' /\ tracked h h'.
Proof.
  intros h h' G O E. induction E as [|h1 h2 E (G1 & O1 & T1) C]; [split; auto; split; auto; apply tracked_refl|].
  destruct (change_spec h1 h2 G1 O1 C) as (G2 & O2 & T2). split; [exact G2|]. split; [exact O2|]. apply tracked_trans with h1; auto.
Qed.
Lemma known_good : forall h, known h -> good h /\ owners_ok h.
Proof.
  intros h (kinds & docs & names & E). apply evolves_spec in E; [|apply fresh_good|apply fresh_owners]. tauto.
Qed.
