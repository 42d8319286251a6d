From Verif.Model Require Import Base Dom.
From Verif.Spec Require Import DomSpec.
From Verif.Proof Require Import DomProof DomFinite.

(** * Termination *)
Definition settles {A} (F : nat -> res A) : Prop := exists f0 r, r <> Div /\ forall f, (f0 <= f)%nat -> F f = r.
Lemma settles_now : forall {A} (r : res A), r <> Div -> settles (fun _ => r).
Proof. intros A r N. exists O, r. auto. Qed.
Lemma settles_ext : forall {A} (F F' : nat -> res A), (forall f, F f = F' f) -> settles F -> settles F'.
Proof. intros A F F' E (f0 & r & N & H). exists f0, r. split; [exact N|]. intros f L. rewrite <- E. auto. Qed.
Lemma settles_S : forall {A} (F : nat -> res A) G, (forall f, F (S f) = G f) -> settles G -> settles F.
Proof.
  intros A F G E (f0 & r & N & H). exists (S f0), r. split; [exact N|].
  intros [|f] L; [lia|]. rewrite E. apply H. lia.
Qed.
Lemma settles_bind : forall {A B} (F : nat -> res A) (K : nat -> heap -> A -> res B),
  settles F -> (forall f h a, F f = Ok h a -> settles (fun f => K f h a)) ->
  settles (fun f => rbind (F f) (K f)).
Proof.
  intros A B F K (f0 & r & N & H) S. destruct r as [h a|e h|]; [| |contradiction].
  - destruct (S f0 h a (H f0 (le_n _))) as (f1 & r1 & N1 & H1).
    exists (Nat.max f0 f1), r1. split; [exact N1|]. intros f L. rewrite H by lia. cbn [rbind]. apply H1. lia.
  - exists f0, (Ex e h). split; [discriminate|]. intros f L. rewrite H by lia. reflexivity.
Qed.

Lemma climb_settles : forall h n t, typed h -> rooted h n -> exists f0 b, forall f, (f0 <= f)%nat -> climb f h n t = Some b.
Proof.
  intros h n t T R. induction R as [n P|n p P R (f0 & b & IH)].
  - exists 1%nat, (Nat.eqb n t). intros [|f] L; [lia|]. cbn [climb]. destruct (Nat.eqb n t); [reflexivity|].
    rewrite hidden_parent, P by exact T. reflexivity.
  - exists (S f0), (Nat.eqb n t || b). intros [|f] L; [lia|]. cbn [climb]. destruct (Nat.eqb n t); [reflexivity|].
    rewrite hidden_parent, P by exact T. cbn. apply IH. lia.
Qed.
Lemma check_settles : forall h this new, good h -> settles (fun f => check_can_add f h this new).
Proof.
  intros h this new [L T]. destruct (climb_settles h this new T (l_rooted h L this)) as (f0 & b & H).
  destruct (n_owner (h new)) as [cd|] eqn:OW.
  - assert (X : exists r, r <> Div /\ forall f, (f0 <= f)%nat -> check_can_add f h this new = r).
    { unfold check_can_add. rewrite OW.
      destruct (has_kind h new KDocument).
      - destruct (_ && _); eexists; split; [|intros; reflexivity| |intros; reflexivity]; discriminate.
      - destruct (match n_owner (h this) with Some d => negb (Nat.eqb cd d) | None => false end).
        + eexists; split; [|intros; reflexivity]; discriminate.
        + destruct b.
          * eexists; split; [|intros f Lf; rewrite H by exact Lf; reflexivity]; discriminate.
          * destruct (has_kind h this KEntityRef && n_ro (h this)) eqn:E1.
            -- eexists; split; [|intros f Lf; rewrite H by exact Lf; reflexivity]; discriminate.
            -- destruct (child_kind_ok (n_kind (h this)) (n_kind (h new))) eqn:E2;
                 (eexists; split; [|intros f Lf; rewrite H by exact Lf; reflexivity]; discriminate). }
    destruct X as (r & N & X). exists f0, r. auto.
  - exists O. unfold check_can_add. rewrite OW. eexists; split; [|intros; reflexivity]; discriminate.
Qed.
Lemma insert_node_settles : forall h this new ref, good h ->
  childless (n_kind (h this)) = false -> (n_kind (h new) = KDocument -> this <> new) ->
  settles (fun f => insert_node f h this new ref).
Proof.
  intros h this new ref G CL ND. unfold insert_node. apply settles_bind; [apply check_settles, G|].
  intros f h1 u1 CA. destruct (can_add_spec _ _ _ _ _ _ G CL ND CA) as (_ & G1 & _).
  apply settles_bind; [apply settles_now, out_div|]. intros _ h2 u2 RR.
  destruct ref; [destruct (insert_at _ _ _)|]; apply settles_now; discriminate.
Qed.
Lemma replace_node_settles : forall h this new old, good h ->
  childless (n_kind (h this)) = false -> (n_kind (h new) = KDocument -> this <> new) ->
  settles (fun f => replace_node f h this new old).
Proof.
  intros h this new old G CL ND. unfold replace_node. apply settles_bind; [apply check_settles, G|].
  intros f h1 u1 CA. destruct (can_add_spec _ _ _ _ _ _ G CL ND CA) as (_ & G1 & _).
  apply settles_bind; [apply settles_now, out_div|]. intros _ h2 u2 RR.
  destruct (replace_at _ _ _); apply settles_now; discriminate.
Qed.

(** insertBefore around a base call that settles. *)
Lemma vinsert_settles_base : forall h this new ref, good h ->
  settles (fun f => if has_kind h new KFragment then frag_loop f h this new ref else insert_node f h this new ref) ->
  settles (fun f => vinsert f h this new ref).
Proof.
  intros h this new ref G B.
  eapply settles_S; [intro f; cbn [vinsert]; reflexivity|].
  destruct (childless (n_kind (h this))); [apply settles_now; discriminate|].
  assert (B1 : settles (fun f => if n_ro (h this) then Ex NO_MODIFICATION h
     else if has_kind h new KFragment then frag_loop f h this new ref else insert_node f h this new ref)).
  { destruct (n_ro (h this)); [apply settles_now; discriminate|exact B]. }
  destruct (has_kind h this KDocument); [|exact B1].
  destruct (_ && _); [apply settles_now; discriminate|].
  destruct (_ && _); [apply settles_now; discriminate|].
  apply settles_bind; [exact B1|]. intros. apply settles_now; discriminate.
Qed.
Lemma vinsert_settles_one : forall h this new ref, good h -> (n_kind (h new) = KDocument -> this <> new) ->
  n_kind (h new) <> KFragment -> settles (fun f => vinsert f h this new ref).
Proof.
  intros h this new ref G ND NF.
  destruct (childless (n_kind (h this))) eqn:CL.
  - eapply settles_S; [intro f; cbn [vinsert]; rewrite CL; reflexivity|]. apply settles_now; discriminate.
  - apply vinsert_settles_base; [exact G|].
    destruct (has_kind h new KFragment) eqn:KF; [apply has_kind_eq in KF; contradiction|].
    apply insert_node_settles; auto.
Qed.

(** The pointers that a document sets after insertBefore. *)
Definition marked (h : heap) (this new : nat) : heap :=
  let h1 := if has_kind h new KElement && opt_eqb (n_docel (h this)) None
            then upd h this (set_docel_f (Some new)) else h in
  if has_kind h1 new KDocType && opt_eqb (n_doctype (h1 this)) None
  then upd h1 this (set_doctype_f (Some new)) else h1.
Lemma marked_same : forall {A} (g : node -> A), (forall v n, g (set_docel_f v n) = g n) -> (forall v n, g (set_doctype_f v n) = g n) ->
  forall h this new i, g (marked h this new i) = g (h i).
Proof.
  intros A g G1 G2 h this new i. unfold marked.
  set (h1 := if has_kind h new KElement && _ then _ else _).
  assert (E1 : g (h1 i) = g (h i)).
  { unfold h1. destruct (_ && _); [|reflexivity]. rewrite upd_at, G1. apply if_same. }
  clearbody h1. destruct (_ && _); [|exact E1]. rewrite upd_at, G2, if_same. exact E1.
Qed.
Lemma marked_kids : forall h this new i, n_kids (marked h this new i) = n_kids (h i).
Proof. intros. apply marked_same; reflexivity. Qed.
Lemma marked_parent : forall h this new i, n_parent (marked h this new i) = n_parent (h i).
Proof. intros. apply marked_same; reflexivity. Qed.
Lemma marked_static : forall h this new i, static (marked h this new i) = static (h i).
Proof. intros. apply marked_same; reflexivity. Qed.

(** The effect of a successful insertBefore of one node. *)
Record placed_kids (h h' : heap) (this new : nat) (list' : list nat) : Prop := {
  pk_kids : n_kids (h' this) = list';
  pk_others : forall i, i <> this -> n_kids (h' i) = without new (n_kids (h i));
  pk_static : forall i, static (h' i) = static (h i) }.
Lemma vinsert_one : forall f h this new ref h' r, good h -> (n_kind (h new) = KDocument -> this <> new) ->
  n_kind (h new) <> KFragment -> vinsert f h this new ref = Ok h' r ->
  r = new /\ placed_kids h h' this new (put ref new (without new (n_kids (h this))))
  /\ ref_ok h this new ref /\ (forall i, n_parent (h' i) = if Nat.eqb i new then Some this else n_parent (h i))
  /\ can_have_parent (n_kind (h new)) = true.
Proof.
  intros f h this new ref h' r G ND NF E. destruct f as [|f]; [discriminate|]. cbn [vinsert] in E.
  destruct (childless (n_kind (h this))) eqn:CL; [discriminate|].
  assert (NF' : has_kind h new KFragment = false).
  { destruct (has_kind h new KFragment) eqn:KF; [apply has_kind_eq in KF; contradiction|reflexivity]. }
  rewrite NF' in E.
  assert (BASE : forall h1 r1, (if n_ro (h this) then Ex NO_MODIFICATION h else insert_node f h this new ref) = Ok h1 r1 ->
    r1 = new /\ placed_kids h h1 this new (put ref new (without new (n_kids (h this)))) /\ ref_ok h this new ref
    /\ (forall i, n_parent (h1 i) = if Nat.eqb i new then Some this else n_parent (h i))
    /\ can_have_parent (n_kind (h new)) = true).
  { intros h1 r1 E1. destruct (n_ro (h this)); [discriminate|].
    destruct (insert_node_spec _ _ _ _ _ _ _ G CL ND E1) as (_ & R & P & PP & RO). split; [exact R|].
    split; [|split; [exact RO|split; [exact PP|apply (p_kind _ _ _ _ _ P)]]]. constructor; apply P. }
  destruct (has_kind h this KDocument); [|apply BASE, E].
  destruct (_ && _); [discriminate|]. destruct (_ && _); [discriminate|].
  destruct (if n_ro (h this) then _ else _) as [h1 r1| |] eqn:EB; cbn [rbind] in E; try discriminate.
  destruct (BASE h1 r1 eq_refl) as (R & [PK PO PS] & RO & PP & CP).
  fold (marked h1 this new) in E. injection E as <- <-.
  split; [exact R|]. split; [|split; [exact RO|split; [|exact CP]]].
  - constructor; intros; rewrite ?marked_kids, ?marked_static; auto.
  - intro i. rewrite marked_parent. apply PP.
Qed.

Lemma frag_settles : forall n h this frag ref, good h -> this <> frag -> length (n_kids (h frag)) = n ->
  settles (fun f => frag_loop f h this frag ref).
Proof.
  induction n as [|n IH]; intros h this frag ref G NE LN.
  - eapply settles_S; [intro f; cbn [frag_loop]; reflexivity|].
    unfold first_child. destruct (n_kids (h frag)); [|discriminate]. cbn [hd_error]. apply settles_now; discriminate.
  - eapply settles_S; [intro f; cbn [frag_loop]; reflexivity|].
    unfold first_child. destruct (n_kids (h frag)) as [|c l] eqn:KF; [discriminate|]. cbn [hd_error].
    apply settles_bind; [apply settles_now, vremove_div|]. intros _ h1 r1 V.
    destruct (vremove_spec _ _ _ _ _ G V) as (R & G1 & _ & PC & _).
    assert (CH := vremove_child_kind _ _ _ _ _ G V).
    assert (M := removed_moved _ _ _ _ (proj1 G) PC (proj2 (proj2 (proj2 (proj2 (vremove_spec _ _ _ _ _ G V))))) R).
    assert (NF : n_kind (h1 c) <> KFragment) by (intro X; rewrite X in CH; discriminate).
    apply settles_bind; [apply vinsert_settles_one; [exact G1|apply not_doc, CH|exact NF]|].
    intros f h2 r2 VI. destruct (vinsert_one _ _ _ _ _ _ _ G1 (not_doc _ _ CH) NF VI) as (_ & PK & _).
    apply IH; auto.
    + assert (S := proj1 (vinsert_step f) h1 this c ref G1 (not_doc _ _ CH)). rewrite VI in S. apply S.
    + rewrite (pk_others _ _ _ _ _ PK frag (not_eq_sym NE)), (mo_kids _ _ _ M), KF.
      assert (NDK := l_nodup h (proj1 G) frag). rewrite KF in NDK. inversion NDK as [|? ? N1 N2]; subst.
      assert (W := without_mid c [] l NDK). cbn [app] in W. rewrite W, (without_notin c l N1). cbn in LN. lia.
Qed.
Lemma vinsert_settles : forall h this new ref, good h -> (n_kind (h new) = KDocument -> this <> new) ->
  (n_kind (h new) = KFragment -> this <> new) -> settles (fun f => vinsert f h this new ref).
Proof.
  intros h this new ref G ND NF. destruct (has_kind h new KFragment) eqn:KF.
  - apply vinsert_settles_base; [exact G|]. rewrite KF. apply frag_settles with (length (n_kids (h new))); auto.
    apply NF, has_kind_eq, KF.
  - apply vinsert_settles_one; auto. intro K. apply has_kind_eq in K. congruence.
Qed.
Lemma vreplace_settles_base : forall h this new old,
  settles (fun f => if has_kind h new KFragment then
          rbind (vremove h new (last_child h new)) (fun h r =>
          match r with
          | None => Div
          | Some c => rbind (vreplace f h this c old) (fun h _ =>
              rbind (vinsert f h this new (Some c)) (fun h _ => Ok h old))
          end)
     else replace_node f h this new old) ->
  settles (fun f => vreplace f h this new old).
Proof.
  intros h this new old B.
  eapply settles_S; [intro f; cbn [vreplace]; reflexivity|].
  destruct (childless (n_kind (h this))); [apply settles_now; discriminate|].
  match goal with |- settles (fun f => if _ then if _ then _ else if _ then _ else if _ then _ else rbind (@?b f) _ else _) =>
    assert (B1 : settles b) end.
  { destruct (n_ro (h this)); [apply settles_now; discriminate|exact B]. }
  destruct (has_kind h this KDocument); [|exact B1].
  destruct (negb _); [apply settles_now; discriminate|].
  destruct (_ && _); [apply settles_now; discriminate|].
  destruct (_ && _); [apply settles_now; discriminate|].
  apply settles_bind; [exact B1|]. intros. match goal with |- context[if ?b then _ else _] => destruct b end; apply settles_now; discriminate.
Qed.
Lemma vreplace_settles_one : forall h this new old, good h -> (n_kind (h new) = KDocument -> this <> new) ->
  n_kind (h new) <> KFragment -> settles (fun f => vreplace f h this new old).
Proof.
  intros h this new old G ND NF.
  destruct (childless (n_kind (h this))) eqn:CL.
  - eapply settles_S; [intro f; cbn [vreplace]; rewrite CL; reflexivity|]. apply settles_now; discriminate.
  - apply vreplace_settles_base.
    destruct (has_kind h new KFragment) eqn:KF; [apply has_kind_eq in KF; contradiction|].
    apply replace_node_settles; auto.
Qed.
Lemma vreplace_settles : forall h this new old, good h -> (n_kind (h new) = KDocument -> this <> new) ->
  (n_kind (h new) = KFragment -> this <> new) -> settles (fun f => vreplace f h this new old).
Proof.
  intros h this new old G ND NF. destruct (has_kind h new KFragment) eqn:KF.
  - apply vreplace_settles_base. rewrite KF. apply has_kind_eq in KF.
    apply settles_bind; [apply settles_now, vremove_div|]. intros _ h1 r1 V.
    destruct (last_child h new) as [c|] eqn:LC; [|exfalso; apply (vremove_none _ _ _ _ V)].
    assert (S1 := vremove_step h new (Some c) G). rewrite V in S1. cbn in S1.
    assert (KC := vremove_child_kind _ _ _ _ _ G V).
    destruct (vremove_spec _ _ _ _ _ G V) as (_ & _ & -> & _).
    assert (NFc : n_kind (h1 c) <> KFragment) by (intro X; rewrite X in KC; discriminate).
    apply settles_bind; [apply vreplace_settles_one; [apply S1|apply not_doc, KC|exact NFc]|].
    intros f h2 r2 VR. assert (S2 := vreplace_step f h1 this c old (proj1 S1) (not_doc _ _ KC)). rewrite VR in S2. cbn in S2.
    apply settles_bind; [|intros; apply settles_now; discriminate].
    apply vinsert_settles; [apply S2| |].
    + intro K. rewrite (static_kind _ _ (proj2 S2 new)), (static_kind _ _ (proj2 S1 new)) in K. congruence.
    + intros _. apply NF, KF.
  - apply vreplace_settles_one; auto. intro K. apply has_kind_eq in K. congruence.
Qed.
Lemma call_settles : forall h o, good h -> few_parents h -> not_into_itself KDocument h o -> not_into_itself KFragment h o ->
  settles (fun f => dom_call f h o).
Proof.
  intros h o G FP ND NF. unfold not_into_itself in *.
  destruct o as [t n r|t n old|t old|t]; cbn [dom_call op_target] in *.
  - apply settles_bind; [|intros; apply settles_now; discriminate].
    apply vinsert_settles; auto; intro K; [apply ND|apply NF]; apply has_kind_eq, K.
  - apply settles_bind; [|intros; apply settles_now; discriminate].
    apply vreplace_settles; auto; intro K; [apply ND|apply NF]; apply has_kind_eq, K.
  - apply settles_bind; [apply settles_now, vremove_div|intros; apply settles_now; discriminate].
  - destruct (freeze_settles h t (few_finite h G FP t) h (fun j => eq_refl)) as (f0 & h' & H).
    exists f0, (Ok h' tt). split; [discriminate|]. intros f L. rewrite (H f L). reflexivity.
Qed.
Lemma into_itself_kind : forall k h h' o, (forall i, n_kind (h' i) = n_kind (h i)) ->
  not_into_itself k h o -> not_into_itself k h' o.
Proof.
  intros k h h' o K. unfold not_into_itself, has_kind. destruct (op_target o) as [[t n]|]; auto. rewrite K. auto.
Qed.
Lemma run_settles : forall ops h, good h -> few_parents h -> Forall (not_into_itself KDocument h) ops -> Forall (not_into_itself KFragment h) ops ->
  exists f0 h', forall f, (f0 <= f)%nat -> dom_run f h ops = Some h'.
Proof.
  induction ops as [|o ops IH]; intros h G FP F1 F2.
  - exists O, h. reflexivity.
  - inversion F1 as [|? ? A1 A2]; inversion F2 as [|? ? B1 B2]; subst.
    destruct (call_settles h o G FP A1 B1) as (f0 & r & N & H).
    assert (NE := call_nearly f0 h o). rewrite H in NE by lia.
    assert (C := call_good f0 h o G A1). rewrite H in C by lia.
    assert (X : forall h1, good h1 -> few_parents h1 -> (forall i, n_kind (h1 i) = n_kind (h i)) ->
       exists f1 h', forall f, (f1 <= f)%nat -> dom_run f h1 ops = Some h').
    { intros h1 G1 FP1 K1. apply IH; [exact G1|exact FP1| |].
      - eapply Forall_impl; [|exact A2]. intros a; apply into_itself_kind, K1.
      - eapply Forall_impl; [|exact B2]. intros a; apply into_itself_kind, K1. }
    destruct r as [h1 a|e h1|]; [| |contradiction]; destruct (X h1 (proj1 C) (few_nearly h h1 FP NE) (proj2 C)) as (f1 & h' & H1);
      exists (Nat.max f0 f1), h'; intros f L; cbn [dom_run]; rewrite H by lia; apply H1; lia.
Qed.

(** * Exceptions *)
Lemma insert_node_ex : forall f h this new ref e h', good h ->
  childless (n_kind (h this)) = false -> (n_kind (h new) = KDocument -> this <> new) ->
  ref_ok h this new ref -> insert_node f h this new ref = Ex e h' -> h' = h.
Proof.
  intros f h this new ref e h' G CL ND RO E. unfold insert_node in E.
  destruct (check_can_add f h this new) as [h1 u1|e1 h1|] eqn:CA; cbn [rbind] in E; [| |discriminate].
  2:{ injection E as -> ->. apply check_ex in CA. exact CA. }
  destruct (can_add_spec _ _ _ _ _ _ G CL ND CA) as (S1 & G1 & ST1 & DD1 & OW1 & ON1 & UP1 & CP & SAME).
  destruct (remove_if_required h1 new) as [h2 u2|e2 h2|] eqn:RR; cbn [rbind] in E; [| |discriminate].
  - destruct (out_spec _ _ _ _ G1 RR) as (G2 & M).
    destruct ref as [r|]; [|discriminate].
    destruct (insert_at r new (n_kids (h2 this))) eqn:IA; [discriminate|]. exfalso.
    apply insert_at_none in IA. apply IA. rewrite (mo_kids _ _ _ M), without_in.
    destruct (S1 this) as (-> & _). exact RO.
  - injection E as -> ->. assert (h' = h1) by (apply out_ex in RR; auto). subst h'.
    apply SAME. intro N. unfold remove_if_required in RR. rewrite hidden_parent in RR by apply G1.
    destruct (n_parent (h1 new)) as [p|] eqn:P; [|discriminate].
    destruct (S1 new) as (_ & E2 & _). rewrite E2 in P. apply (t_inside h (proj2 G) new p P N).
Qed.
Lemma replace_node_ex : forall f h this new old e h', good h ->
  childless (n_kind (h this)) = false -> (n_kind (h new) = KDocument -> this <> new) ->
  ref_ok h this new (Some old) -> replace_node f h this new old = Ex e h' -> h' = h.
Proof.
  intros f h this new old e h' G CL ND RO E. unfold replace_node in E.
  destruct (check_can_add f h this new) as [h1 u1|e1 h1|] eqn:CA; cbn [rbind] in E; [| |discriminate].
  2:{ injection E as -> ->. apply check_ex in CA. exact CA. }
  destruct (can_add_spec _ _ _ _ _ _ G CL ND CA) as (S1 & G1 & ST1 & DD1 & OW1 & ON1 & UP1 & CP & SAME).
  destruct (remove_if_required h1 new) as [h2 u2|e2 h2|] eqn:RR; cbn [rbind] in E; [| |discriminate].
  - destruct (out_spec _ _ _ _ G1 RR) as (G2 & M).
    destruct (replace_at old new (n_kids (h2 this))) eqn:IA; [discriminate|]. exfalso.
    apply replace_at_none in IA. apply IA. rewrite (mo_kids _ _ _ M), without_in.
    destruct (S1 this) as (-> & _). exact RO.
  - injection E as -> ->. assert (h' = h1) by (apply out_ex in RR; auto). subst h'.
    apply SAME. intro N. unfold remove_if_required in RR. rewrite hidden_parent in RR by apply G1.
    destruct (n_parent (h1 new)) as [p|] eqn:P; [|discriminate].
    destruct (S1 new) as (_ & E2 & _). rewrite E2 in P. apply (t_inside h (proj2 G) new p P N).
Qed.
Lemma vinsert_ex : forall f h this new ref e h', good h -> (n_kind (h new) = KDocument -> this <> new) ->
  n_kind (h new) <> KFragment -> ref_ok h this new ref -> vinsert f h this new ref = Ex e h' -> h' = h.
Proof.
  intros f h this new ref e h' G ND NF RO E. destruct f as [|f]; [discriminate|]. cbn [vinsert] in E.
  destruct (childless (n_kind (h this))) eqn:CL; [congruence|].
  assert (NF' : has_kind h new KFragment = false).
  { destruct (has_kind h new KFragment) eqn:KF; [apply has_kind_eq in KF; contradiction|reflexivity]. }
  rewrite NF' in E.
  assert (BASE : forall e1 h1, (if n_ro (h this) then Ex NO_MODIFICATION h else insert_node f h this new ref) = Ex e1 h1 -> h1 = h).
  { intros e1 h1 E1. destruct (n_ro (h this)); [congruence|]. apply (insert_node_ex _ _ _ _ _ _ _ G CL ND RO E1). }
  destruct (has_kind h this KDocument); [|apply (BASE _ _ E)].
  destruct (_ && _); [congruence|]. destruct (_ && _); [congruence|].
  destruct (if n_ro (h this) then _ else _) as [h1 r1|e1 h1|] eqn:EB; cbn [rbind] in E; try discriminate.
  injection E as -> ->. apply (BASE _ _ eq_refl).
Qed.
Lemma vreplace_ex : forall f h this new old e h', good h -> (n_kind (h new) = KDocument -> this <> new) ->
  n_kind (h new) <> KFragment -> ref_ok h this new (Some old) -> vreplace f h this new old = Ex e h' -> h' = h.
Proof.
  intros f h this new old e h' G ND NF RO E. destruct f as [|f]; [discriminate|]. cbn [vreplace] in E.
  destruct (childless (n_kind (h this))) eqn:CL; [congruence|].
  assert (NF' : has_kind h new KFragment = false).
  { destruct (has_kind h new KFragment) eqn:KF; [apply has_kind_eq in KF; contradiction|reflexivity]. }
  rewrite NF' in E.
  assert (BASE : forall e1 h1, (if n_ro (h this) then Ex NO_MODIFICATION h else replace_node f h this new old) = Ex e1 h1 -> h1 = h).
  { intros e1 h1 E1. destruct (n_ro (h this)); [congruence|]. apply (replace_node_ex _ _ _ _ _ _ _ G CL ND RO E1). }
  destruct (has_kind h this KDocument); [|apply (BASE _ _ E)].
  destruct (negb _); [congruence|].
  destruct (_ && _); [congruence|]. destruct (_ && _ && _); [congruence|].
  destruct (if n_ro (h this) then _ else _) as [h1 r1|e1 h1|] eqn:EB; cbn [rbind] in E; try discriminate.
  - match type of E with (if ?b then _ else _) = _ => destruct b end; discriminate.
  - injection E as -> ->. apply (BASE _ _ eq_refl).
Qed.
(** The effect of a successful replaceChild of one node. *)
Lemma vreplace_one : forall f h this new old h' r, good h -> (n_kind (h new) = KDocument -> this <> new) ->
  n_kind (h new) <> KFragment -> vreplace f h this new old = Ok h' r ->
  r = old /\ placed_kids h h' this new (put_for old new (without new (n_kids (h this))))
  /\ ref_ok h this new (Some old)
  /\ (forall i, n_parent (h' i) = if Nat.eqb i new then Some this else if Nat.eqb i old then None else n_parent (h i)).
Proof.
  intros f h this new old h' r G ND NF E. destruct f as [|f]; [discriminate|]. cbn [vreplace] in E.
  destruct (childless (n_kind (h this))) eqn:CL; [discriminate|].
  assert (NF' : has_kind h new KFragment = false).
  { destruct (has_kind h new KFragment) eqn:KF; [apply has_kind_eq in KF; contradiction|reflexivity]. }
  rewrite NF' in E.
  assert (BASE : forall h1 r1, (if n_ro (h this) then Ex NO_MODIFICATION h else replace_node f h this new old) = Ok h1 r1 ->
    r1 = old /\ placed_kids h h1 this new (put_for old new (without new (n_kids (h this)))) /\ ref_ok h this new (Some old)
    /\ (forall i, n_parent (h1 i) = if Nat.eqb i new then Some this else if Nat.eqb i old then None else n_parent (h i))).
  { intros h1 r1 E1. destruct (n_ro (h this)) eqn:RO1; [discriminate|].
    destruct (replace_node_spec _ _ _ _ _ _ _ G CL ND RO1 E1) as (_ & R & P & PP & RO). split; [exact R|].
    split; [|split; [exact RO|exact PP]]. constructor; apply P. }
  destruct (has_kind h this KDocument); [|apply BASE, E].
  destruct (negb _); [discriminate|].
  destruct (_ && _); [discriminate|]. destruct (_ && _ && _); [discriminate|].
  destruct (if n_ro (h this) then _ else _) as [h1 r1| |] eqn:EB; cbn [rbind] in E; try discriminate.
  destruct (BASE h1 r1 eq_refl) as (R & [PK PO PS] & RO & PP).
  match type of E with (if ?b then _ else _) = _ => destruct b end; injection E as <- <-.
  - split; [exact R|]. split; [|split; [exact RO|]].
    + constructor; intros; rewrite ?upd_at; cbn; rewrite ?if_same; auto.
    + intro i. rewrite upd_at. cbn. rewrite if_same. apply PP.
  - split; [exact R|]. split; [constructor; auto|]. auto.
Qed.

(** * A fragment's children move together *)
Lemma put_before_split : forall a b r new, ~ In r a -> put_before r new (a ++ r :: b) = a ++ new :: r :: b.
Proof.
  induction a as [|y a IH]; intros b r new N; cbn.
  - rewrite Nat.eqb_refl. reflexivity.
  - destruct (Nat.eqb_spec y r) as [->|]; [exfalso; apply N; left; reflexivity|].
    rewrite IH; [reflexivity|]. intro I; apply N; right; exact I.
Qed.
(** The list after all of [l] has been put before [ref]. *)
Lemma frag_effect : forall l f h this frag ref h' r, good h -> this <> frag -> n_kids (h frag) = l ->
  match ref with Some x => In x (n_kids (h this)) | None => True end ->
  frag_loop f h this frag ref = Ok h' r ->
  r = frag /\ n_kids (h' frag) = [] /\ put_list ref l (n_kids (h this)) (n_kids (h' this))
  /\ (forall i, i <> this -> i <> frag -> n_kids (h' i) = n_kids (h i)).
Proof.
  induction l as [|c l IH]; intros f h this frag ref h' r G NE KF RF E; (destruct f as [|f]; [discriminate|]);
    cbn [frag_loop] in E; unfold first_child in E; rewrite KF in E; cbn [hd_error] in E.
  - injection E as <- <-. repeat split; auto. unfold put_list. destruct ref as [x|].
    + destruct (in_split _ _ RF) as (a & b & K). exists a, b. auto.
    + rewrite app_nil_r. reflexivity.
  - destruct (vremove h frag (Some c)) as [h1 r1| |] eqn:V; cbn [rbind] in E; try discriminate.
    destruct (vremove_spec _ _ _ _ _ G V) as (R & G1 & _ & PC & KP).
    assert (CH := vremove_child_kind _ _ _ _ _ G V).
    assert (M := removed_moved _ _ _ _ (proj1 G) PC KP R).
    assert (NF : n_kind (h1 c) <> KFragment) by (intro X; rewrite X in CH; discriminate).
    destruct (vinsert f h1 this c ref) as [h2 r2| |] eqn:VI; cbn [rbind] in E; try discriminate.
    assert (S2 := proj1 (vinsert_step f) h1 this c ref G1 (not_doc _ _ CH)). rewrite VI in S2.
    destruct (vinsert_one _ _ _ _ _ _ _ G1 (not_doc _ _ CH) NF VI) as (_ & PK & RO & _).
    assert (NDK := l_nodup h (proj1 G) frag). rewrite KF in NDK. inversion NDK as [|? ? N1 N2]; subst.
    assert (NC : forall i, i <> frag -> ~ In c (n_kids (h i))).
    { intros i N I. apply (l_parent h (proj1 G)) in I. congruence. }
    assert (K1 : forall i, i <> frag -> n_kids (h1 i) = n_kids (h i)) by (apply (r_others _ _ _ _ R)).
    assert (K1F : n_kids (h1 frag) = l).
    { rewrite (mo_kids _ _ _ M), KF. apply (without_mid c [] l NDK). }
    assert (K2F : n_kids (h2 frag) = l).
    { rewrite (pk_others _ _ _ _ _ PK frag (not_eq_sym NE)), K1F. apply without_notin, N1. }
    assert (K2T : n_kids (h2 this) = put ref c (n_kids (h this))).
    { rewrite (pk_kids _ _ _ _ _ PK), K1 by exact NE. rewrite without_notin; [reflexivity|apply NC, NE]. }
    destruct (IH f h2 this frag ref h' r (proj1 S2) NE K2F) as (E1 & E2 & E3 & E4); [|exact E|].
    + destruct ref as [x|]; [|exact I]. rewrite K2T. cbn [put].
      destruct (in_split _ _ RF) as (a & b & K). rewrite K. assert (NDT := l_nodup h (proj1 G) this).
      rewrite K in NDT. rewrite put_before_split by apply (nodup_mid _ _ _ NDT).
      apply in_or_app. right; right; left; reflexivity.
    + split; [exact E1|]. split; [exact E2|]. split.
      * unfold put_list in *. destruct ref as [x|]; cbn [put] in *.
        -- destruct E3 as (a & b & K3 & K4). destruct (in_split _ _ RF) as (a0 & b0 & K0).
           assert (NDT := l_nodup h (proj1 G) this). rewrite K0 in NDT.
           rewrite K0, put_before_split in K2T by apply (nodup_mid _ _ _ NDT).
           assert (ND2 := l_nodup h2 (proj1 (proj1 S2)) this).
           assert (a = a0 ++ [c] /\ b = b0) as [-> ->].
           { rewrite K3 in ND2. assert (Q : a ++ x :: b = (a0 ++ [c]) ++ x :: b0).
             { rewrite <- K3, K2T, <- app_assoc. reflexivity. }
             assert (X1 := nodup_mid _ _ _ ND2). rewrite Q in ND2. assert (X2 := nodup_mid _ _ _ ND2).
             clear -Q X1 X2. destruct X1 as (_ & A1 & _). destruct X2 as (_ & A2 & _).
             revert Q A1 A2. generalize (a0 ++ [c]). clear. intros a1. revert a1.
             induction a as [|y a IH]; intros [|z a1] Q A1 A2; cbn in *.
             - injection Q as ->. auto.
             - injection Q as <- _. exfalso; apply A2; left; reflexivity.
             - injection Q as -> _. exfalso; apply A1; left; reflexivity.
             - injection Q as <- Q. destruct (IH a1 Q) as [-> ->]; auto. }
           exists a0, b0. split; [exact K0|]. rewrite K4, <- app_assoc. reflexivity.
        -- rewrite E3, K2T, <- app_assoc. reflexivity.
      * intros i N3 N4. rewrite E4 by assumption. rewrite (pk_others _ _ _ _ _ PK i N3), K1 by assumption.
        apply without_notin, NC, N4.
Qed.

(** * A fragment put into itself: the call does not return *)
Definition loopy (h : heap) (g : nat) : Prop :=
  good h /\ n_kind (h g) = KFragment /\ n_ro (h g) = false /\ n_kids (h g) <> [] /\
  forall c, In c (n_kids (h g)) -> content_kind (n_kind (h c)) = true /\ n_owner (h c) = n_owner (h g).
Lemma self_fragment_diverges : forall f h g, loopy h g -> frag_loop f h g g None = Div.
Proof.
  induction f as [f IHf] using (well_founded_induction lt_wf).
  intros h g (G & KG & RO & NE & KC). destruct f as [|f]; [reflexivity|].
  cbn [frag_loop]. unfold first_child. destruct (n_kids (h g)) as [|c l] eqn:KF; [contradiction|]. cbn [hd_error].
  destruct (vremove h g (Some c)) as [h1 r1|e1 h1|] eqn:V; cbn [rbind]; [| |reflexivity].
  2:{ exfalso. unfold vremove in V. rewrite KG in V. cbn [childless] in V. unfold has_kind in V. rewrite KG in V.
      cbn [nkind_eqb] in V. unfold do_remove in V. rewrite RO, KF in V. cbn [erase] in V. rewrite Nat.eqb_refl in V. discriminate. }
  destruct (vremove_spec _ _ _ _ _ G V) as (R & G1 & _ & PC & KP).
  assert (CH := vremove_child_kind _ _ _ _ _ G V).
  assert (M := removed_moved _ _ _ _ (proj1 G) PC KP R).
  assert (NF : n_kind (h1 c) <> KFragment) by (intro X; rewrite X in CH; discriminate).
  destruct (KC c (or_introl eq_refl)) as [KC1 KC2].
  assert (KK : forall i, n_kind (h1 i) = n_kind (h i)) by (intro i; apply static_kind, (r_static _ _ _ _ R)).
  assert (PN : n_parent (h1 c) = None) by (rewrite (r_parents _ _ _ _ R), Nat.eqb_refl; reflexivity).
  assert (PG : n_parent (h1 g) = None).
  { destruct (n_parent (h1 g)) as [q|] eqn:P; [|reflexivity]. assert (X := t_child h1 (proj2 G1) g q P).
    rewrite KK, KG in X. discriminate. }
  assert (GC : g <> c) by (intros ->; rewrite KG in KC1; discriminate).
  destruct (vinsert f h1 g c None) as [h2 r2|e2 h2|] eqn:VI; cbn [rbind]; [| |reflexivity].
  - assert (S2 := proj1 (vinsert_step f) h1 g c None G1 (not_doc _ _ CH)). rewrite VI in S2.
    destruct f as [|f]; [discriminate|]. assert (VI' := VI). cbn [vinsert] in VI.
    rewrite KK, KG in VI. cbn [childless] in VI. unfold has_kind in VI. rewrite !KK, KG in VI. cbn [nkind_eqb] in VI.
    assert (X : nkind_eqb (n_kind (h c)) KFragment = false) by (destruct (n_kind (h c)); try discriminate; reflexivity).
    rewrite X in VI. destruct (n_ro (h1 g)); [discriminate|].
    assert (CL : childless (n_kind (h1 g)) = false) by (rewrite KK, KG; reflexivity).
    destruct (insert_node_spec _ _ _ _ _ _ _ G1 CL (not_doc _ _ CH) VI) as (_ & _ & P & PP & _).
    apply IHf; [lia|]. split; [apply S2|].
    assert (KG2 : n_kids (h2 g) = l ++ [c]).
    { rewrite (p_kids _ _ _ _ _ P). cbn [put]. f_equal.
      assert (NDK := l_nodup h (proj1 G) g). rewrite KF in NDK. inversion NDK as [|? ? N1 N2]; subst.
      rewrite (mo_kids _ _ _ M), KF. assert (W := without_mid c [] l NDK). cbn [app] in W. rewrite W. apply without_notin, N1. }
    assert (OC : n_owner (h2 c) = n_owner (h c)).
    { assert (OW1 : n_owner (h1 c) <> None).
      { rewrite (mo_owner _ _ _ M). apply (t_inside h (proj2 G) c g PC). }
      clear -VI OW1 M G1 CL CH. unfold insert_node in VI.
      destruct (check_can_add f h1 g c) as [h3 u3| |] eqn:CA; cbn [rbind] in VI; try discriminate.
      destruct (can_add_spec _ _ _ _ _ _ G1 CL (not_doc _ _ CH) CA) as (_ & G3 & _ & _ & _ & _ & _ & _ & SAME).
      specialize (SAME OW1). subst h3.
      destruct (remove_if_required h1 c) as [h4 u4| |] eqn:RR; cbn [rbind] in VI; try discriminate.
      destruct (out_spec _ _ _ _ G3 RR) as (_ & M2).
      injection VI as <- _. rewrite <- (mo_owner _ _ _ M c), <- (mo_owner _ _ _ M2 c).
      apply info_owner. destruct (last_child h4 g); autorewrite with hp; reflexivity. }
    split; [rewrite (static_kind _ _ (proj2 S2 g)), KK; exact KG|].
    split; [rewrite (static_ro _ _ (proj2 S2 g)), (static_ro _ _ (r_static _ _ _ _ R g)); exact RO|].
    split; [rewrite KG2; intro Y; apply app_eq_nil in Y; destruct Y; discriminate|].
    intros d I. rewrite KG2 in I. assert (ID : In d (c :: l)).
    { apply in_app_or in I as [I|[->|[]]]; [right; exact I|left; reflexivity]. }
    destruct (KC d ID) as [K1 K2]. rewrite (static_kind _ _ (proj2 S2 d)), KK. split; [exact K1|].
    assert (OG : n_owner (h2 g) = n_owner (h g)).
    { rewrite (p_owner _ _ _ _ _ P g GC). apply (mo_owner _ _ _ M). }
    rewrite OG. destruct (Nat.eq_dec d c) as [->|ND]; [rewrite OC; exact KC2|].
    rewrite (p_owner _ _ _ _ _ P d ND), (mo_owner _ _ _ M). exact K2.
  - exfalso. destruct f as [|f]; [discriminate|]. cbn [vinsert] in VI.
    rewrite KK, KG in VI. cbn [childless] in VI. unfold has_kind in VI. rewrite !KK, KG in VI. cbn [nkind_eqb] in VI.
    assert (X : nkind_eqb (n_kind (h c)) KFragment = false) by (destruct (n_kind (h c)); try discriminate; reflexivity).
    rewrite X in VI. rewrite (static_ro _ _ (r_static _ _ _ _ R g)), RO in VI.
    unfold insert_node in VI.
    destruct (check_can_add f h1 g c) as [h3 u3|e3 h3|] eqn:CA; cbn [rbind] in VI; try discriminate.
    + destruct (remove_if_required h3 c) as [h4 u4|e4 h4|] eqn:RR; cbn [rbind] in VI; try discriminate.
      assert (CL : childless (n_kind (h1 g)) = false) by (rewrite KK, KG; reflexivity).
      destruct (can_add_spec _ _ _ _ _ _ G1 CL (not_doc _ _ CH) CA) as (S3 & G3 & _).
      unfold remove_if_required in RR. rewrite hidden_parent in RR by apply G3.
      destruct (S3 c) as (_ & E3 & _). rewrite E3, PN in RR. discriminate.
    + unfold check_can_add in CA. rewrite !(mo_owner _ _ _ M), KC2 in CA.
      destruct (n_owner (h g)) as [d|]; [|discriminate]. rewrite Nat.eqb_refl in CA. cbn [negb] in CA.
      assert (CL2 : climb f h1 g c = Some false \/ climb f h1 g c = None).
      { destruct f as [|f]; [right; reflexivity|left]. cbn [climb]. apply Nat.eqb_neq in GC. rewrite GC.
        rewrite hidden_parent, PG by apply G1. reflexivity. }
      unfold has_kind in CA. rewrite !KK, KG in CA. cbn [nkind_eqb andb] in CA.
      assert (X2 : nkind_eqb (n_kind (h c)) KDocument = false) by (destruct (n_kind (h c)); try discriminate; reflexivity).
      rewrite X2 in CA. destruct CL2 as [-> | ->] in CA; [|discriminate].
      cbn [child_kind_ok] in CA. rewrite KC1 in CA. discriminate.
Qed.
