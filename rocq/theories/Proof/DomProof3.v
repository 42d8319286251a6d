From Verif.Model Require Import Base Dom.
From Verif.Spec Require Import DomSpec.
From Verif.Proof Require Import DomProof DomProof2.

(** * documentElement_ and documentType_ *)

Definition of_kind (h : heap) (k : nkind) (l : list nat) : list nat := filter (fun c => has_kind h c k) l.
Lemma of_kind_ext : forall h h' k l, (forall i, n_kind (h' i) = n_kind (h i)) -> of_kind h' k l = of_kind h k l.
Proof. intros h h' k l K. unfold of_kind. apply filter_ext. intro i. unfold has_kind. rewrite K. reflexivity. Qed.
Lemma of_kind_without : forall h k x l, of_kind h k (without x l) = without x (of_kind h k l).
Proof.
  intros h k x; induction l as [|y l IH]; [reflexivity|]. unfold of_kind, without in *. cbn.
  destruct (Nat.eqb y x) eqn:E1, (has_kind h y k) eqn:E2; cbn; rewrite ?E1, ?E2; cbn; rewrite ?IH; reflexivity.
Qed.
Lemma of_kind_in : forall h k x l, In x (of_kind h k l) <-> In x l /\ n_kind (h x) = k.
Proof. intros. unfold of_kind. rewrite filter_In, has_kind_eq. reflexivity. Qed.

(** A document whose list loses [new]. *)
Lemma lose_doc : forall h h1 new d, links h -> document_ok h d -> n_kind (h d) = KDocument ->
  (forall i, n_kind (h1 i) = n_kind (h i)) ->
  n_kids (h1 d) = without new (n_kids (h d)) ->
  n_doctype (h1 d) = n_doctype (h d) ->
  n_docel (h1 d) = (if opt_eqb (n_parent (h new)) (Some d) && has_kind h d KDocument && opt_eqb (n_docel (h d)) (Some new)
    then None else n_docel (h d)) ->
  (n_parent (h new) = Some d -> n_kind (h d) = KDocument -> n_doctype (h d) <> Some new) ->
  document_ok h1 d.
Proof.
  intros h h1 new d L [DE DT] KD KK K T E KP. unfold document_ok, element_kids, doctype_kids, kids in *.
  fold (of_kind h1 KElement (n_kids (h1 d))). fold (of_kind h1 KDocType (n_kids (h1 d))).
  fold (of_kind h KElement (n_kids (h d))) in DE. fold (of_kind h KDocType (n_kids (h d))) in DT.
  rewrite !(of_kind_ext h h1) by exact KK. rewrite K, !of_kind_without, DE, DT, T, E.
  assert (PE : forall x, n_docel (h d) = Some x -> n_parent (h x) = Some d).
  { intros x X. rewrite X in DE. cbn in DE. apply (l_parent h L).
    assert (In x (of_kind h KElement (n_kids (h d)))) by (rewrite DE; left; reflexivity).
    apply of_kind_in in H. apply H. }
  assert (PT : forall x, n_doctype (h d) = Some x -> n_parent (h x) = Some d).
  { intros x X. rewrite X in DT. cbn in DT. apply (l_parent h L).
    assert (In x (of_kind h KDocType (n_kids (h d)))) by (rewrite DT; left; reflexivity).
    apply of_kind_in in H. apply H. }
  split.
  - destruct (n_docel (h d)) as [e|] eqn:EE; cbn.
    + destruct (Nat.eqb_spec e new) as [->|N].
      * rewrite (PE new eq_refl). cbn. rewrite Nat.eqb_refl. cbn.
        assert (X : has_kind h d KDocument = true) by (apply has_kind_eq; exact KD). rewrite X. reflexivity.
      * rewrite andb_false_r. reflexivity.
    + rewrite andb_false_r. reflexivity.
  - destruct (n_doctype (h d)) as [e|] eqn:EE; cbn; [|reflexivity].
    destruct (Nat.eqb_spec e new) as [->|N]; [|reflexivity].
    exfalso. apply KP; auto.
Qed.
Lemma docs_moved : forall h h1 new, links h -> docs_ok h -> moved_out h h1 new -> docs_ok h1.
Proof.
  intros h h1 new L D [K P ST OW DT DE KP] d KD.
  assert (KK : forall i, n_kind (h1 i) = n_kind (h i)) by (intro i; apply static_kind, ST).
  rewrite KK in KD. apply lose_doc with h new; auto.
Qed.
Lemma docs_ext : forall h h', (forall i, n_kind (h' i) = n_kind (h i) /\ n_kids (h' i) = n_kids (h i)
    /\ n_docel (h' i) = n_docel (h i) /\ n_doctype (h' i) = n_doctype (h i)) -> docs_ok h -> docs_ok h'.
Proof.
  intros h h' E D d KD. destruct (E d) as (K1 & K2 & K3 & K4). rewrite K1 in KD. destruct (D d KD) as [A B].
  unfold document_ok, element_kids, doctype_kids, kids in *. rewrite K2, K3, K4, <- A, <- B.
  split; apply filter_ext; intro i; unfold has_kind; rewrite (proj1 (E i)); reflexivity.
Qed.
Lemma vremove_docs : forall h p o h' r, good h -> docs_ok h -> vremove h p (Some o) = Ok h' r -> docs_ok h'.
Proof.
  intros h p o h' r G D V. destruct (vremove_spec _ _ _ _ _ G V) as (R & G1 & _ & PC & KP).
  apply docs_moved with h o; auto; [apply G|]. apply removed_moved with p; auto. apply G.
Qed.

(** The other documents after [new] has gone to [this]. *)
Lemma placed_docs : forall h h' this new l, good h -> docs_ok h -> placed h h' this new l ->
  forall d, d <> this -> n_kind (h' d) = KDocument -> document_ok h' d.
Proof.
  intros h h' this new l G D [K KO ST DT DE KP OW CP] d N KD.
  assert (KK : forall i, n_kind (h' i) = n_kind (h i)) by (intro i; apply static_kind, ST).
  rewrite KK in KD. apply lose_doc with h new; auto. apply G.
Qed.
Lemma put_split : forall ref new l, match ref with Some r => In r l | None => True end ->
  exists a b, l = a ++ b /\ put ref new l = a ++ new :: b.
Proof.
  intros [r|] new l I; cbn [put].
  - induction l as [|y l IH]; [contradiction|]. cbn. destruct (Nat.eqb_spec y r) as [->|N].
    + exists [], (r :: l). auto.
    + destruct I as [->|I]; [contradiction|]. destruct (IH I) as (a & b & -> & ->). exists (y :: a), b. auto.
  - exists l, []. rewrite app_nil_r. auto.
Qed.
Lemma of_kind_put : forall h k ref new l, match ref with Some r => In r l | None => True end ->
  n_kind (h new) <> k -> of_kind h k (put ref new l) = of_kind h k l.
Proof.
  intros h k ref new l I N. destruct (put_split ref new l I) as (a & b & -> & ->).
  unfold of_kind. rewrite !filter_app. f_equal. cbn.
  destruct (has_kind h new k) eqn:X; [apply has_kind_eq in X; contradiction|reflexivity].
Qed.
Lemma of_kind_put_nil : forall h k ref new l, match ref with Some r => In r l | None => True end ->
  n_kind (h new) = k -> of_kind h k l = [] -> of_kind h k (put ref new l) = [new].
Proof.
  intros h k ref new l I N E. destruct (put_split ref new l I) as (a & b & -> & ->).
  unfold of_kind in *. rewrite filter_app in *. apply app_eq_nil in E as [E1 E2]. rewrite E1. cbn.
  apply has_kind_eq in N. rewrite N, E2. reflexivity.
Qed.
Lemma of_kind_put_for : forall h k old new l, n_kind (h new) <> k -> n_kind (h old) <> k ->
  of_kind h k (put_for old new l) = of_kind h k l.
Proof.
  intros h k old new l N O. unfold of_kind, put_for. induction l as [|y l IH]; [reflexivity|]. cbn.
  destruct (Nat.eqb_spec y old) as [->|].
  - destruct (has_kind h new k) eqn:X; [apply has_kind_eq in X; contradiction|].
    destruct (has_kind h old k) eqn:Y; [apply has_kind_eq in Y; contradiction|]. exact IH.
  - destruct (has_kind h y k); rewrite IH; reflexivity.
Qed.

Lemma check_docs : forall f h this new h1 u, good h ->
  childless (n_kind (h this)) = false -> (n_kind (h new) = KDocument -> this <> new) ->
  docs_ok h -> check_can_add f h this new = Ok h1 u -> docs_ok h1 /\ good h1.
Proof.
  intros f h this new h1 u G CL ND D CA.
  destruct (can_add_spec _ _ _ _ _ _ G CL ND CA) as (S1 & G1 & ST1 & DD1 & _). split; [|exact G1].
  revert D. apply docs_ext. intro i. split; [apply static_kind, ST1|]. split; [apply S1|]. apply DD1.
Qed.
(** Exceptions of the base methods leave the documents consistent. *)
Lemma insert_node_docs_ex : forall f h this new ref e h', good h ->
  childless (n_kind (h this)) = false -> (n_kind (h new) = KDocument -> this <> new) ->
  docs_ok h -> insert_node f h this new ref = Ex e h' -> docs_ok h'.
Proof.
  intros f h this new ref e h' G CL ND D E. unfold insert_node in E.
  destruct (check_can_add f h this new) as [h1 u1|e1 h1|] eqn:CA; cbn [rbind] in E; [| |discriminate].
  2:{ injection E as -> ->. apply check_ex in CA. subst; exact D. }
  destruct (check_docs _ _ _ _ _ _ G CL ND D CA) as [D1 G1].
  destruct (remove_if_required h1 new) as [h2 u2|e2 h2|] eqn:RR; cbn [rbind] in E; [| |discriminate].
  - destruct (out_spec _ _ _ _ G1 RR) as (G2 & M).
    assert (D2 : docs_ok h2) by (apply docs_moved with h1 new; auto; apply G1).
    destruct ref; [|discriminate]. destruct (insert_at _ _ _); [discriminate|]. injection E as _ <-. exact D2.
  - injection E as -> ->. apply out_ex in RR. subst. exact D1.
Qed.
Lemma replace_node_docs_ex : forall f h this new old e h', good h ->
  childless (n_kind (h this)) = false -> (n_kind (h new) = KDocument -> this <> new) ->
  docs_ok h -> replace_node f h this new old = Ex e h' -> docs_ok h'.
Proof.
  intros f h this new old e h' G CL ND D E. unfold replace_node in E.
  destruct (check_can_add f h this new) as [h1 u1|e1 h1|] eqn:CA; cbn [rbind] in E; [| |discriminate].
  2:{ injection E as -> ->. apply check_ex in CA. subst; exact D. }
  destruct (check_docs _ _ _ _ _ _ G CL ND D CA) as [D1 G1].
  destruct (remove_if_required h1 new) as [h2 u2|e2 h2|] eqn:RR; cbn [rbind] in E; [| |discriminate].
  - destruct (out_spec _ _ _ _ G1 RR) as (G2 & M).
    assert (D2 : docs_ok h2) by (apply docs_moved with h1 new; auto; apply G1).
    destruct (replace_at _ _ _); [discriminate|]. injection E as _ <-. exact D2.
  - injection E as -> ->. apply out_ex in RR. subst. exact D1.
Qed.

Definition res_docs {A} (r : res A) : Prop := match r with Ok h _ | Ex _ h => docs_ok h | Div => True end.
Lemma ref_in : forall h this new ref, ref_ok h this new ref ->
  match ref with Some r => In r (without new (n_kids (h this))) | None => True end.
Proof. intros h this new [r|]; cbn; [|trivial]. intros [I N]. apply without_in. auto. Qed.
Lemma vinsert_one_docs : forall f h this new ref, good h -> (n_kind (h new) = KDocument -> this <> new) ->
  n_kind (h new) <> KFragment -> docs_ok h -> res_docs (vinsert f h this new ref).
Proof.
  intros f h this new ref G ND NF D. destruct f as [|f]; [exact I|]. cbn [vinsert].
  destruct (childless (n_kind (h this))) eqn:CL; [exact D|].
  assert (NF' : has_kind h new KFragment = false).
  { destruct (has_kind h new KFragment) eqn:KF; [apply has_kind_eq in KF; contradiction|reflexivity]. }
  rewrite NF'.
  destruct (has_kind h this KDocument) eqn:KT.
  - destruct (has_kind h new KElement && negb (opt_eqb (n_docel (h this)) None)) eqn:C1; [exact D|].
    destruct (has_kind h new KDocType && negb (opt_eqb (n_doctype (h this)) None)) eqn:C2; [exact D|].
    destruct (n_ro (h this)); [exact D|].
    destruct (insert_node f h this new ref) as [h1 r1|e1 h1|] eqn:IN; cbn [rbind].
    2: apply (insert_node_docs_ex _ _ _ _ _ _ _ G CL ND D IN).
    2: exact I.
    destruct (insert_node_spec _ _ _ _ _ _ _ G CL ND IN) as (G1 & _ & P & PP & RO).
    fold (marked h1 this new). cbn [res_docs].
    assert (KK : forall i, n_kind (h1 i) = n_kind (h i)) by (intro i; apply static_kind, (p_static _ _ _ _ _ P)).
    assert (OD := placed_docs _ _ _ _ _ G D P).
    apply has_kind_eq in KT. destruct (D this KT) as [DE DT].
    assert (RI := ref_in _ _ _ _ RO).
    intros d KD. rewrite (static_kind _ _ (marked_static h1 this new d)) in KD.
    destruct (Nat.eq_dec d this) as [->|N].
    + unfold document_ok, element_kids, doctype_kids, kids in *.
      fold (of_kind (marked h1 this new) KElement (n_kids (marked h1 this new this))).
      fold (of_kind (marked h1 this new) KDocType (n_kids (marked h1 this new this))).
      fold (of_kind h KElement (n_kids (h this))) in DE. fold (of_kind h KDocType (n_kids (h this))) in DT.
      rewrite !(of_kind_ext h (marked h1 this new)) by (intro i; rewrite (static_kind _ _ (marked_static h1 this new i)); apply KK).
      rewrite marked_kids, (p_kids _ _ _ _ _ P).
      assert (E1 := p_docel _ _ _ _ _ P this). assert (E2 := p_doctype _ _ _ _ _ P this).
      unfold marked.
      destruct (has_kind h1 new KElement) eqn:KE.
      * (* an element goes in: the document had none *)
        assert (KE' : n_kind (h new) = KElement) by (rewrite <- KK; apply has_kind_eq, KE).
        assert (X : has_kind h new KElement = true) by (apply has_kind_eq; exact KE'). rewrite X in C1. cbn [andb] in C1.
        apply negb_false_iff, opt_eqb_eq in C1. rewrite C1 in *. cbn [opt_eqb] in E1. rewrite andb_false_r in E1.
        cbn [opt_list] in DE. rewrite E1. cbn [andb opt_eqb].
        assert (KD' : has_kind (upd h1 this (set_docel_f (Some new))) new KDocType = false).
        { unfold has_kind. rewrite upd_at. cbn. rewrite if_same, KK, KE'. reflexivity. }
        rewrite KD'. cbn [andb]. rewrite !upd_at, Nat.eqb_refl. cbn [n_docel n_doctype set_docel_f opt_list]. split.
        -- apply of_kind_put_nil; auto. rewrite of_kind_without, DE. reflexivity.
        -- rewrite of_kind_put; auto; [|congruence]. rewrite of_kind_without, DT, E2.
           rewrite without_notin; [reflexivity|]. intro I. rewrite <- DT in I. apply of_kind_in in I. destruct I; congruence.
      * cbn [andb]. assert (KE' : n_kind (h new) <> KElement) by (intro X; rewrite <- KK in X; apply has_kind_eq in X; congruence).
        assert (E1' : n_docel (h1 this) = n_docel (h this)).
        { rewrite E1. destruct (opt_eqb (n_docel (h this)) (Some new)) eqn:OE; [|rewrite andb_false_r; reflexivity].
          exfalso. apply opt_eqb_eq in OE. rewrite OE in DE. cbn in DE.
          assert (In new (of_kind h KElement (n_kids (h this)))) by (rewrite DE; left; reflexivity).
          apply of_kind_in in H. destruct H; congruence. }
        destruct (has_kind h1 new KDocType) eqn:KDT.
        -- assert (KDT' : n_kind (h new) = KDocType) by (rewrite <- KK; apply has_kind_eq, KDT).
           assert (X : has_kind h new KDocType = true) by (apply has_kind_eq; exact KDT'). rewrite X in C2. cbn [andb] in C2.
           apply negb_false_iff, opt_eqb_eq in C2. rewrite C2 in *. cbn [opt_list] in DT. rewrite E2. cbn [andb opt_eqb].
           rewrite !upd_at, Nat.eqb_refl. cbn [n_docel n_doctype set_doctype_f opt_list]. split.
           ++ rewrite of_kind_put; auto. rewrite of_kind_without, DE, E1'.
              apply without_notin. intro I. rewrite <- DE in I. apply of_kind_in in I. destruct I; congruence.
           ++ apply of_kind_put_nil; auto. rewrite of_kind_without, DT. reflexivity.
        -- cbn [andb]. assert (KDT' : n_kind (h new) <> KDocType) by (intro X; rewrite <- KK in X; apply has_kind_eq in X; congruence).
           rewrite !of_kind_put by auto. rewrite !of_kind_without, DE, DT, E1', E2. split.
           ++ apply without_notin. intro I. rewrite <- DE in I. apply of_kind_in in I. destruct I; congruence.
           ++ apply without_notin. intro I. rewrite <- DT in I. apply of_kind_in in I. destruct I; congruence.
    + assert (H := OD d N KD). unfold document_ok, element_kids, doctype_kids, kids in *.
      assert (X : forall i, n_kind (marked h1 this new i) = n_kind (h1 i)) by (intro i; apply static_kind, marked_static).
      fold (of_kind (marked h1 this new) KElement (n_kids (marked h1 this new d))).
      fold (of_kind (marked h1 this new) KDocType (n_kids (marked h1 this new d))).
      rewrite !(of_kind_ext h1 (marked h1 this new)) by exact X. rewrite marked_kids.
      assert (Y : n_docel (marked h1 this new d) = n_docel (h1 d) /\ n_doctype (marked h1 this new d) = n_doctype (h1 d)).
      { unfold marked. apply Nat.eqb_neq in N.
        repeat match goal with |- context[if ?b && ?c then _ else _] => destruct (b && c) end;
          rewrite ?upd_at, ?N; auto. }
      destruct Y as [-> ->]. exact H.
  - destruct (n_ro (h this)); [exact D|].
    destruct (insert_node f h this new ref) as [h1 r1|e1 h1|] eqn:IN.
    2: apply (insert_node_docs_ex _ _ _ _ _ _ _ G CL ND D IN).
    2: exact I.
    destruct (insert_node_spec _ _ _ _ _ _ _ G CL ND IN) as (G1 & _ & P & PP & RO).
    intros d KD. apply (placed_docs _ _ _ _ _ G D P); [|exact KD]. intros ->.
    rewrite (static_kind _ _ (p_static _ _ _ _ _ P this)) in KD. apply has_kind_eq in KD. congruence.
Qed.
Lemma frag_docs : forall f h this frag ref, good h -> docs_ok h -> res_docs (frag_loop f h this frag ref).
Proof.
  induction f as [|f IH]; intros h this frag ref G D; [exact I|]. cbn [frag_loop].
  destruct (first_child h frag) as [c|]; [|exact D].
  destruct (vremove h frag (Some c)) as [h1 r1|e h1|] eqn:V; cbn [rbind].
  - assert (S1 := vremove_step h frag (Some c) G). rewrite V in S1. cbn in S1.
    assert (D1 := vremove_docs _ _ _ _ _ G D V).
    assert (CH := vremove_child_kind _ _ _ _ _ G V).
    assert (NF : n_kind (h1 c) <> KFragment) by (intro X; rewrite X in CH; discriminate).
    assert (D2 := vinsert_one_docs f h1 this c ref (proj1 S1) (not_doc _ _ CH) NF D1).
    assert (S2 := proj1 (vinsert_step f) h1 this c ref (proj1 S1) (not_doc _ _ CH)).
    destruct (vinsert f h1 this c ref) as [h2 r2|e h2|]; cbn [rbind res_docs] in *; auto. apply IH; auto. apply S2.
  - apply vremove_ex in V. subst; exact D.
  - exact I.
Qed.
Lemma vinsert_docs : forall f h this new ref, good h -> (n_kind (h new) = KDocument -> this <> new) ->
  docs_ok h -> res_docs (vinsert f h this new ref).
Proof.
  intros f h this new ref G ND D. destruct (has_kind h new KFragment) eqn:KF.
  - destruct f as [|f]; [exact I|]. assert (KF' := KF). apply has_kind_eq in KF'. cbn [vinsert].
    destruct (childless (n_kind (h this))); [exact D|].
    assert (NE : has_kind h new KElement = false) by (unfold has_kind; rewrite KF'; reflexivity).
    assert (NT : has_kind h new KDocType = false) by (unfold has_kind; rewrite KF'; reflexivity).
    rewrite KF, NE, NT. cbn [andb].
    assert (BASE : res_docs (if n_ro (h this) then Ex NO_MODIFICATION h else frag_loop f h this new ref)).
    { destruct (n_ro (h this)); [exact D|]. apply frag_docs; auto. }
    assert (SB : res_step h (if n_ro (h this) then Ex NO_MODIFICATION h else frag_loop f h this new ref)).
    { destruct (n_ro (h this)); [apply step_refl, G|]. apply vinsert_step; auto. }
    destruct (has_kind h this KDocument); [|exact BASE].
    destruct (if n_ro (h this) then _ else _) as [h1 r1|e1 h1|]; cbn [rbind res_docs res_step] in *; auto.
    assert (X : forall k, has_kind h1 new k = has_kind h new k).
    { intro k. unfold has_kind. rewrite (static_kind _ _ (proj2 SB new)). reflexivity. }
    rewrite !X, NE. cbn [andb]. rewrite X, NT. exact BASE.
  - apply vinsert_one_docs; auto. intro K. apply has_kind_eq in K. congruence.
Qed.

(** replaceChild on a document that does not disturb the two pointers. *)
Lemma put_for_split : forall old new l, In old l -> NoDup l -> exists a b, l = a ++ old :: b /\ put_for old new l = a ++ new :: b.
Proof.
  intros old new l I ND. destruct (in_split _ _ I) as (a & b & ->). exists a, b. split; [reflexivity|]. apply put_for_mid, ND.
Qed.
Lemma vreplace_one_docs : forall f h this new old, good h -> (n_kind (h new) = KDocument -> this <> new) ->
  n_kind (h new) <> KFragment -> replace_safe h this new old -> docs_ok h -> res_docs (vreplace f h this new old).
Proof.
  intros f h this new old G ND NF SAFE D. destruct f as [|f]; [exact I|]. cbn [vreplace].
  destruct (childless (n_kind (h this))) eqn:CL; [exact D|].
  assert (NF' : has_kind h new KFragment = false).
  { destruct (has_kind h new KFragment) eqn:KF; [apply has_kind_eq in KF; contradiction|reflexivity]. }
  rewrite NF'.
  destruct (has_kind h this KDocument) eqn:KT.
  - destruct (negb _); [exact D|]. destruct (_ && _); [exact D|].
    destruct (has_kind h new KElement && negb (opt_eqb (n_docel (h this)) None) && negb (opt_eqb (n_docel (h this)) (Some old))) eqn:C2; [exact D|].
    destruct (n_ro (h this)) eqn:ROT; [exact D|].
    destruct (replace_node f h this new old) as [h1 r1|e1 h1|] eqn:IN; cbn [rbind].
    2: apply (replace_node_docs_ex _ _ _ _ _ _ _ G CL ND D IN).
    2: exact I.
    destruct (replace_node_spec _ _ _ _ _ _ _ G CL ND ROT IN) as (G1 & _ & P & PP & RI & NON).
    assert (KK : forall i, n_kind (h1 i) = n_kind (h i)) by (intro i; apply static_kind, (p_static _ _ _ _ _ P)).
    assert (OD := placed_docs _ _ _ _ _ G D P).
    apply has_kind_eq in KT. destruct (D this KT) as [DE DT]. destruct (SAFE KT) as (S1 & S2 & S3).
    unfold document_ok, element_kids, doctype_kids, kids in *.
    fold (of_kind h KElement (n_kids (h this))) in DE. fold (of_kind h KDocType (n_kids (h this))) in DT.
    assert (E1 := p_docel _ _ _ _ _ P this). assert (E2 := p_doctype _ _ _ _ _ P this).
    assert (DTK : of_kind h KDocType (put_for old new (without new (n_kids (h this)))) = opt_list (n_doctype (h this))).
    { rewrite of_kind_put_for by auto. rewrite of_kind_without, DT. apply without_notin.
      intro I. rewrite <- DT in I. apply of_kind_in in I. destruct I; congruence. }
    assert (WI : In old (without new (n_kids (h this)))) by (apply without_in; auto).
    assert (NDW : NoDup (without new (n_kids (h this)))) by (apply NoDup_filter, (l_nodup h (proj1 G))).
    destruct (has_kind h1 new KElement) eqn:KE.
    + assert (KE' : n_kind (h new) = KElement) by (rewrite <- KK; apply has_kind_eq, KE).
      assert (X : has_kind h new KElement = true) by (apply has_kind_eq; exact KE'). rewrite X in C2. cbn [andb] in C2.
      (* documentElement_ is absent or the old child *)
      assert (C3 : n_docel (h this) = None \/ n_docel (h this) = Some old).
      { apply andb_false_iff in C2 as [C2|C2]; apply negb_false_iff, opt_eqb_eq in C2; auto. }
      assert (DO : n_docel (h1 this) = n_docel (h this)).
      { rewrite E1. assert (opt_eqb (n_docel (h this)) (Some new) = false) as ->; [|rewrite andb_false_r; reflexivity].
        destruct C3 as [-> | ->]; cbn; [reflexivity|]. apply Nat.eqb_neq, NON. }
      rewrite DO. assert (CC : opt_eqb (n_docel (h this)) None || opt_eqb (n_docel (h this)) (Some old) = true).
      { destruct C3 as [-> | ->]; cbn; [reflexivity|apply Nat.eqb_refl]. }
      rewrite CC. cbn [andb res_docs]. intros d KD.
      assert (KX : forall i, n_kind (upd h1 this (set_docel_f (Some new)) i) = n_kind (h1 i)).
      { intro i. rewrite upd_at. cbn. apply if_same. }
      rewrite KX in KD. unfold document_ok, element_kids, doctype_kids, kids.
      fold (of_kind (upd h1 this (set_docel_f (Some new))) KElement (n_kids (upd h1 this (set_docel_f (Some new)) d))).
      fold (of_kind (upd h1 this (set_docel_f (Some new))) KDocType (n_kids (upd h1 this (set_docel_f (Some new)) d))).
      rewrite !(of_kind_ext h1 _ _ _ KX). rewrite !upd_at. cbn [n_kids n_docel n_doctype set_docel_f]. rewrite !if_same.
      destruct (Nat.eqb_spec d this) as [->|N].
      * rewrite !(of_kind_ext h h1 _ _ KK), (p_kids _ _ _ _ _ P), E2. split; [|exact DTK].
        destruct (put_for_split old new _ WI NDW) as (a & b & K1 & K2). rewrite K2.
        assert (EL : of_kind h KElement (a ++ old :: b) = opt_list (n_docel (h this))).
        { rewrite <- K1, of_kind_without, DE. apply without_notin. destruct C3 as [-> | ->]; cbn; [tauto|]. intros [?|[]]. congruence. }
        unfold of_kind in *. rewrite filter_app in *. cbn [filter] in *. rewrite X.
        destruct C3 as [C3|C3]; rewrite C3 in EL; cbn [opt_list] in *.
        -- apply app_eq_nil in EL as [EL1 EL2]. rewrite EL1. destruct (has_kind h old KElement); [discriminate|]. rewrite EL2. reflexivity.
        -- assert (KO : has_kind h old KElement = true).
           { rewrite C3 in DE. assert (In old (filter (fun c => has_kind h c KElement) (n_kids (h this)))) by (rewrite DE; left; reflexivity).
             apply filter_In in H. apply H. }
           rewrite KO in EL. destruct (filter (fun c => has_kind h c KElement) a) as [|z l]; cbn in EL.
           ++ injection EL as ->. reflexivity.
           ++ exfalso. injection EL as _ EL. destruct l; discriminate.
      * assert (H := OD d N KD). exact H.
    + cbn [andb res_docs]. assert (KE' : n_kind (h new) <> KElement) by (intro X; rewrite <- KK in X; apply has_kind_eq in X; congruence).
      intros d KD. destruct (Nat.eq_dec d this) as [->|N]; [|apply OD; auto].
      unfold document_ok, element_kids, doctype_kids, kids.
      fold (of_kind h1 KElement (n_kids (h1 this))). fold (of_kind h1 KDocType (n_kids (h1 this))).
      rewrite !(of_kind_ext h h1 _ _ KK), (p_kids _ _ _ _ _ P), E2. split; [|exact DTK].
      rewrite of_kind_put_for by auto. rewrite of_kind_without, DE.
      rewrite without_notin by (intro I; rewrite <- DE in I; apply of_kind_in in I; destruct I; congruence).
      rewrite E1. destruct (opt_eqb (n_docel (h this)) (Some new)) eqn:OE; [|rewrite andb_false_r; reflexivity].
      exfalso. apply opt_eqb_eq in OE. rewrite OE in DE. cbn in DE.
      assert (In new (of_kind h KElement (n_kids (h this)))) by (rewrite DE; left; reflexivity).
      apply of_kind_in in H. destruct H; congruence.
  - destruct (n_ro (h this)) eqn:ROT; [exact D|].
    destruct (replace_node f h this new old) as [h1 r1|e1 h1|] eqn:IN.
    2: apply (replace_node_docs_ex _ _ _ _ _ _ _ G CL ND D IN).
    2: exact I.
    destruct (replace_node_spec _ _ _ _ _ _ _ G CL ND ROT IN) as (G1 & _ & P & PP & RO).
    intros d KD. apply (placed_docs _ _ _ _ _ G D P); [|exact KD]. intros ->.
    rewrite (static_kind _ _ (p_static _ _ _ _ _ P this)) in KD. apply has_kind_eq in KD. congruence.
Qed.
Lemma vreplace_docs : forall f h this new old, good h -> (n_kind (h new) = KDocument -> this <> new) ->
  replace_safe h this new old -> docs_ok h -> res_docs (vreplace f h this new old).
Proof.
  intros f h this new old G ND SAFE D. destruct (has_kind h new KFragment) eqn:KF.
  - destruct f as [|f]; [exact I|]. assert (KF' := KF). apply has_kind_eq in KF'. cbn [vreplace].
    destruct (childless (n_kind (h this))); [exact D|]. rewrite KF.
    destruct (has_kind h this KDocument) eqn:KT; [rewrite KF'; exact D|].
    destruct (n_ro (h this)); [exact D|].
    destruct (vremove h new (last_child h new)) as [h1 r1|e h1|] eqn:V; cbn [rbind].
    + destruct (last_child h new) as [c|] eqn:LC; [|exfalso; apply (vremove_none _ _ _ _ V)].
      assert (S1 := vremove_step h new (Some c) G). rewrite V in S1. cbn in S1.
      assert (D1 := vremove_docs _ _ _ _ _ G D V).
      assert (KC := vremove_child_kind _ _ _ _ _ G V).
      destruct (vremove_spec _ _ _ _ _ G V) as (_ & _ & -> & _).
      assert (NFc : n_kind (h1 c) <> KFragment) by (intro X; rewrite X in KC; discriminate).
      assert (SF : replace_safe h1 this c old).
      { intro K. rewrite (static_kind _ _ (proj2 S1 this)) in K. apply has_kind_eq in K. congruence. }
      assert (D2 := vreplace_one_docs f h1 this c old (proj1 S1) (not_doc _ _ KC) NFc SF D1).
      assert (S2 := vreplace_step f h1 this c old (proj1 S1) (not_doc _ _ KC)).
      destruct (vreplace f h1 this c old) as [h2 r2|e2 h2|]; cbn [rbind res_docs res_step] in *; auto.
      assert (ND2 : n_kind (h2 new) = KDocument -> this <> new).
      { intro K. rewrite (static_kind _ _ (proj2 S2 new)), (static_kind _ _ (proj2 S1 new)) in K. congruence. }
      assert (D3 := vinsert_docs f h2 this new (Some c) (proj1 S2) ND2 D2).
      destruct (vinsert f h2 this new (Some c)); cbn [rbind res_docs] in *; auto.
    + apply vremove_ex in V. subst; exact D.
    + exact I.
  - apply vreplace_one_docs; auto. intro K. apply has_kind_eq in K. congruence.
Qed.
Lemma fresh_docs : forall kinds docs names, docs_ok (fresh_heap kinds docs names).
Proof.
  intros kinds docs names d _. unfold document_ok, element_kids, doctype_kids, kids, fresh_heap, new_node.
  destruct (kinds d); split; reflexivity.
Qed.

(** Histories whose replaceChild calls on a document are harmless. *)
Lemma call_docs : forall f h o, good h -> docs_ok h -> not_into_itself KDocument h o -> op_safe h o ->
  match dom_call f h o with Ok h' _ | Ex _ h' => docs_ok h' | Div => True end.
Proof.
  intros f h o G D ND S. assert (X : forall A (r : res A), res_docs r ->
    match rbind r (fun h _ => Ok h tt) with Ok h' _ | Ex _ h' => docs_ok h' | Div => True end).
  { intros A [h1 a|e h1|]; cbn; auto. }
  destruct o as [t n r|t n old|t old|t]; cbn [dom_call].
  - apply X, vinsert_docs; auto. intro K. apply ND. cbn. apply has_kind_eq, K.
  - apply X, vreplace_docs; auto. intro K. apply ND. cbn. apply has_kind_eq, K.
  - apply X. destruct (vremove h t (Some old)) as [h1 r1|e1 h1|] eqn:V; cbn; auto.
    + apply (vremove_docs _ _ _ _ _ G D V).
    + apply vremove_ex in V. subst; exact D.
  - destruct (freeze f h t) as [h1|] eqn:FZ; [|exact I]. revert D. apply docs_ext. intro i.
    destruct (freeze_only _ _ _ _ FZ i) as [->| ->]; auto.
Qed.
Lemma run_docs : forall f ops h h', good h -> docs_ok h -> Forall (not_into_itself KDocument h) ops -> Forall (op_safe h) ops ->
  dom_run f h ops = Some h' -> docs_ok h'.
Proof.
  intros f; induction ops as [|o ops IH]; intros h h' G D F S E; cbn [dom_run] in E.
  - injection E as <-. exact D.
  - inversion F as [|? ? F1 F2]; inversion S as [|? ? S1 S2]; subst.
    assert (C := call_good f h o G F1). assert (CD := call_docs f h o G D F1 S1).
    assert (T : forall h1, good h1 /\ (forall i, n_kind (h1 i) = n_kind (h i)) -> docs_ok h1 -> dom_run f h1 ops = Some h' -> docs_ok h').
    { intros h1 [G1 K1] D1 E1. apply (IH h1); auto.
      - eapply Forall_impl; [|exact F2]. intros a. apply into_itself_kind, K1.
      - eapply Forall_impl; [|exact S2]. intros a. unfold op_safe, replace_safe. destruct a; auto. rewrite !K1. auto. }
    destruct (dom_call f h o) as [h1 a|e h1|]; [apply (T h1); auto..|discriminate].
Qed.

Lemma reachable_good : forall h, reachable h -> good h.
Proof.
  intros h (kinds & docs & names & ops & fuel & F & E). eapply run_good; [|exact F|exact E]. apply fresh_good.
Qed.

(** * Kinds of children *)
Lemma child_kind_allows : forall p c, child_kind_ok p c = true -> dom_allows p c.
Proof. intros p c; destruct p, c; cbn; intro E; try discriminate; auto 10. Qed.
Lemma kinds_parent : forall h, links h -> (kinds_ok h <-> forall c p, n_parent (h c) = Some p -> dom_allows (n_kind (h p)) (n_kind (h c))).
Proof.
  intros h L. split; intros K.
  - intros c p P. apply K. apply (l_parent h L), P.
  - intros p c I. apply K. apply (l_parent h L), I.
Qed.
Lemma kinds_less : forall h h1, links h -> links h1 -> (forall i, n_kind (h1 i) = n_kind (h i)) ->
  (forall i p, n_parent (h1 i) = Some p -> n_parent (h i) = Some p) -> kinds_ok h -> kinds_ok h1.
Proof.
  intros h h1 L L1 KK P K. rewrite kinds_parent in * by assumption. intros c p X. rewrite !KK. apply K, P, X.
Qed.
Lemma kinds_more : forall h h1 this new, links h -> links h1 -> (forall i, n_kind (h1 i) = n_kind (h i)) ->
  (forall i p, n_parent (h1 i) = Some p -> n_parent (h i) = Some p \/ (i = new /\ p = this)) ->
  dom_allows (n_kind (h this)) (n_kind (h new)) -> kinds_ok h -> kinds_ok h1.
Proof.
  intros h h1 this new L L1 KK P D K. rewrite kinds_parent in * by assumption. intros c p X. rewrite !KK.
  destruct (P _ _ X) as [Y|[-> ->]]; auto.
Qed.
Lemma check_kind : forall f h this new h1 u, good h -> (n_kind (h new) = KDocument -> this <> new) ->
  (n_kind (h new) = KDocType -> n_kind (h this) = KDocument) ->
  check_can_add f h this new = Ok h1 u -> dom_allows (n_kind (h this)) (n_kind (h new)).
Proof.
  intros f h this new h1 u [L T] ND DD E. unfold check_can_add in E.
  destruct (n_owner (h new)) as [cd|] eqn:OW.
  - unfold has_kind in E. destruct (nkind_eqb (n_kind (h new)) KDocument) eqn:KD.
    + exfalso. apply nkind_eqb_eq in KD. assert (OD := t_doc h T new KD). rewrite OW in OD. injection OD as ->.
      destruct (nkind_eqb (n_kind (h this)) KDocument); cbn [andb] in E; [|discriminate].
      destruct (Nat.eqb_spec new this) as [X|]; [|discriminate]. apply (ND KD). auto.
    + destruct (match n_owner (h this) with Some d => negb (Nat.eqb cd d) | None => false end); [discriminate|].
      destruct (climb f h this new) as [[|]|]; try discriminate.
      destruct (_ && _); [discriminate|].
      destruct (child_kind_ok (n_kind (h this)) (n_kind (h new))) eqn:CK; [|discriminate].
      apply child_kind_allows, CK.
  - assert (KT := t_owned h T new OW). rewrite (DD KT), KT. cbn. auto.
Qed.
Definition res_kinds {A} (r : res A) : Prop := match r with Ok h _ | Ex _ h => kinds_ok h | Div => True end.
Lemma step_links : forall h h', step h h' -> links h'.
Proof. intros h h' [[L _] _]. exact L. Qed.
Lemma check_kinds : forall f h this new h1 u, good h ->
  childless (n_kind (h this)) = false -> (n_kind (h new) = KDocument -> this <> new) ->
  kinds_ok h -> check_can_add f h this new = Ok h1 u -> kinds_ok h1 /\ good h1.
Proof.
  intros f h this new h1 u G CL ND K CA.
  destruct (can_add_spec _ _ _ _ _ _ G CL ND CA) as (S1 & G1 & ST1 & _). split; [|exact G1].
  apply kinds_less with h; auto; [apply G|apply G1|intro i; apply static_kind, ST1|].
  intros i p. destruct (S1 i) as (_ & -> & _). auto.
Qed.
Lemma out_kinds : forall h new, good h -> kinds_ok h -> res_kinds (remove_if_required h new).
Proof.
  intros h new G K. destruct (remove_if_required h new) as [h1 u|e h1|] eqn:RR; [| |exact I].
  - destruct (out_spec _ _ _ _ G RR) as (G2 & M). cbn.
    apply kinds_less with h; auto; [apply G|apply G2|intro i; apply static_kind, (mo_static _ _ _ M)|].
    intros i p. rewrite (mo_parents _ _ _ M). destruct (Nat.eqb i new); [discriminate|auto].
  - apply out_ex in RR. subst. exact K.
Qed.
Lemma insert_node_kinds : forall f h this new ref, good h ->
  childless (n_kind (h this)) = false -> (n_kind (h new) = KDocument -> this <> new) ->
  (n_kind (h new) = KDocType -> n_kind (h this) = KDocument) ->
  kinds_ok h -> res_kinds (insert_node f h this new ref).
Proof.
  intros f h this new ref G CL ND DD K.
  destruct (insert_node f h this new ref) as [h' r|e h'|] eqn:E; [| |exact I].
  - destruct (insert_node_spec _ _ _ _ _ _ _ G CL ND E) as (G' & _ & P & PP & _). unfold insert_node in E.
    destruct (check_can_add f h this new) as [h1 u1|e1 h1|] eqn:CA; cbn [rbind] in E; try discriminate.
    cbn. apply kinds_more with h this new; auto; [apply G|apply G'|intro i; apply static_kind, (p_static _ _ _ _ _ P)| |].
    + intros i p. rewrite PP. destruct (Nat.eqb_spec i new) as [->|]; [|auto]. intro X. injection X as <-. auto.
    + apply (check_kind _ _ _ _ _ _ G ND DD CA).
  - unfold insert_node in E.
    destruct (check_can_add f h this new) as [h1 u1|e1 h1|] eqn:CA; cbn [rbind] in E; try discriminate.
    2:{ injection E as -> ->. apply check_ex in CA. subst; exact K. }
    destruct (check_kinds _ _ _ _ _ _ G CL ND K CA) as [K1 G1].
    assert (K2 := out_kinds h1 new G1 K1).
    destruct (remove_if_required h1 new) as [h2 u2|e2 h2|]; cbn [rbind res_kinds] in *; [| |discriminate].
    + destruct ref; [|discriminate]. destruct (insert_at _ _ _); [discriminate|]. injection E as _ <-. exact K2.
    + injection E as -> ->. exact K2.
Qed.
Lemma replace_node_kinds : forall f h this new old, good h ->
  childless (n_kind (h this)) = false -> (n_kind (h new) = KDocument -> this <> new) -> n_ro (h this) = false ->
  (n_kind (h new) = KDocType -> n_kind (h this) = KDocument) ->
  kinds_ok h -> res_kinds (replace_node f h this new old).
Proof.
  intros f h this new old G CL ND RO DD K.
  destruct (replace_node f h this new old) as [h' r|e h'|] eqn:E; [| |exact I].
  - destruct (replace_node_spec _ _ _ _ _ _ _ G CL ND RO E) as (G' & _ & P & PP & _). unfold replace_node in E.
    destruct (check_can_add f h this new) as [h1 u1|e1 h1|] eqn:CA; cbn [rbind] in E; try discriminate.
    cbn. apply kinds_more with h this new; auto; [apply G|apply G'|intro i; apply static_kind, (p_static _ _ _ _ _ P)| |].
    + intros i p. rewrite PP. destruct (Nat.eqb_spec i new) as [->|]; [intro X; injection X as <-; auto|].
      destruct (Nat.eqb i old); [discriminate|auto].
    + apply (check_kind _ _ _ _ _ _ G ND DD CA).
  - unfold replace_node in E.
    destruct (check_can_add f h this new) as [h1 u1|e1 h1|] eqn:CA; cbn [rbind] in E; try discriminate.
    2:{ injection E as -> ->. apply check_ex in CA. subst; exact K. }
    destruct (check_kinds _ _ _ _ _ _ G CL ND K CA) as [K1 G1].
    assert (K2 := out_kinds h1 new G1 K1).
    destruct (remove_if_required h1 new) as [h2 u2|e2 h2|]; cbn [rbind res_kinds] in *; [| |discriminate].
    + destruct (replace_at _ _ _); [discriminate|]. injection E as _ <-. exact K2.
    + injection E as -> ->. exact K2.
Qed.
Lemma kinds_same : forall h h', (forall i, n_kind (h' i) = n_kind (h i)) -> (forall i, n_kids (h' i) = n_kids (h i)) ->
  kinds_ok h -> kinds_ok h'.
Proof. intros h h' KK K X p c I. rewrite !KK. apply X. unfold kids in *. rewrite <- K. exact I. Qed.
Lemma vremove_kinds : forall h p o, good h -> kinds_ok h -> res_kinds (vremove h p (Some o)).
Proof.
  intros h p o G K. destruct (vremove h p (Some o)) as [h1 r1|e1 h1|] eqn:V; [| |exact I].
  - destruct (vremove_spec _ _ _ _ _ G V) as (R & G1 & _). cbn.
    apply kinds_less with h; auto; [apply G|apply G1|intro i; apply static_kind, (r_static _ _ _ _ R)|].
    intros i q. rewrite (r_parents _ _ _ _ R). destruct (Nat.eqb i o); [discriminate|auto].
  - apply vremove_ex in V. subst; exact K.
Qed.
Lemma not_doctype : forall h c p, kinds_ok h -> links h -> n_parent (h c) = Some p -> n_kind (h p) = KFragment ->
  n_kind (h c) <> KDocType.
Proof.
  intros h c p K L P KF KT. apply (l_parent h L) in P. assert (X := K p c P). rewrite KF, KT in X. cbn in X.
  intuition discriminate.
Qed.
Lemma vinsert_kinds : forall f,
  (forall h this new ref, good h -> (n_kind (h new) = KDocument -> this <> new) ->
     (n_kind (h new) = KDocType -> n_kind (h this) = KDocument) ->
     kinds_ok h -> res_kinds (vinsert f h this new ref)) /\
  (forall h this frag ref, good h -> n_kind (h frag) = KFragment -> kinds_ok h -> res_kinds (frag_loop f h this frag ref)).
Proof.
  induction f as [|f [IH1 IH2]]; [split; intros; exact I|]. split.
  - intros h this new ref G ND DD K. cbn [vinsert].
    destruct (childless (n_kind (h this))) eqn:CL; [exact K|].
    assert (BASE : res_kinds (if n_ro (h this) then Ex NO_MODIFICATION h
        else if has_kind h new KFragment then frag_loop f h this new ref else insert_node f h this new ref)).
    { destruct (n_ro (h this)); [exact K|]. destruct (has_kind h new KFragment) eqn:KF.
      - apply IH2; auto. apply has_kind_eq, KF.
      - apply insert_node_kinds; auto. }
    destruct (has_kind h this KDocument); [|exact BASE].
    destruct (has_kind h new KElement && _); [exact K|].
    destruct (has_kind h new KDocType && _); [exact K|].
    destruct (if n_ro (h this) then _ else _) as [h1 r1|e1 h1|]; cbn [rbind res_kinds] in *; auto.
    fold (marked h1 this new). revert BASE. apply kinds_same.
    + intro i. apply static_kind, marked_static.
    + intro i. apply marked_kids.
  - intros h this frag ref G KF K. cbn [frag_loop].
    destruct (first_child h frag) as [c|] eqn:FC; [|exact K].
    assert (VK := vremove_kinds h frag c G K).
    destruct (vremove h frag (Some c)) as [h1 r1|e1 h1|] eqn:V; cbn [rbind res_kinds] in *; auto.
    assert (CH := vremove_child_kind _ _ _ _ _ G V).
    destruct (vremove_spec _ _ _ _ _ G V) as (R & G1 & _ & PC & _).
    assert (NT : n_kind (h1 c) <> KDocType).
    { rewrite (static_kind _ _ (r_static _ _ _ _ R c)). apply not_doctype with frag; auto. apply G. }
    assert (S2 := proj1 (vinsert_step f) h1 this c ref G1 (not_doc _ _ CH)).
    assert (K2 := IH1 h1 this c ref G1 (not_doc _ _ CH) (fun X => False_ind _ (NT X)) VK).
    destruct (vinsert f h1 this c ref) as [h2 r2|e2 h2|]; cbn [rbind res_kinds res_step] in *; auto.
    apply IH2; auto; [apply S2|].
    rewrite (static_kind _ _ (proj2 S2 frag)), (static_kind _ _ (r_static _ _ _ _ R frag)). exact KF.
Qed.
Lemma vreplace_kinds : forall f h this new old, good h -> (n_kind (h new) = KDocument -> this <> new) ->
  (n_kind (h new) = KDocType -> n_kind (h this) = KDocument) ->
  kinds_ok h -> res_kinds (vreplace f h this new old).
Proof.
  induction f as [|f IH]; intros h this new old G ND DD K; [exact I|]. cbn [vreplace].
  destruct (childless (n_kind (h this))) eqn:CL; [exact K|].
  match goal with |- res_kinds (if _ then if _ then _ else if _ then _ else if _ then _ else rbind ?b _ else _) =>
    assert (BASE : res_kinds b) end.
  { destruct (n_ro (h this)) eqn:RO; [exact K|].
    destruct (has_kind h new KFragment) eqn:KF; [|apply replace_node_kinds; auto].
    apply has_kind_eq in KF.
    destruct (last_child h new) as [c|] eqn:LC.
    2:{ destruct (vremove h new None) as [h1 r1|e1 h1|] eqn:V; cbn [rbind]; [exfalso; apply (vremove_none _ _ _ _ V)| |exact I].
        apply vremove_ex in V. subst; exact K. }
    assert (VK := vremove_kinds h new c G K).
    destruct (vremove h new (Some c)) as [h1 r1|e1 h1|] eqn:V; cbn [rbind res_kinds] in *; auto.
    assert (CH := vremove_child_kind _ _ _ _ _ G V).
    destruct (vremove_spec _ _ _ _ _ G V) as (R & G1 & -> & PC & _).
    assert (NT : n_kind (h1 c) <> KDocType).
    { rewrite (static_kind _ _ (r_static _ _ _ _ R c)). apply not_doctype with new; auto. apply G. }
    assert (S2 := vreplace_step f h1 this c old G1 (not_doc _ _ CH)).
    assert (K2 := IH h1 this c old G1 (not_doc _ _ CH) (fun X => False_ind _ (NT X)) VK).
    destruct (vreplace f h1 this c old) as [h2 r2|e2 h2|]; cbn [rbind res_kinds res_step] in *; auto.
    assert (KN : n_kind (h2 new) = KFragment).
    { rewrite (static_kind _ _ (proj2 S2 new)), (static_kind _ _ (r_static _ _ _ _ R new)). exact KF. }
    assert (K3 : res_kinds (vinsert f h2 this new (Some c))).
    { apply (proj1 (vinsert_kinds f)); auto; [apply S2|congruence|congruence]. }
    destruct (vinsert f h2 this new (Some c)); cbn [rbind res_kinds] in *; auto. }
  destruct (has_kind h this KDocument); [|exact BASE].
  destruct (negb _); [exact K|].
  destruct (_ && _); [exact K|]. destruct (_ && _); [exact K|].
  match goal with |- res_kinds (rbind ?b _) => destruct b as [h1 r1|e1 h1|] end; cbn [rbind res_kinds] in *; auto.
  destruct (_ && _); cbn [res_kinds]; [|exact BASE]. revert BASE. apply kinds_same; intro i; rewrite upd_at; cbn; apply if_same.
Qed.
Lemma call_kinds : forall f h o, good h -> kinds_ok h -> not_into_itself KDocument h o -> doctype_to_document h o ->
  match dom_call f h o with Ok h' _ | Ex _ h' => kinds_ok h' | Div => True end.
Proof.
  intros f h o G D ND S. assert (X : forall A (r : res A), res_kinds r ->
    match rbind r (fun h _ => Ok h tt) with Ok h' _ | Ex _ h' => kinds_ok h' | Div => True end).
  { intros A [h1 a|e h1|]; cbn; auto. }
  unfold not_into_itself, doctype_to_document in *.
  destruct o as [t n r|t n old|t old|t]; cbn [dom_call op_target] in *.
  - apply X, vinsert_kinds; auto; intro K; [apply ND|apply has_kind_eq, S]; apply has_kind_eq, K.
  - apply X, vreplace_kinds; auto; intro K; [apply ND|apply has_kind_eq, S]; apply has_kind_eq, K.
  - apply X, vremove_kinds; auto.
  - destruct (freeze f h t) as [h1|] eqn:FZ; [|exact I]. revert D. apply kinds_same; intro i;
    destruct (freeze_only _ _ _ _ FZ i) as [->| ->]; reflexivity.
Qed.
Lemma run_kinds : forall f ops h h', good h -> kinds_ok h -> Forall (not_into_itself KDocument h) ops ->
  Forall (doctype_to_document h) ops -> dom_run f h ops = Some h' -> kinds_ok h'.
Proof.
  intros f; induction ops as [|o ops IH]; intros h h' G D F S E; cbn [dom_run] in E.
  - injection E as <-. exact D.
  - inversion F as [|? ? F1 F2]; inversion S as [|? ? S1 S2]; subst.
    assert (C := call_good f h o G F1). assert (CD := call_kinds f h o G D F1 S1).
    assert (T : forall h1, good h1 /\ (forall i, n_kind (h1 i) = n_kind (h i)) -> kinds_ok h1 -> dom_run f h1 ops = Some h' -> kinds_ok h').
    { intros h1 [G1 K1] D1 E1. apply (IH h1); auto.
      - eapply Forall_impl; [|exact F2]. intros a. apply into_itself_kind, K1.
      - eapply Forall_impl; [|exact S2]. intros a. unfold doctype_to_document, has_kind.
        destruct (op_target a) as [[t n]|]; auto. rewrite !K1. auto. }
    destruct (dom_call f h o) as [h1 a|e h1|]; [apply (T h1); auto..|discriminate].
Qed.
Lemma fresh_kinds : forall kinds docs names, kinds_ok (fresh_heap kinds docs names).
Proof. intros kinds docs names p c I. exfalso. unfold kids, fresh_heap, new_node in I. destruct (kinds p); exact I. Qed.

(** * The effects, for the theorems *)
Lemma remove_effect : forall h p o h' r, good h -> vremove h p (Some o) = Ok h' r ->
  r = Some o /\ In o (kids h p) /\ kids h' p = without o (kids h p) /\ get_parent h' o = None /\
  forall i, i <> p -> kids h' i = kids h i.
Proof.
  intros h p o h' r G E. destruct (vremove_spec _ _ _ _ _ G E) as (R & G1 & -> & PC & _). unfold kids.
  destruct (r_kids _ _ _ _ R) as (a & b & K1 & K2). repeat split.
  - rewrite K1. apply in_or_app; right; left; reflexivity.
  - rewrite K1, K2. symmetry. apply without_mid. rewrite <- K1. apply (l_nodup h (proj1 G)).
  - unfold get_parent. rewrite (r_parents _ _ _ _ R), Nat.eqb_refl. destruct (n_kind _); reflexivity.
  - apply (r_others _ _ _ _ R).
Qed.
Lemma fragment_effect : forall f h this new ref h' r, good h -> n_kind (h new) = KFragment -> this <> new ->
  match ref with Some x => In x (kids h this) | None => True end ->
  vinsert f h this new ref = Ok h' r ->
  r = new /\ kids h' new = [] /\ put_list ref (kids h new) (kids h this) (kids h' this)
  /\ (forall i, i <> this -> i <> new -> kids h' i = kids h i).
Proof.
  intros f h this new ref h' r G KF NE RF E. destruct f as [|f]; [discriminate|]. cbn [vinsert] in E.
  destruct (childless _); [discriminate|].
  assert (K2 : forall k, has_kind h new k = nkind_eqb KFragment k) by (intro k; unfold has_kind; rewrite KF; reflexivity).
  rewrite !K2 in E. cbn [nkind_eqb andb] in E.
  assert (B : forall h1 r1, (if n_ro (h this) then Ex NO_MODIFICATION h else frag_loop f h this new ref) = Ok h1 r1 ->
    (r1 = new /\ kids h1 new = [] /\ put_list ref (kids h new) (kids h this) (kids h1 this)
    /\ (forall i, i <> this -> i <> new -> kids h1 i = kids h i)) /\ n_kind (h1 new) = KFragment).
  { intros h1 r1 E1. destruct (n_ro (h this)); [discriminate|]. split.
    - apply (frag_effect _ _ _ _ _ _ _ _ G NE eq_refl RF E1).
    - assert (S := proj2 (vinsert_step f) h this new ref G). rewrite E1 in S.
      rewrite (static_kind _ _ (proj2 S new)). exact KF. }
  destruct (has_kind h this KDocument); [|apply (B _ _ E)].
  destruct (if n_ro (h this) then _ else _) as [h1 r1|e1 h1|]; cbn [rbind] in E; try discriminate.
  destruct (B _ _ eq_refl) as [B1 B2]. unfold has_kind in E. rewrite B2 in E. cbn [nkind_eqb andb] in E.
  rewrite B2 in E. cbn [nkind_eqb andb] in E. injection E as <- <-. exact B1.
Qed.
Lemma self_fragment_hangs : forall f h g, loopy h g -> vinsert f h g g None = Div.
Proof.
  intros f h g LP. destruct f as [|f]; [reflexivity|]. cbn [vinsert].
  assert (L2 := LP). destruct L2 as (_ & KG & RO & _). unfold has_kind. rewrite KG, RO. cbn [childless nkind_eqb].
  apply self_fragment_diverges, LP.
Qed.
Lemma orphans_are_roots : forall h c, good h -> n_kind (h c) <> KDocument -> n_kind (h c) <> KDocType ->
  (n_orphan (h c) = true <-> forall p, ~ In c (kids h p)).
Proof.
  intros h c [L T] K1 K2. split.
  - intros O p I. apply (l_parent h L) in I. rewrite (t_in_list h T c p I) in O. discriminate.
  - intros N. apply (t_orphan h T); auto. destruct (n_parent (h c)) as [p|] eqn:P; [|reflexivity].
    exfalso. apply (N p). apply (l_parent h L), P.
Qed.
