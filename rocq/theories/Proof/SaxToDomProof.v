From Verif.Model Require Import Base Chars Dom Attrs Sax SaxToDom.
From Verif.Model Require AttrMap.
From Verif.Spec Require Import AttrMapSpec SaxTree.
From Verif.Proof Require Import Tac ContainersProof DomProof.

(** * Appending a new node *)
Definition look (n : node) := (n_kind n, n_ro n, (n_data n, n_name n, n_uri n, n_local n)).
Lemma info_look : forall a b, info a = info b -> look a = look b /\ n_owner a = n_owner b /\ n_docel a = n_docel b /\ n_doctype a = n_doctype b.
Proof. unfold info, look. intros a b E. injection E as -> -> -> -> -> -> -> -> ->. repeat split. Qed.
Record appended (h h' : heap) (c n : nat) : Prop := {
  ap_kids : forall j, n_kids (h' j) = if Nat.eqb j c then n_kids (h c) ++ [n] else n_kids (h j);
  ap_parent : forall j, n_parent (h' j) = if Nat.eqb j n then Some c else n_parent (h j);
  ap_look : forall j, look (h' j) = look (h j);
  ap_owner : forall j, j <> n \/ n_kind (h n) <> KDocType -> n_owner (h' j) = n_owner (h j);
  ap_docel : n_kind (h n) <> KElement -> n_docel (h' c) = n_docel (h c);
  ap_doctype : n_kind (h n) <> KDocType -> n_doctype (h' c) = n_doctype (h c);
  ap_other : forall j, j <> c -> n_docel (h' j) = n_docel (h j) /\ n_doctype (h' j) = n_doctype (h j) }.
(** The end of do_insertBefore for a missing reference child. *)
Definition tail_of (h : heap) (this new : nat) : heap :=
  let h1 := match last_child h this with
            | Some l => set_prev (set_next h l (Some new)) new (Some l)
            | None => h
            end in
  let h2 := set_kids h1 this (n_kids (h1 this) ++ [new]) in
  mark_changed (set_parent h2 new (Some this)) this.
Lemma tail_spec : forall h c n,
  (forall j, n_kids (tail_of h c n j) = if Nat.eqb j c then n_kids (h c) ++ [n] else n_kids (h j)) /\
  (forall j, n_parent (tail_of h c n j) = if Nat.eqb j n then Some c else n_parent (h j)) /\
  (forall j, info (tail_of h c n j) = info (h j)).
Proof.
  intros h c n. unfold tail_of. repeat split; intros j; rewrite ?mark_kids, ?mark_parent, ?mark_info, ?set_parent_kids, ?set_parent_parent, ?set_parent_info, ?set_kids_kids, ?set_kids_parent, ?set_kids_info;
    destruct (last_child h c); rewrite ?set_prev_kids, ?set_next_kids, ?set_prev_parent, ?set_next_parent, ?set_prev_info, ?set_next_info; reflexivity.
Qed.
Definition newborn (h : heap) (n d : nat) (k : nkind) : Prop :=
  n_kind (h n) = k /\ n_parent (h n) = None /\ (n_owner (h n) = if nkind_eqb k KDocType then None else Some d).
Lemma upd_docel_look : forall h c v j, look (upd h c (set_docel_f v) j) = look (h j).
Proof. intros. unfold upd. destruct (Nat.eqb j c); reflexivity. Qed.
Lemma upd_proj : forall {A} (g : node -> A) h c f j, (forall x, g (f x) = g x) -> g (upd h c f j) = g (h j).
Proof. intros A g h c f j E. unfold upd. destruct (Nat.eqb j c); [apply E|reflexivity]. Qed.
Lemma vappend_fresh : forall f h c n d k, newborn h n d k -> n <> c ->
  n_owner (h c) = Some d -> n_ro (h c) = false -> childless (n_kind (h c)) = false -> n_kind (h c) <> KEntityRef ->
  child_kind_ok (n_kind (h c)) k = true -> climb f h c n = Some false ->
  (n_kind (h c) = KDocument -> k = KElement -> n_docel (h c) = None) ->
  (n_kind (h c) = KDocument -> k = KDocType -> n_doctype (h c) = None) ->
  exists h', vappend (S f) h c n = Ok h' n /\ appended h h' c n.
Proof.
  intros f h c n d k (K & P & O) NC OC RO CH NR CK CL DE DT.
  assert (FR : k <> KFragment /\ k <> KDocument). { split; intros ->; destruct (n_kind (h c)); discriminate. }
  destruct FR as [FR FD].
  (* the inner insertion *)
  assert (INS : exists h1, insert_node f h c n None = Ok (tail_of h1 c n) n /\ (forall j, n_kids (h1 j) = n_kids (h j)) /\ (forall j, n_parent (h1 j) = n_parent (h j)) /\
     (forall j, look (h1 j) = look (h j)) /\ (forall j, j <> n \/ k <> KDocType -> n_owner (h1 j) = n_owner (h j)) /\ (forall j, n_docel (h1 j) = n_docel (h j)) /\ (forall j, n_doctype (h1 j) = n_doctype (h j))).
  { unfold insert_node, check_can_add. destruct (nkind_eqb k KDocType) eqn:KD.
    - rewrite O. cbn [rbind]. set (h1 := upd h n (set_owner_f (n_owner (h c)))).
      assert (P1 : get_parent h1 n = None). { unfold get_parent, h1. rewrite (upd_proj n_kind) by reflexivity. rewrite (upd_proj n_parent) by reflexivity. rewrite P. destruct (n_kind (h n)); reflexivity. }
      unfold remove_if_required. rewrite P1. cbn [rbind]. exists h1. split; [reflexivity|]. apply nkind_eqb_eq in KD.
      repeat split; intros j; try (unfold h1; apply upd_proj; reflexivity).
      intros [J|J]; [|contradiction]. unfold h1, upd. apply Nat.eqb_neq in J. rewrite J. reflexivity.
    - rewrite O. unfold has_kind at 1. rewrite K. destruct (nkind_eqb k KDocument) eqn:E; [apply nkind_eqb_eq in E; contradiction|].
      rewrite OC, Nat.eqb_refl. cbn [negb]. rewrite CL. unfold has_kind at 1. destruct (nkind_eqb (n_kind (h c)) KEntityRef) eqn:E2; [apply nkind_eqb_eq in E2; contradiction|].
      cbn [andb]. rewrite CK. cbn [rbind]. assert (P1 : get_parent h n = None) by (unfold get_parent; rewrite P; destruct (n_kind (h n)); reflexivity).
      unfold remove_if_required. rewrite P1. cbn [rbind]. exists h. split; [reflexivity|]. repeat split; auto. }
  destruct INS as (h1 & IE & KI & PA & LO & OW & DO & DY).
  destruct (tail_spec h1 c n) as (TK & TP & TI). set (h2 := tail_of h1 c n) in *. clearbody h2.
  assert (A2 : appended h h2 c n).
  { constructor.
    - intros j. rewrite TK, !KI. reflexivity.
    - intros j. rewrite TP, PA. reflexivity.
    - intros j. destruct (info_look _ _ (TI j)) as (E & _). rewrite E. apply LO.
    - intros j J. destruct (info_look _ _ (TI j)) as (_ & E & _). rewrite E. apply OW. rewrite K in J. exact J.
    - intros _. destruct (info_look _ _ (TI c)) as (_ & _ & E & _). rewrite E. apply DO.
    - intros _. destruct (info_look _ _ (TI c)) as (_ & _ & _ & E). rewrite E. apply DY.
    - intros j _. destruct (info_look _ _ (TI j)) as (_ & _ & E & E'). rewrite E, E'. split; [apply DO|apply DY]. }
  unfold vappend. cbn [vinsert]. rewrite CH, RO.
  assert (HF : has_kind h n KFragment = false). { unfold has_kind. rewrite K. destruct (nkind_eqb k KFragment) eqn:E; [apply nkind_eqb_eq in E; contradiction|reflexivity]. }
  rewrite HF. destruct (has_kind h c KDocument) eqn:HD.
  2: { rewrite IE. exists h2. auto. }
  apply has_kind_eq in HD.
  assert (E1 : has_kind h n KElement && negb (opt_eqb (n_docel (h c)) None) = false).
  { unfold has_kind. rewrite K. destruct (nkind_eqb k KElement) eqn:E; [|reflexivity]. apply nkind_eqb_eq in E. rewrite (DE HD E). reflexivity. }
  assert (E2 : has_kind h n KDocType && negb (opt_eqb (n_doctype (h c)) None) = false).
  { unfold has_kind. rewrite K. destruct (nkind_eqb k KDocType) eqn:E; [|reflexivity]. apply nkind_eqb_eq in E. rewrite (DT HD E). reflexivity. }
  rewrite E1, E2, IE. cbn [rbind].
  set (h3 := if has_kind h2 n KElement && opt_eqb (n_docel (h2 c)) None then upd h2 c (set_docel_f (Some n)) else h2).
  set (h4 := if has_kind h3 n KDocType && opt_eqb (n_doctype (h3 c)) None then upd h3 c (set_doctype_f (Some n)) else h3).
  exists h4. split; [reflexivity|].
  assert (K2 : n_kind (h2 n) = k). { pose proof (ap_look _ _ _ _ A2 n) as L. unfold look in L. congruence. }
  assert (EL3 : forall {A} (g : node -> A) j, (forall v x, g (set_docel_f v x) = g x) -> g (h3 j) = g (h2 j)).
  { intros A g j G. unfold h3. match goal with |- context [if ?b then _ else _] => destruct b end; [apply upd_proj; apply G|reflexivity]. }
  assert (EL : forall {A} (g : node -> A) j, (forall v x, g (set_docel_f v x) = g x) -> (forall v x, g (set_doctype_f v x) = g x) -> g (h4 j) = g (h2 j)).
  { intros A g j G1 G2. rewrite <- (EL3 _ g j G1). unfold h4. match goal with |- context [if ?b then _ else _] => destruct b end; [apply upd_proj; apply G2|reflexivity]. }
  constructor.
  - intros j. rewrite (EL _ n_kids) by reflexivity. apply (ap_kids _ _ _ _ A2).
  - intros j. rewrite (EL _ n_parent) by reflexivity. apply (ap_parent _ _ _ _ A2).
  - intros j. rewrite (EL _ look) by reflexivity. apply (ap_look _ _ _ _ A2).
  - intros j J. rewrite (EL _ n_owner) by reflexivity. apply (ap_owner _ _ _ _ A2 j J).
  - intros N. rewrite K in N. assert (E3 : h3 = h2). { unfold h3, has_kind. rewrite K2. destruct (nkind_eqb k KElement) eqn:E; [apply nkind_eqb_eq in E; contradiction|reflexivity]. }
    unfold h4. match goal with |- context [if ?b then _ else _] => destruct b end; [rewrite (upd_proj n_docel) by reflexivity|]; rewrite E3; apply (ap_docel _ _ _ _ A2); rewrite K; exact N.
  - intros N. rewrite K in N. assert (E4 : h4 = h3). { unfold h4, has_kind. rewrite (EL3 _ n_kind n) by reflexivity. rewrite K2. destruct (nkind_eqb k KDocType) eqn:E; [apply nkind_eqb_eq in E; contradiction|reflexivity]. }
    rewrite E4. rewrite (EL3 _ n_doctype) by reflexivity. apply (ap_doctype _ _ _ _ A2). rewrite K. exact N.
  - intros j J. assert (E3 : h3 j = h2 j). { unfold h3. match goal with |- context [if ?b then _ else _] => destruct b end; [|reflexivity]. unfold upd. apply Nat.eqb_neq in J. rewrite J. reflexivity. }
    assert (E4 : h4 j = h3 j). { unfold h4. match goal with |- context [if ?b then _ else _] => destruct b end; [|reflexivity]. unfold upd. apply Nat.eqb_neq in J. rewrite J. reflexivity. }
    rewrite E4, E3. apply (ap_other _ _ _ _ A2 j J).
Qed.

(** * Climbing *)
Inductive lifts (h : heap) (m : nat) : nat -> nat -> Prop :=
  | lift_top : forall c, (c < m)%nat -> get_parent h c = None -> lifts h m c 0
  | lift_up : forall c p k, (c < m)%nat -> get_parent h c = Some p -> lifts h m p k -> lifts h m c (S k).
Lemma lifts_climb : forall h m c k n f, lifts h m c k -> (m <= n)%nat -> (k < f)%nat -> climb f h c n = Some false.
Proof.
  intros h m c k n f L. revert f. induction L as [c C P|c p k C P L IH]; intros f M F; (destruct f as [|f]; [lia|]); cbn [climb]; destruct (Nat.eqb_spec c n) as [E|E]; try lia; rewrite P; [reflexivity|].
  apply IH; lia.
Qed.
Lemma lifts_frame : forall h h' m m' c k, lifts h m c k -> (m <= m')%nat -> (forall j, (j < m)%nat -> n_kind (h' j) = n_kind (h j) /\ n_parent (h' j) = n_parent (h j)) -> lifts h' m' c k.
Proof.
  intros h h' m m' c k L. induction L as [c C P|c p k C P L IH]; intros M F.
  - constructor; [lia|]. destruct (F c C) as [A B]. unfold get_parent in *. rewrite A, B. exact P.
  - apply lift_up with (p := p); [lia| |apply IH; auto]. destruct (F c C) as [A B]. unfold get_parent in *. rewrite A, B. exact P.
Qed.

(** * One node *)
Definition rest (b : builder) := (b_doc b, b_type b, b_cur b, b_cached b, b_cdata b, b_dtd b, b_depth b, b_known b, b_ents b).
Record open (b : builder) (c d k0 : nat) : Prop := {
  op_cur : b_cur b = Some c; op_doc : b_doc b = Some d; op_lt : (c < b_next b)%nat;
  op_owner : n_owner (b_heap b c) = Some d; op_ro : n_ro (b_heap b c) = false;
  op_kind : n_kind (b_heap b c) = KElement \/ n_kind (b_heap b c) = KDocument;
  op_lifts : lifts (b_heap b) (b_next b) c k0 }.
Record later (b b' : builder) (c : nat) (l : list nat) : Prop := {
  lt_next : (b_next b <= b_next b')%nat;
  lt_rest : rest b' = rest b;
  lt_look : forall j, (j < b_next b)%nat -> look (b_heap b' j) = look (b_heap b j);
  lt_owner : forall j, (j < b_next b)%nat -> n_owner (b_heap b' j) = n_owner (b_heap b j);
  lt_parent : forall j, (j < b_next b)%nat -> n_parent (b_heap b' j) = n_parent (b_heap b j);
  lt_atts : forall j, (j < b_next b)%nat -> b_atts b' j = b_atts b j;
  lt_kids : forall j, (j < b_next b)%nat -> n_kids (b_heap b' j) = if Nat.eqb j c then n_kids (b_heap b c) ++ l else n_kids (b_heap b j);
  lt_docs : n_docel (b_heap b' c) = n_docel (b_heap b c) \/ (exists x, In x l /\ n_kind (b_heap b' x) = KElement);
  lt_types : n_doctype (b_heap b' c) = n_doctype (b_heap b c) \/ (exists x, In x l /\ n_kind (b_heap b' x) = KDocType);
  lt_other : forall j, (j < b_next b)%nat -> j <> c -> n_docel (b_heap b' j) = n_docel (b_heap b j) /\ n_doctype (b_heap b' j) = n_doctype (b_heap b j) }.
Record born (b b1 : builder) (i : nat) (k : nkind) (d : nat) : Prop := {
  bo_i : i = b_next b; bo_next : b_next b1 = S i; bo_rest : rest b1 = rest b;
  bo_same : forall j, j <> i -> b_heap b1 j = b_heap b j; bo_atts : forall j, j <> i -> b_atts b1 j = b_atts b j;
  bo_new : newborn (b_heap b1) i d k; bo_kids : n_kids (b_heap b1 i) = [] }.
Lemma look_kind : forall a b, look a = look b -> n_kind a = n_kind b.
Proof. unfold look. intros a b E. congruence. Qed.
Lemma look_ro : forall a b, look a = look b -> n_ro a = n_ro b.
Proof. unfold look. intros a b E. congruence. Qed.
Lemma attach_ok : forall fuel b b1 c d k0 k i, open b c d k0 -> born b b1 i k d -> (S k0 < fuel)%nat ->
  child_kind_ok (n_kind (b_heap b c)) k = true ->
  (n_kind (b_heap b c) = KDocument -> k = KElement -> n_docel (b_heap b c) = None) ->
  (n_kind (b_heap b c) = KDocument -> k = KDocType -> n_doctype (b_heap b c) = None) ->
  exists b2, append fuel b1 c i = BOk b2 tt /\ later b b2 c [i] /\ b_next b2 = S i /\ look (b_heap b2 i) = look (b_heap b1 i) /\
    n_kids (b_heap b2 i) = [] /\ n_parent (b_heap b2 i) = Some c /\ (k <> KDocType -> n_owner (b_heap b2 i) = Some d) /\ b_atts b2 i = b_atts b1 i.
Proof.
  intros fuel b b1 c d k0 k i O B F CK DE DT. destruct fuel as [|f]; [lia|].
  assert (IC : i <> c). { pose proof (op_lt _ _ _ _ O). pose proof (bo_i _ _ _ _ _ B). lia. }
  assert (HC : b_heap b1 c = b_heap b c) by (apply (bo_same _ _ _ _ _ B); lia).
  assert (KN : n_kind (b_heap b1 i) = k) by (apply (bo_new _ _ _ _ _ B)).
  destruct (vappend_fresh f (b_heap b1) c i d k) as (h2 & E & A); rewrite ?HC.
  - apply (bo_new _ _ _ _ _ B).
  - exact IC.
  - apply (op_owner _ _ _ _ O).
  - apply (op_ro _ _ _ _ O).
  - destruct (op_kind _ _ _ _ O) as [-> | ->]; reflexivity.
  - destruct (op_kind _ _ _ _ O) as [-> | ->]; discriminate.
  - exact CK.
  - apply (lifts_climb (b_heap b1) (b_next b) c k0); [|rewrite (bo_i _ _ _ _ _ B); lia|lia].
    eapply lifts_frame; [apply (op_lifts _ _ _ _ O)|lia|]. intros j J. rewrite (bo_same _ _ _ _ _ B) by (rewrite (bo_i _ _ _ _ _ B); lia). split; reflexivity.
  - exact DE.
  - exact DT.
  - unfold append. rewrite E. exists (put_heap h2 b1). split; [reflexivity|].
    assert (OLD : forall j, (j < b_next b)%nat -> j <> i) by (intros j J; rewrite (bo_i _ _ _ _ _ B); lia).
    split; [constructor; cbn [put_heap b_next b_heap b_atts]|].
    + rewrite (bo_next _ _ _ _ _ B), (bo_i _ _ _ _ _ B). lia.
    + rewrite <- (bo_rest _ _ _ _ _ B). reflexivity.
    + intros j J. rewrite (ap_look _ _ _ _ A), (bo_same _ _ _ _ _ B) by auto. reflexivity.
    + intros j J. rewrite (ap_owner _ _ _ _ A) by auto. rewrite (bo_same _ _ _ _ _ B) by auto. reflexivity.
    + intros j J. rewrite (ap_parent _ _ _ _ A). pose proof (OLD j J) as N. apply Nat.eqb_neq in N. rewrite N. rewrite (bo_same _ _ _ _ _ B) by auto. reflexivity.
    + intros j J. apply (bo_atts _ _ _ _ _ B). auto.
    + intros j J. rewrite (ap_kids _ _ _ _ A), HC, (bo_same _ _ _ _ _ B j) by auto. reflexivity.
    + destruct (nkind_eqb k KElement) eqn:KE.
      * right. exists i. split; [left; reflexivity|]. rewrite (look_kind _ _ (ap_look _ _ _ _ A i)), KN. apply nkind_eqb_eq. exact KE.
      * left. rewrite (ap_docel _ _ _ _ A), HC; [reflexivity|]. rewrite KN. intros ->. discriminate.
    + destruct (nkind_eqb k KDocType) eqn:KE.
      * right. exists i. split; [left; reflexivity|]. rewrite (look_kind _ _ (ap_look _ _ _ _ A i)), KN. apply nkind_eqb_eq. exact KE.
      * left. rewrite (ap_doctype _ _ _ _ A), HC; [reflexivity|]. rewrite KN. intros ->. discriminate.
    + intros j J JC. destruct (ap_other _ _ _ _ A j JC) as (E1 & E2). rewrite E1, E2, (bo_same _ _ _ _ _ B j) by auto. split; reflexivity.
    + cbn [put_heap b_next b_heap b_atts]. split; [apply (bo_next _ _ _ _ _ B)|]. split; [apply (ap_look _ _ _ _ A)|].
      split; [rewrite (ap_kids _ _ _ _ A); apply Nat.eqb_neq in IC; rewrite IC; apply (bo_kids _ _ _ _ _ B)|].
      split; [rewrite (ap_parent _ _ _ _ A), Nat.eqb_refl; reflexivity|]. split; [|reflexivity].
      intros N. rewrite (ap_owner _ _ _ _ A) by (right; congruence). destruct (bo_new _ _ _ _ _ B) as (_ & _ & OW). rewrite OW.
      destruct (nkind_eqb k KDocType) eqn:KE; [apply nkind_eqb_eq in KE; contradiction|reflexivity].
Qed.
Lemma alloc_born : forall b k d nm, k <> KDocument -> born b (fst (alloc b k d nm)) (b_next b) k d /\ look (b_heap (fst (alloc b k d nm)) (b_next b)) = look (new_node (b_next b) k d nm)
  /\ b_atts (fst (alloc b k d nm)) (b_next b) = [].
Proof.
  intros b k d nm N. unfold alloc. cbn [fst]. split; [constructor|split]; cbn [put_next put_atts put_heap b_next b_heap b_atts]; try reflexivity.
  - intros j J. unfold upd. apply Nat.eqb_neq in J. rewrite J. reflexivity.
  - intros j J. apply Nat.eqb_neq in J. rewrite J. reflexivity.
  - unfold newborn, upd. rewrite Nat.eqb_refl. destruct k; try contradiction; repeat split.
  - unfold upd. rewrite Nat.eqb_refl. destruct k; reflexivity.
  - unfold upd. rewrite Nat.eqb_refl. reflexivity.
  - rewrite Nat.eqb_refl. reflexivity.
Qed.
Lemma later_trans : forall b b1 b2 c l1 l2, (c < b_next b)%nat -> later b b1 c l1 -> later b1 b2 c l2 ->
  (forall x, In x l1 -> (x < b_next b1)%nat) -> later b b2 c (l1 ++ l2).
Proof.
  intros b b1 b2 c l1 l2 C A B IN. assert (N := lt_next _ _ _ _ A). constructor.
  - pose proof (lt_next _ _ _ _ B). lia.
  - rewrite (lt_rest _ _ _ _ B). apply (lt_rest _ _ _ _ A).
  - intros j J. rewrite (lt_look _ _ _ _ B) by lia. apply (lt_look _ _ _ _ A j J).
  - intros j J. rewrite (lt_owner _ _ _ _ B) by lia. apply (lt_owner _ _ _ _ A j J).
  - intros j J. rewrite (lt_parent _ _ _ _ B) by lia. apply (lt_parent _ _ _ _ A j J).
  - intros j J. rewrite (lt_atts _ _ _ _ B) by lia. apply (lt_atts _ _ _ _ A j J).
  - intros j J. rewrite (lt_kids _ _ _ _ B) by lia. destruct (Nat.eqb_spec j c) as [E|E].
    + subst j. rewrite (lt_kids _ _ _ _ A) by lia. rewrite Nat.eqb_refl, app_assoc. reflexivity.
    + rewrite (lt_kids _ _ _ _ A) by lia. apply Nat.eqb_neq in E. rewrite E. reflexivity.
  - destruct (lt_docs _ _ _ _ B) as [E|(x & I & K)]; [|right; exists x; rewrite in_app_iff; auto].
    destruct (lt_docs _ _ _ _ A) as [E2|(x & I & K)]; [left; congruence|]. right. exists x. rewrite in_app_iff. split; [auto|].
    rewrite (look_kind _ _ (lt_look _ _ _ _ B x (IN x I))). exact K.
  - destruct (lt_types _ _ _ _ B) as [E|(x & I & K)]; [|right; exists x; rewrite in_app_iff; auto].
    destruct (lt_types _ _ _ _ A) as [E2|(x & I & K)]; [left; congruence|]. right. exists x. rewrite in_app_iff. split; [auto|].
    rewrite (look_kind _ _ (lt_look _ _ _ _ B x (IN x I))). exact K.
  - intros j J JC. destruct (lt_other _ _ _ _ A j J JC) as (E1 & E2). assert (J2 : (j < b_next b1)%nat) by lia. destruct (lt_other _ _ _ _ B j J2 JC) as (E3 & E4). split; congruence.
Qed.
Lemma later_refl : forall b c, later b b c [].
Proof. intros b c. constructor; auto. intros j J. destruct (Nat.eqb_spec j c) as [E|E]; [subst; rewrite app_nil_r|]; reflexivity. Qed.
Lemma open_later : forall b b' c d k0 l, open b c d k0 -> later b b' c l -> open b' c d k0.
Proof.
  intros b b' c d k0 l O L. assert (C := op_lt _ _ _ _ O). pose proof (lt_rest _ _ _ _ L) as R. unfold rest in R. injection R as R1 _ R2 _ _ _ _ _ _.
  constructor.
  - rewrite R2. apply (op_cur _ _ _ _ O).
  - rewrite R1. apply (op_doc _ _ _ _ O).
  - pose proof (lt_next _ _ _ _ L). lia.
  - rewrite (lt_owner _ _ _ _ L) by lia. apply (op_owner _ _ _ _ O).
  - rewrite (look_ro _ _ (lt_look _ _ _ _ L c C)). apply (op_ro _ _ _ _ O).
  - rewrite (look_kind _ _ (lt_look _ _ _ _ L c C)). apply (op_kind _ _ _ _ O).
  - eapply lifts_frame; [apply (op_lifts _ _ _ _ O)|apply (lt_next _ _ _ _ L)|]. intros j J. split; [apply look_kind; apply (lt_look _ _ _ _ L j J)|apply (lt_parent _ _ _ _ L j J)].
Qed.

(** * Trees in the heap *)
Fixpoint shows (lo hi : nat) (h : heap) (at_ : nat -> list AttrMap.attr) (n : nat) (t : xt) : Prop :=
  (lo <= n < hi)%nat /\
  match t with
  | XElem u q atts kids =>
      n_kind (h n) = KElement /\ SaxTree.uri_of (h n) = u /\ n_name (h n) = q /\ map walk_attr (at_ n) = atts /\
      (fix go (l : list xt) (ids : list nat) := match l, ids with
         | [], [] => True | k :: r, i :: is => shows lo hi h at_ i k /\ go r is | _, _ => False end) kids (n_kids (h n))
  | XText s => n_kind (h n) = KText /\ n_data (h n) = s
  | XCData s => n_kind (h n) = KCData /\ n_data (h n) = s
  | XComment s => n_kind (h n) = KComment /\ n_data (h n) = s
  | XPI t d => n_kind (h n) = KPI /\ n_name (h n) = t /\ n_data (h n) = d
  | XSkip m => n_kind (h n) = KEntityRef /\ n_name (h n) = m
  end.
Section Trees.
Variable P : xt -> Prop.
Hypothesis HE : forall u q a l, Forall P l -> P (XElem u q a l).
Hypothesis H1 : forall s, P (XText s). Hypothesis H2 : forall s, P (XCData s). Hypothesis H3 : forall s, P (XComment s).
Hypothesis H4 : forall t d, P (XPI t d). Hypothesis H5 : forall n, P (XSkip n).
Fixpoint xt_ind2 (t : xt) : P t :=
  match t with
  | XElem u q a l => HE u q a l ((fix go (l : list xt) : Forall P l := match l with [] => Forall_nil P | x :: r => Forall_cons x (xt_ind2 x) (go r) end) l)
  | XText s => H1 s | XCData s => H2 s | XComment s => H3 s | XPI t d => H4 t d | XSkip n => H5 n
  end.
End Trees.
Lemma shows_elem : forall lo hi h at_ n u q atts kids, shows lo hi h at_ n (XElem u q atts kids) <->
  (lo <= n < hi)%nat /\ n_kind (h n) = KElement /\ SaxTree.uri_of (h n) = u /\ n_name (h n) = q /\ map walk_attr (at_ n) = atts /\ Forall2 (shows lo hi h at_) (n_kids (h n)) kids.
Proof.
  intros lo hi h at_ n u q atts kids. cbn [shows].
  set (go := fix go (l : list xt) (ids : list nat) : Prop := match l, ids with
         | [], [] => True | k :: r, i :: is => shows lo hi h at_ i k /\ go r is | _, _ => False end).
  assert (E : forall l ids, go l ids <-> Forall2 (shows lo hi h at_) ids l).
  { induction l as [|k r IH]; intros [|i is]; cbn [go].
    - split; auto.
    - split; [intros []|intros H; inversion H].
    - split; [intros []|intros H; inversion H].
    - fold go. rewrite IH. split; [intros [A B]; constructor; auto|intros H; inversion H; auto]. }
  rewrite E. tauto.
Qed.
Lemma shows_frame : forall lo hi lo' hi' h h' a a' t n, (lo' <= lo)%nat -> (hi <= hi')%nat ->
  (forall j, (lo <= j < hi)%nat -> look (h' j) = look (h j) /\ n_kids (h' j) = n_kids (h j) /\ a' j = a j) ->
  shows lo hi h a n t -> shows lo' hi' h' a' n t.
Proof.
  intros lo hi lo' hi' h h' a a' t n L H F. revert n.
  induction t as [u q atts kids IH|s|s|s|t d|m] using xt_ind2; intros n S.
  1: { apply shows_elem in S. destruct S as (R & K & U & Q & A & S). apply shows_elem. destruct (F n R) as (E1 & E2 & E3). unfold look in E1. injection E1 as E1 _ _ En Eu _.
       unfold SaxTree.uri_of in *. rewrite E1, En, Eu, E2, E3. repeat split; auto; try lia. clear - IH S. induction S as [|i k is ks S1 S2 IH2]; [constructor|]. inversion IH; subst. constructor; auto. }
  all: cbn [shows] in *; destruct S as (R & S); destruct (F n R) as (E1 & _); unfold look in E1; injection E1 as X1 _ X3 X4 _ _; rewrite ?X1, ?X3, ?X4; (split; [lia|exact S]).
Qed.

(** * Names *)
Lemma check_name_ok : forall s, AttrMap.check_name s = name_ok s.
Proof. intros [|c s]; reflexivity. Qed.
Lemma at_colon_none : forall q, ~ In colon q -> AttrMap.at_colon q = None.
Proof.
  induction q as [|c q IH]; intros N; [reflexivity|]. cbn [AttrMap.at_colon]. destruct (Z.eqb_spec c 58) as [E|E]; [exfalso; apply N; left; exact E|].
  rewrite IH; [reflexivity|]. intros I. apply N. right. exact I.
Qed.
Lemma at_colon_some : forall p l, ~ In colon p -> AttrMap.at_colon (p ++ colon :: l) = Some (p, l).
Proof.
  induction p as [|c p IH]; intros l N; [reflexivity|]. cbn [AttrMap.at_colon app]. destruct (Z.eqb_spec c 58) as [E|E]; [exfalso; apply N; left; exact E|].
  rewrite IH; [reflexivity|]. intros I. apply N. right. exact I.
Qed.
Lemma has_colon_false : forall p, ~ In colon p -> AttrMap.has_colon p = false.
Proof.
  intros p N. unfold AttrMap.has_colon. destruct (existsb (Z.eqb 58) p) eqn:E; [|reflexivity]. apply existsb_exists in E. destruct E as (x & I & E). apply Z.eqb_eq in E. subst x. contradiction.
Qed.
Lemma local_none : forall q, ~ In colon q -> local_part q = q.
Proof.
  intros q N. unfold local_part. assert (E : after_colon q = None); [|rewrite E; reflexivity]. induction q as [|c q IH]; [reflexivity|]. cbn [after_colon].
  destruct (Z.eqb_spec c colon) as [E|E]; [exfalso; apply N; left; exact E|]. apply IH. intros I. apply N. right. exact I.
Qed.
Lemma local_some : forall p l, ~ In colon p -> local_part (p ++ colon :: l) = l.
Proof.
  intros p l N. unfold local_part. assert (E : after_colon (p ++ colon :: l) = Some l); [|rewrite E; reflexivity]. induction p as [|c p IH]; [reflexivity|]. cbn [after_colon app].
  destruct (Z.eqb_spec c colon) as [E|E]; [exfalso; apply N; left; exact E|]. apply IH. intros I. apply N. right. exact I.
Qed.
Definition from_opt (o : option str) : str := match o with Some u => u | None => [] end.
Lemma element_naming_ok : forall u q, element_fits u q -> exists l given, element_naming u q = Some (Naming q [] given l) /\ from_opt given = u.
Proof.
  intros u q (N & F). unfold element_naming. rewrite check_name_ok, N. destruct F as [F|(p & l & (-> & NP) & U & X)].
  - rewrite at_colon_none by exact F. exists q, (match u with [] => None | _ => Some u end). split; [reflexivity|]. destruct u; reflexivity.
  - rewrite at_colon_some by exact NP. rewrite has_colon_false by exact NP. exists l, (match u with [] => None | _ => Some u end). split; [|destruct u; reflexivity].
    destruct (str_eqb p AttrMap.xml_prefix) eqn:E.
    + apply str_eqb_true in E. rewrite (X E). reflexivity.
    + destruct u; [contradiction|reflexivity].
Qed.
Lemma declares_split : forall q, declares q = true <-> q = xmlns \/ exists l, q = xmlns ++ colon :: l.
Proof.
  intros q. unfold declares. rewrite Bool.orb_true_iff, !str_eqb_true. split.
  - intros [E|E]; [left; exact E|]. right. exists (skipn 6 q). rewrite <- (firstn_skipn 6 q) at 1. rewrite E. rewrite <- app_assoc. reflexivity.
  - intros [E|(l & ->)]; [left; exact E|right; reflexivity].
Qed.
Lemma xmlns_plain : ~ In colon xmlns. Proof. unfold colon. cbn. intuition congruence. Qed.
Lemma prefixed_unique : forall p l p' l', ~ In colon p -> ~ In colon p' -> p ++ colon :: l = p' ++ colon :: l' -> p = p' /\ l = l'.
Proof.
  intros p l p' l' N N' E. pose proof (at_colon_some p l N) as A. rewrite E, (at_colon_some p' l' N') in A. injection A as -> ->. split; reflexivity.
Qed.
(** An attribute made by setAttributeNS. *)
Record formed (y : AttrMap.attr) : Prop := {
  fo_local : AttrMap.a_local y = local_part (AttrMap.a_name y);
  fo_plain : AttrMap.a_uri y = None -> local_part (AttrMap.a_name y) = AttrMap.a_name y /\ AttrMap.a_name y <> [] }.
Lemma ns_attr_ok : forall doc a, attribute_fits (see_attr a) -> let '(u, q, _) := see_attr a in
  exists given, AttrMap.ns_attr doc (a_uri a) q false = inl (AttrMap.Attr doc q (local_part q) given [] None None false false) /\ from_opt given = u /\
    (given = None -> ~ In colon q).
Proof.
  intros doc a F. unfold see_attr in *. set (q := match a_qname a with [] => a_local a | q => q end) in *. clearbody q. destruct F as (_ & F). unfold AttrMap.ns_attr.
  destruct F as [(N & X)|(p & l & (-> & NP) & U & X1 & X2)].
  - rewrite at_colon_none by exact N. rewrite local_none by exact N. destruct (str_eqb q AttrMap.xmlns_prefix) eqn:E.
    + apply str_eqb_true in E. subst q. specialize (X eq_refl). unfold AttrMap.check_prefix.
      exists (Some AttrMap.xmlns_ns). destruct (a_uri a) as [|c r] eqn:AU.
      * repeat split; [discriminate].
      * rewrite X. repeat split. discriminate.
    + exists (match a_uri a with [] => None | u => Some u end). unfold AttrMap.check_prefix. destruct (a_uri a) as [|c r] eqn:AU.
      * assert (D : declares q = false). { destruct (declares q) eqn:D; [|reflexivity]. apply declares_split in D. destruct D as [D|(l & D)]; [subst q; discriminate|]. exfalso. apply N. rewrite D. apply in_or_app. right. left. reflexivity. }
        rewrite D. repeat split. intros _. exact N.
      * repeat split. discriminate.
  - rewrite at_colon_some by exact NP. rewrite local_some by exact NP.
    assert (D0 : a_uri a = [] -> p = xmlns).
    { intros E. rewrite E in U. destruct (declares (p ++ colon :: l)) eqn:D; [|contradiction]. apply declares_split in D. destruct D as [D|(l' & D)].
      - exfalso. apply xmlns_plain. rewrite <- D. apply in_or_app. right. left. reflexivity.
      - apply prefixed_unique in D; [tauto|exact NP|exact xmlns_plain]. }
    unfold AttrMap.check_prefix. rewrite has_colon_false by exact NP. destruct (str_eqb p AttrMap.xml_prefix) eqn:PX.
    + apply str_eqb_true in PX. specialize (X1 PX). destruct (a_uri a) as [|c r] eqn:AU; [exfalso; rewrite (D0 eq_refl) in PX; discriminate|].
      rewrite X1. exists (Some AttrMap.xml_ns). repeat split. discriminate.
    + destruct (str_eqb p AttrMap.xmlns_prefix) eqn:PN.
      * apply str_eqb_true in PN. specialize (X2 PN). exists (Some AttrMap.xmlns_ns). destruct (a_uri a) as [|c r] eqn:AU.
        -- repeat split; [exact (eq_sym X2)|discriminate].
        -- rewrite X2. repeat split. discriminate.
      * destruct (a_uri a) as [|c r] eqn:AU; [exfalso; rewrite (D0 eq_refl) in PN; discriminate|]. exists (Some (c :: r)). repeat split. discriminate.
Qed.
Lemma put_attr_new : forall p x l, (forall y, In y l -> p y = false) -> put_attr p x l = l ++ [x].
Proof. intros p x. induction l as [|y l IH]; intros H; [reflexivity|]. cbn [put_attr app]. rewrite (H y) by (left; reflexivity). rewrite IH; [reflexivity|]. intros z Z. apply H. right. exact Z. Qed.
Lemma set_attrs_ok : forall doc e atts l, Forall formed l -> Forall attribute_fits (map see_attr atts) -> NoDup (map key (map walk_attr l ++ map see_attr atts)) ->
  exists l', set_attrs doc e l atts = Some l' /\ map walk_attr l' = map walk_attr l ++ map see_attr atts.
Proof.
  intros doc e. induction atts as [|a atts IH]; intros l FO FI ND; [exists l; cbn; rewrite app_nil_r; auto|].
  cbn [map] in FI. inversion FI as [|? ? F1 F2]; subst. cbn [set_attrs]. pose proof (ns_attr_ok doc a F1) as A. destruct (see_attr a) as [[u q] v] eqn:SA.
  destruct A as (given & NA & GU & NC).
  assert (Q : match a_qname a with [] => a_local a | q0 => q0 end = q /\ a_value a = v) by (unfold see_attr in SA; injection SA as _ -> ->; auto).
  destruct Q as (Q1 & Q2). rewrite Q1, Q2. unfold set_attr. rewrite check_name_ok. destruct F1 as (NO & F1). rewrite NO, NA.
  set (x0 := AttrMap.Attr doc q (local_part q) given [] None None false false).
  set (x := AttrMap.set_owner_el (Some e) (AttrMap.set_texts [v] x0)).
  assert (WX : walk_attr x = (u, q, v)). { unfold walk_attr, x, x0, AttrMap.uri_of, AttrMap.node_value. cbn. rewrite app_nil_r. unfold from_opt in GU. rewrite GU. reflexivity. }
  rewrite put_attr_new.
  - destruct (IH (l ++ [x])) as (l' & E & M).
    + apply Forall_app. split; [exact FO|]. constructor; [|constructor]. constructor; [reflexivity|]. cbn. intros G. split; [apply local_none; exact (NC G)|]. intros ->. discriminate.
    + exact F2.
    + rewrite (map_app walk_attr). cbn [map]. rewrite WX, <- app_assoc. cbn [map app] in *. rewrite SA in ND. exact ND.
    + exists l'. split; [exact E|]. rewrite M, map_app. cbn [map]. rewrite WX, SA, <- app_assoc. reflexivity.
  - intros y Y. destruct (AttrMap.ns_name_is (AttrMap.uri_of x0) (AttrMap.a_local x0) y) eqn:P; [|reflexivity]. exfalso.
    rewrite map_app in ND. cbn [map] in ND. rewrite SA in ND. apply NoDup_remove in ND. destruct ND as (_ & ND). apply ND. apply in_or_app. left.
    apply in_map_iff. exists (walk_attr y). split; [|apply in_map; exact Y]. rewrite Forall_forall in FO. destruct (FO y Y) as [FL FP]. unfold walk_attr, key.
    unfold AttrMap.ns_name_is in P. assert (UX : AttrMap.uri_of x0 = u) by exact GU. rewrite UX in P. change (AttrMap.a_local x0) with (local_part q) in P.
    apply Bool.orb_true_iff in P. destruct P as [P|P].
    + apply andb_prop in P. destruct P as (P & P2). apply andb_prop in P. destruct P as (P & P1). destruct u; [|discriminate]. destruct (AttrMap.a_uri y) eqn:AY; [discriminate|].
      unfold AttrMap.uri_of. rewrite AY. f_equal. apply Bool.orb_true_iff in P2. rewrite <- FL. destruct P2 as [P2|P2]; [apply str_eqb_true; exact P2|].
      apply andb_prop in P2. destruct P2 as (P2 & _). destruct (FP eq_refl) as (E1 & E2). rewrite FL, E1 in P2. destruct (AttrMap.a_name y); [congruence|discriminate].
    + apply andb_prop in P. destruct P as (P1 & P2). apply str_eqb_true in P1. apply str_eqb_true in P2. rewrite P1, <- FL, P2. reflexivity.
Qed.

(** * The events of a tree *)
Lemma see_none : forall fuel b e, see e = [] -> handle fuel b e = BOk b tt.
Proof. intros fuel b e E. destruct e; try discriminate E; reflexivity. Qed.
Lemma see_one : forall e, see e = [] \/ exists v, see e = [v].
Proof. intros e. destruct e; cbn; eauto. Qed.
Lemma next_event : forall fuel v r evs b, flat_map see evs = v :: r ->
  exists e evs', handle_all fuel b evs = handle_all fuel b (e :: evs') /\ see e = [v] /\ flat_map see evs' = r.
Proof.
  intros fuel v r. induction evs as [|e evs IH]; intros b E; [discriminate|]. cbn [flat_map] in E. destruct (see_one e) as [N|(w & N)]; rewrite N in E.
  - destruct (IH b E) as (e' & evs' & A & B & C). exists e', evs'. split; [|auto]. rewrite <- A. cbn [handle_all]. rewrite (see_none _ _ _ N). reflexivity.
  - injection E as -> E. exists e, evs. auto.
Qed.
Lemma see_start : forall e u q a, see e = [VStart u q a] -> exists l raw, e = StartElement u l q raw /\ map see_attr raw = a.
Proof. intros e u q a E. destruct e; try discriminate E. cbn in E. injection E as -> -> <-. eauto. Qed.
Lemma see_end : forall e u q, see e = [VEnd u q] -> exists l, e = EndElement u l q.
Proof. intros e u q E. destruct e; try discriminate E. cbn in E. injection E as -> ->. eauto. Qed.
Lemma see_chars : forall e s, see e = [VChars s] -> e = Characters s.
Proof. intros e s E. destruct e; try discriminate E. cbn in E. injection E as ->. reflexivity. Qed.
Lemma see_comment : forall e s, see e = [VComment s] -> e = Comment s.
Proof. intros e s E. destruct e; try discriminate E. cbn in E. injection E as ->. reflexivity. Qed.
Lemma see_pi : forall e t d, see e = [VPI t d] -> e = PI t d.
Proof. intros e s d E. destruct e; try discriminate E. cbn in E. injection E as -> ->. reflexivity. Qed.
Lemma see_skip : forall e s, see e = [VSkipped s] -> e = SkippedEntity s.
Proof. intros e s E. destruct e; try discriminate E. cbn in E. injection E as ->. reflexivity. Qed.
Lemma see_cd1 : forall e, see e = [VStartCData] -> e = StartCDATA.
Proof. intros e E. destruct e; try discriminate E. reflexivity. Qed.
Lemma see_cd2 : forall e, see e = [VEndCData] -> e = EndCDATA.
Proof. intros e E. destruct e; try discriminate E. reflexivity. Qed.
Lemma see_dtd1 : forall e n, see e = [VDoctype n] -> exists p s, e = StartDTD n p s.
Proof. intros e n E. destruct e; try discriminate E. cbn in E. injection E as ->. eauto. Qed.
Lemma see_dtd2 : forall e, see e = [VEndDoctype] -> e = EndDTD.
Proof. intros e E. destruct e; try discriminate E. reflexivity. Qed.
Lemma see_last : forall e, see e = [VEndDocument] -> e = EndDocument.
Proof. intros e E. destruct e; try discriminate E. reflexivity. Qed.

Lemma f2_impl : forall {A B} (P Q : A -> B -> Prop) l l', (forall a b, P a b -> Q a b) -> Forall2 P l l' -> Forall2 Q l l'.
Proof. intros A B P Q l l' I F. induction F; constructor; auto. Qed.
Definition kind_of (t : xt) : nkind :=
  match t with XElem _ _ _ _ => KElement | XText _ => KText | XCData _ => KCData | XComment _ => KComment | XPI _ _ => KPI | XSkip _ => KEntityRef end.
Fixpoint depth (t : xt) : nat :=
  match t with
  | XElem _ _ _ kids => S ((fix go (l : list xt) := match l with [] => O | k :: r => Nat.max (depth k) (go r) end) kids)
  | _ => O
  end.
Fixpoint depths (l : list xt) : nat := match l with [] => O | k :: r => Nat.max (depth k) (depths r) end.
Lemma depth_elem : forall u q a l, depth (XElem u q a l) = S (depths l).
Proof. reflexivity. Qed.
Lemma fits_elem : forall u q a l, fits (XElem u q a l) <-> element_fits u q /\ Forall attribute_fits a /\ NoDup (map key a) /\ Forall fits l.
Proof.
  intros. cbn [fits]. match goal with |- _ /\ _ /\ _ /\ ?g <-> _ => assert (E : g <-> Forall fits l) end.
  { induction l as [|k r IH]; [split; auto|]. split; [intros [A B]; constructor; [exact A|apply IH; exact B]|intros H; inversion H; split; [auto|apply IH; auto]]. }
  rewrite E. tauto.
Qed.
Lemma events_elem : forall u q a l, tree_events (XElem u q a l) = VStart u q a :: flat_map tree_events l ++ [VEnd u q].
Proof. reflexivity. Qed.
Definition quiet (b : builder) : Prop := b_cdata b = false /\ b_dtd b = false /\ b_ents b = [].
Lemma quiet_rest : forall b b', rest b' = rest b -> quiet b -> quiet b'.
Proof. unfold rest, quiet. intros b b' E (A & B & C). injection E as _ _ _ _ E1 E2 _ _ E3. rewrite E1, E2, E3. auto. Qed.
Definition builds (t : xt) : Prop := forall fuel b c d k0 evs r, fits t -> open b c d k0 -> quiet b -> (k0 + depth t + 1 < fuel)%nat ->
  child_kind_ok (n_kind (b_heap b c)) (kind_of t) = true ->
  (n_kind (b_heap b c) = KDocument -> kind_of t = KElement -> n_docel (b_heap b c) = None) ->
  flat_map see evs = tree_events t ++ r ->
  exists b' evs', handle_all fuel b evs = handle_all fuel b' evs' /\ flat_map see evs' = r /\ later b b' c [b_next b] /\
    shows (b_next b) (b_next b') (b_heap b') (b_atts b') (b_next b) t /\ (b_next b < b_next b')%nat.
Lemma build_list : forall l, Forall builds l -> forall fuel b c d k0 evs r, Forall fits l -> open b c d k0 -> quiet b -> (k0 + depths l + 1 < fuel)%nat ->
  Forall (fun t => child_kind_ok (n_kind (b_heap b c)) (kind_of t) = true /\ (n_kind (b_heap b c) = KDocument -> kind_of t <> KElement)) l ->
  flat_map see evs = flat_map tree_events l ++ r ->
  exists b' evs' ids, handle_all fuel b evs = handle_all fuel b' evs' /\ flat_map see evs' = r /\ later b b' c ids /\
    Forall2 (shows (b_next b) (b_next b') (b_heap b') (b_atts b')) ids l /\ Forall (fun i => (b_next b <= i < b_next b')%nat) ids /\ (b_next b <= b_next b')%nat.
Proof.
  induction l as [|t l IH]; intros BS fuel b c d k0 evs r F O Q D K E.
  - exists b, evs, []. repeat split; auto. apply later_refl.
  - inversion BS as [|? ? B1 B2]; subst. inversion F as [|? ? F1 F2]; subst. inversion K as [|? ? K1 K2]; subst. cbn [flat_map] in E. rewrite <- app_assoc in E. cbn [depths] in D.
    destruct (B1 fuel b c d k0 evs _ F1 O Q ltac:(lia) (proj1 K1) ltac:(intros X Y; exfalso; exact (proj2 K1 X Y)) E) as (b1 & evs1 & H1 & E1 & L1 & S1 & N1).
    assert (KC : n_kind (b_heap b1 c) = n_kind (b_heap b c)) by (apply look_kind, (lt_look _ _ _ _ L1), (op_lt _ _ _ _ O)).
    destruct (IH B2 fuel b1 c d k0 evs1 r F2 (open_later _ _ _ _ _ _ O L1) (quiet_rest _ _ (lt_rest _ _ _ _ L1) Q) ltac:(lia) ltac:(rewrite KC; exact K2) E1) as (b2 & evs2 & ids & H2 & E2 & L2 & S2 & R2 & N2).
    exists b2, evs2, (b_next b :: ids). split; [congruence|]. split; [exact E2|]. split; [|split; [|split]].
    + apply (later_trans b b1 b2 c [b_next b] ids (op_lt _ _ _ _ O) L1 L2). intros x [<-|[]]. exact N1.
    + constructor.
      * eapply shows_frame; [| |intros j J|exact S1]; [lia|lia|]. split; [apply (lt_look _ _ _ _ L2); lia|]. split; [|apply (lt_atts _ _ _ _ L2); lia].
        rewrite (lt_kids _ _ _ _ L2) by lia. assert (J2 : j <> c) by (pose proof (op_lt _ _ _ _ O); lia). apply Nat.eqb_neq in J2. rewrite J2. reflexivity.
      * eapply f2_impl; [|exact S2]. intros i t' S'. eapply shows_frame; [| |intros j J|exact S']; [lia|lia|auto].
    + constructor; [lia|]. eapply Forall_impl; [|exact R2]. cbv beta. intros. lia.
    + lia.
Qed.
Lemma leaf_add : forall fuel b c d k0 k nm, open b c d k0 -> (S k0 < fuel)%nat -> child_kind_ok (n_kind (b_heap b c)) k = true -> k <> KElement -> k <> KDocType -> k <> KDocument ->
  exists b2, add fuel b c k nm = BOk b2 tt /\ later b b2 c [b_next b] /\ b_next b2 = S (b_next b) /\ look (b_heap b2 (b_next b)) = look (new_node (b_next b) k d nm).
Proof.
  intros fuel b c d k0 k nm O F CK N1 N2 N3. unfold add, with_doc. rewrite (op_doc _ _ _ _ O). destruct (alloc_born b k d nm N3) as (B & L & _).
  destruct (alloc b k d nm) as [b1 i] eqn:A. assert (i = b_next b) as -> by (unfold alloc in A; injection A as _ <-; reflexivity). cbn [fst] in *.
  destruct (attach_ok fuel b b1 c d k0 k (b_next b) O B F CK) as (b2 & E & LT & NX & LK & _); try (intros; contradiction).
  exists b2. split; [exact E|]. split; [exact LT|]. split; [exact NX|]. rewrite LK. exact L.
Qed.
Lemma handle_cons : forall fuel b e evs b', handle fuel b e = BOk b' tt -> handle_all fuel b (e :: evs) = handle_all fuel b' evs.
Proof. intros fuel b e evs b' H. cbn [handle_all]. rewrite H. reflexivity. Qed.
Lemma later_swap : forall x y b b' c l, later x y c l -> b_next b = b_next x -> b_heap b = b_heap x -> b_atts b = b_atts x ->
  b_next b' = b_next y -> b_heap b' = b_heap y -> b_atts b' = b_atts y -> rest b' = rest b -> later b b' c l.
Proof. intros x y b b' c l L E1 E2 E3 E4 E5 E6 R. destruct L. constructor; rewrite ?E1, ?E2, ?E3, ?E4, ?E5, ?E6; auto. Qed.
Lemma build_leaf : forall t, (forall u q a l, t <> XElem u q a l) -> builds t.
Proof.
  intros t NE fuel b c d k0 evs r F O Q D K _ E.
  assert (CU := op_cur _ _ _ _ O). assert (DO := op_doc _ _ _ _ O). destruct Q as (Q1 & Q2 & Q3).
  destruct t as [u q a l|s|s|s|t dt|m]; [exfalso; eapply NE; reflexivity| | | | |]; cbn [tree_events app depth kind_of] in *.
  - destruct (next_event fuel _ _ _ b E) as (e & evs' & H & S & E'). apply see_chars in S. subst e.
    destruct (leaf_add fuel b c d k0 KText (Naming [] s None []) O) as (b2 & A & L & N & LK); try lia; try discriminate; [exact K|].
    exists b2, evs'. split; [|split; [exact E'|split; [exact L|split; [|lia]]]].
    + rewrite H. apply handle_cons. cbn [handle]. unfold when_cur. rewrite CU, Q1. exact A.
    + unfold look in LK. cbn in LK. injection LK as LK _ LD _ _ _. cbn [shows]. repeat split; auto; lia.
  - destruct (next_event fuel _ _ _ b E) as (e & evs' & H & S & E'). apply see_cd1 in S. subst e.
    destruct (next_event fuel _ _ _ (put_cdata true b) E') as (e & evs2 & H2 & S & E2). apply see_chars in S. subst e.
    assert (O' : open (put_cdata true b) c d k0) by (destruct O; constructor; assumption).
    destruct (leaf_add fuel (put_cdata true b) c d k0 KCData (Naming [] s None []) O') as (b2 & A & L & N & LK); try lia; try discriminate; [exact K|].
    destruct (next_event fuel _ _ _ b2 E2) as (e & evs3 & H3 & S & E3). apply see_cd2 in S. subst e.
    assert (R3 : rest (put_cdata false b2) = rest b). { pose proof (lt_rest _ _ _ _ L) as R. unfold rest in *. injection R as R1 R2 R3 R4 R5 R6 R7 R8 R9. cbn in *. rewrite R1, R2, R3, R4, R6, R7, R8, R9, Q1. reflexivity. }
    exists (put_cdata false b2), evs3. split; [|split; [exact E3|split; [|split]]].
    + rewrite H. cbn [handle_all handle bbind]. rewrite H2. rewrite (handle_cons fuel (put_cdata true b) (Characters s) evs2 b2); [|cbn [handle]; unfold when_cur; cbn [put_cdata b_cur b_cdata]; rewrite CU; exact A].
      rewrite H3. reflexivity.
    + apply (later_swap (put_cdata true b) b2); auto.
    + change (b_next (put_cdata true b)) with (b_next b) in *. unfold look in LK. cbn in LK. injection LK as LK _ LD _ _ _. cbn [shows put_cdata b_heap b_next]. repeat split; auto; lia.
    + change (b_next (put_cdata true b)) with (b_next b) in *. cbn [put_cdata b_next]. lia.
  - destruct (next_event fuel _ _ _ b E) as (e & evs' & H & S & E'). apply see_comment in S. subst e.
    destruct (leaf_add fuel b c d k0 KComment (Naming [] s None []) O) as (b2 & A & L & N & LK); try lia; try discriminate; [exact K|].
    exists b2, evs'. split; [|split; [exact E'|split; [exact L|split; [|lia]]]].
    + rewrite H. apply handle_cons. cbn [handle]. unfold when_cur. rewrite CU. exact A.
    + unfold look in LK. cbn in LK. injection LK as LK _ LD _ _ _. cbn [shows]. repeat split; auto; lia.
  - destruct (next_event fuel _ _ _ b E) as (e & evs' & H & S & E'). apply see_pi in S. subst e.
    destruct (leaf_add fuel b c d k0 KPI (Naming t dt None []) O) as (b2 & A & L & N & LK); try lia; try discriminate; [exact K|].
    exists b2, evs'. split; [|split; [exact E'|split; [exact L|split; [|lia]]]].
    + rewrite H. apply handle_cons. cbn [handle]. unfold when_cur. rewrite CU. destruct F as (F1 & F2). rewrite check_name_ok, F1, F2. exact A.
    + unfold look in LK. cbn in LK. injection LK as LK _ LD LN _ _. cbn [shows]. repeat split; auto; lia.
  - destruct (next_event fuel _ _ _ b E) as (e & evs' & H & S & E'). apply see_skip in S. subst e.
    destruct (alloc_born b KEntityRef d (plain m) ltac:(discriminate)) as (B & LK & _).
    destruct (alloc b KEntityRef d (plain m)) as [b1 i] eqn:A. assert (i = b_next b) as -> by (unfold alloc in A; injection A as _ <-; reflexivity). cbn [fst] in *.
    set (b2 := put_heap (set_read_only (b_heap b1) (b_next b)) b1).
    assert (B2 : born b b2 (b_next b) KEntityRef d).
    { destruct B as [X1 X2 X3 X4 X5 (X6 & X7 & X8) X9]. constructor; auto.
      - intros j J. unfold b2, set_read_only, upd. cbn [put_heap b_heap]. apply Nat.eqb_neq in J. rewrite J. apply X4. apply Nat.eqb_neq. exact J.
      - unfold newborn, b2, set_read_only. cbn [put_heap b_heap]. rewrite (upd_proj n_kind), (upd_proj n_parent), (upd_proj n_owner) by reflexivity. auto.
      - unfold b2, set_read_only. cbn [put_heap b_heap]. rewrite (upd_proj n_kids) by reflexivity. exact X9. }
    destruct (attach_ok fuel b b2 c d k0 KEntityRef (b_next b) O B2) as (b3 & AP & LT & NX & LK3 & _); try lia; try (intros; discriminate); [exact K|].
    exists b3, evs'. split; [|split; [exact E'|split; [exact LT|split; [|lia]]]].
    + rewrite H. apply handle_cons. cbn [handle]. unfold when_cur, with_doc. rewrite CU, Q2, DO. unfold create_reference. rewrite check_name_ok, F.
      destruct fuel as [|f]; [lia|]. cbn [new_reference]. rewrite A, Q3. cbn [lookup find bbind]. cbn [freeze]. rewrite (bo_kids _ _ _ _ _ B). cbn [bbind]. exact AP.
    + unfold look in *. cbn in LK. unfold b2, set_read_only in LK3. cbn [put_heap b_heap] in LK3. rewrite (upd_proj n_kind), (upd_proj n_name) in LK3 by reflexivity.
      injection LK as LK _ _ LN _ _. injection LK3 as LK3 _ _ LN3 _ _. cbn [shows]. repeat split; try lia; congruence.
Qed.
Lemma build_elem : forall u q a l, Forall builds l -> builds (XElem u q a l).
Proof.
  intros u q a l BS fuel b c d k0 evs r F O Q D K DE E. apply fits_elem in F. destruct F as (FE & FA & ND & FL). rewrite depth_elem in D. rewrite events_elem in E. cbn [app kind_of] in *. rewrite <- app_assoc in E. cbn [app] in E.
  assert (CU := op_cur _ _ _ _ O). assert (DO := op_doc _ _ _ _ O).
  destruct (next_event fuel _ _ _ b E) as (e & evs1 & H & S & E1). apply see_start in S. destruct S as (loc & raw & -> & RA).
  destruct (element_naming_ok u q FE) as (ln & given & EN & GU).
  set (i := b_next b).
  destruct (alloc_born b KElement d (Naming q [] given ln) ltac:(discriminate)) as (B & LK & _).
  destruct (alloc b KElement d (Naming q [] given ln)) as [b1 i'] eqn:A. assert (i' = i) as -> by (unfold alloc in A; injection A as _ <-; reflexivity). cbn [fst] in *. fold i in B, LK.
  destruct (attach_ok fuel b b1 c d k0 KElement i O B) as (b2 & AP & LT & NX & LK2 & KD2 & PA2 & OW2 & AT2); try lia; [exact K|exact DE|intros; discriminate|].
  destruct (set_attrs_ok d i raw [] ltac:(constructor) ltac:(rewrite RA; exact FA) ltac:(cbn [map app]; rewrite RA; exact ND)) as (l2 & SA & MA). cbn [map app] in MA. rewrite RA in MA.
  set (b3 := put_cur (Some i) (put_atts (fun j => if Nat.eqb j i then l2 else b_atts b2 j) b2)).
  assert (H3 : handle fuel b (StartElement u loc q raw) = BOk b3 tt).
  { cbn [handle]. unfold start_element, with_doc. rewrite CU, DO, EN, A, AP, SA. reflexivity. }
  assert (KE : n_kind (b_heap b2 i) = KElement). { rewrite (look_kind _ _ LK2), (look_kind _ _ LK). reflexivity. }
  assert (RO : n_ro (b_heap b2 i) = false). { rewrite (look_ro _ _ LK2), (look_ro _ _ LK). reflexivity. }
  assert (O3 : open b3 i d (S k0)).
  { constructor; unfold b3; cbn [put_cur put_atts b_cur b_doc b_next b_heap].
    - reflexivity.
    - pose proof (lt_rest _ _ _ _ LT) as R. unfold rest in R. injection R as R1 _ _ _ _ _ _ _ _. rewrite R1. exact DO.
    - lia.
    - apply OW2. discriminate.
    - exact RO.
    - left. exact KE.
    - rewrite NX. apply lift_up with (p := c); [lia|unfold get_parent; rewrite KE; exact PA2|].
      eapply lifts_frame; [apply (op_lifts _ _ _ _ O)|unfold i; lia|]. intros j J. split; [apply look_kind; apply (lt_look _ _ _ _ LT j J)|apply (lt_parent _ _ _ _ LT j J)]. }
  assert (Q3 : quiet b3). { apply (quiet_rest b b2) in Q; [exact Q|apply (lt_rest _ _ _ _ LT)]. }
  assert (CK3 : forall t, child_kind_ok (n_kind (b_heap b3 i)) (kind_of t) = true /\ (n_kind (b_heap b3 i) = KDocument -> kind_of t <> KElement)).
  { intros t. change (b_heap b3) with (b_heap b2). rewrite KE. split; [destruct t; reflexivity|discriminate]. }
  destruct (build_list l BS fuel b3 i d (S k0) evs1 (VEnd u q :: r) FL O3 Q3 ltac:(lia) ltac:(apply Forall_forall; intros; apply CK3) E1) as (b4 & evs4 & ids & H4 & E4 & L4 & S4 & R4 & N4).
  change (b_next b3) with (b_next b2) in *.
  destruct (next_event fuel _ _ _ b4 E4) as (e & evs5 & H5 & S & E5). apply see_end in S. destruct S as (loc2 & ->).
  assert (CU4 : b_cur b4 = Some i). { pose proof (lt_rest _ _ _ _ L4) as R. unfold rest in R. injection R as _ _ R _ _ _ _ _ _. rewrite R. reflexivity. }
  assert (I3 : (i < b_next b3)%nat) by (change (b_next b3) with (b_next b2); lia).
  assert (GP : get_parent (b_heap b4) i = Some c).
  { unfold get_parent. rewrite (look_kind _ _ (lt_look _ _ _ _ L4 i I3)). change (b_heap b3) with (b_heap b2) in *. rewrite KE. rewrite (lt_parent _ _ _ _ L4 i I3). exact PA2. }
  set (b5 := put_cur (Some c) b4).
  assert (CI : c <> i) by (pose proof (op_lt _ _ _ _ O); unfold i; lia).
  assert (R5 : rest b5 = rest b).
  { pose proof (lt_rest _ _ _ _ L4) as R. pose proof (lt_rest _ _ _ _ LT) as R2. unfold rest in *. injection R as R0 R1 R3 R4' R5 R6 R7 R8 R9. injection R2 as R20 R21 R23 R24 R25 R26 R27 R28 R29.
    unfold b5. cbn [put_cur b_doc b_type b_cur b_cached b_cdata b_dtd b_depth b_known b_ents]. unfold b3 in *. cbn [put_cur put_atts b_doc b_type b_cur b_cached b_cdata b_dtd b_depth b_known b_ents] in *. congruence. }
  assert (OLD : forall j, (j < b_next b)%nat -> (j < b_next b3)%nat /\ j <> i) by (intros j J; split; [change (b_next b3) with (b_next b2); rewrite NX; unfold i; lia|unfold i; lia]).
  assert (L5 : later b b5 c [i]).
  { constructor; [| |intros j J; destruct (OLD j J) as (J3 & JI)..| | |intros j J JC; destruct (OLD j J) as (J3 & JI)]; change (b_heap b5) with (b_heap b4); change (b_atts b5) with (b_atts b4); change (b_next b5) with (b_next b4).
    - unfold i in *. lia.
    - exact R5.
    - rewrite (lt_look _ _ _ _ L4 j J3). apply (lt_look _ _ _ _ LT j J).
    - rewrite (lt_owner _ _ _ _ L4 j J3). apply (lt_owner _ _ _ _ LT j J).
    - rewrite (lt_parent _ _ _ _ L4 j J3). apply (lt_parent _ _ _ _ LT j J).
    - rewrite (lt_atts _ _ _ _ L4 j J3). unfold b3. cbn [put_cur put_atts b_atts]. apply Nat.eqb_neq in JI. rewrite JI. apply (lt_atts _ _ _ _ LT j J).
    - rewrite (lt_kids _ _ _ _ L4 j J3). apply Nat.eqb_neq in JI. rewrite JI. apply (lt_kids _ _ _ _ LT j J).
    - right. exists i. split; [left; reflexivity|]. rewrite (look_kind _ _ (lt_look _ _ _ _ L4 i I3)). exact KE.
    - left. destruct (OLD c (op_lt _ _ _ _ O)) as (C3 & _). destruct (lt_other _ _ _ _ L4 c C3 CI) as (_ & E6). rewrite E6. change (b_heap b3) with (b_heap b2).
      destruct (lt_types _ _ _ _ LT) as [E7|(x & [<-|[]] & KX)]; [exact E7|]. rewrite KE in KX. discriminate.
    - destruct (lt_other _ _ _ _ L4 j J3 JI) as (E6 & E7). destruct (lt_other _ _ _ _ LT j J JC) as (E8 & E9). rewrite E6, E7. split; assumption. }
  exists b5, evs5. split; [|split; [exact E5|split; [exact L5|split]]].
  - rewrite H, (handle_cons _ _ _ _ _ H3), H4, H5. apply handle_cons. cbn [handle]. unfold when_cur. rewrite CU4, GP. reflexivity.
  - apply shows_elem. change (b_heap b5) with (b_heap b4). change (b_atts b5) with (b_atts b4). change (b_next b5) with (b_next b4). fold i.
    assert (LI : look (b_heap b4 i) = look (new_node i KElement d (Naming q [] given ln))). { rewrite (lt_look _ _ _ _ L4 i I3). change (b_heap b3) with (b_heap b2). rewrite LK2. exact LK. }
    unfold look in LI. cbn in LI. injection LI as L1 _ _ L2 L3 _.
    split; [lia|]. split; [exact L1|]. split; [unfold SaxTree.uri_of; rewrite L3; exact GU|]. split; [exact L2|]. split.
    + rewrite (lt_atts _ _ _ _ L4 i I3). unfold b3. cbn [put_cur put_atts b_atts]. rewrite Nat.eqb_refl. exact MA.
    + rewrite (lt_kids _ _ _ _ L4 i I3), Nat.eqb_refl. change (b_heap b3) with (b_heap b2). rewrite KD2. cbn [app]. eapply f2_impl; [|exact S4]. intros x t SH. eapply shows_frame; [| |intros j J|exact SH]; [unfold i in *; lia|lia|auto].
  - change (b_next b5) with (b_next b4). unfold i in *. lia.
Qed.
Lemma build_tree : forall t, builds t.
Proof. induction t using xt_ind2; try (apply build_leaf; intros; discriminate). apply build_elem. assumption. Qed.

(** * Walking *)
Lemma walk_shows : forall lo hi h at_ t n fuel, shows lo hi h at_ n t -> (depth t < fuel)%nat -> walk fuel h at_ n = Some (tree_events t).
Proof.
  intros lo hi h at_. induction t as [u q atts kids IH|s|s|s|t d|m] using xt_ind2; intros n fuel S D; (destruct fuel as [|f]; [lia|]).
  1: { apply shows_elem in S. destruct S as (R & K & U & Q & A & S). rewrite depth_elem in D. rewrite events_elem. cbn [walk]. rewrite K, U, Q, A.
       assert (W : (fix go (l : list nat) := match l with [] => Some [] | k :: r => opt_app (walk f h at_ k) (go r) end) (n_kids (h n)) = Some (flat_map tree_events kids)).
       { revert D IH S. generalize (n_kids (h n)). induction kids as [|k kids IHk]; intros ids D IH S; [inversion S; subst; reflexivity|]. inversion S as [|i k' is ks S1 S2]; subst. inversion IH as [|? ? I1 I2]; subst. cbn [depths] in D.
         rewrite (I1 _ f S1) by lia. rewrite (IHk _ ltac:(lia) I2 S2). reflexivity. }
       rewrite W. reflexivity. }
  all: cbn [shows] in S; cbn [walk]; destruct S as (_ & S); repeat match goal with H : _ /\ _ |- _ => destruct H end; subst; rewrite H; reflexivity.
Qed.

(** * Documents *)
Definition item : Type := xt + str.
Definition item_events (x : item) : list dev := match x with inl t => tree_events t | inr n => [VDoctype n; VEndDoctype] end.
Definition item_depth (x : item) : nat := match x with inl t => depth t | inr _ => O end.
Definition item_shows (lo hi : nat) (h : heap) (a : nat -> list AttrMap.attr) (n : nat) (x : item) : Prop :=
  match x with
  | inl t => shows lo hi h a n t
  | inr m => (lo <= n < hi)%nat /\ n_kind (h n) = KDocType /\ n_name (h n) = m
  end.
Definition is_root (x : item) : bool := match x with inl (XElem _ _ _ _) => true | _ => false end.
Definition is_type (x : item) : bool := match x with inr _ => true | _ => false end.
Record stage (d : nat) (b : builder) (items : list item) : Prop := {
  st_open : open b d d 0; st_quiet : quiet b; st_kind : n_kind (b_heap b d) = KDocument;
  st_items : Forall2 (item_shows (S d) (b_next b) (b_heap b) (b_atts b)) (n_kids (b_heap b d)) items;
  st_docel : existsb is_root items = false -> n_docel (b_heap b d) = None;
  st_type : existsb is_type items = false -> n_doctype (b_heap b d) = None }.
Lemma item_frame : forall lo hi lo' hi' h h' a a' x n, (lo' <= lo)%nat -> (hi <= hi')%nat ->
  (forall j, (lo <= j < hi)%nat -> look (h' j) = look (h j) /\ n_kids (h' j) = n_kids (h j) /\ a' j = a j) ->
  item_shows lo hi h a n x -> item_shows lo' hi' h' a' n x.
Proof.
  intros lo hi lo' hi' h h' a a' [t|m] n L H F S; [eapply shows_frame; eauto|]. destruct S as (R & K & N). destruct (F n R) as (E & _). unfold look in E. injection E as E _ _ EN _ _.
  cbn. rewrite E, EN. repeat split; auto; lia.
Qed.
Lemma item_kind : forall lo hi h a n x, item_shows lo hi h a n x -> (n_kind (h n) = KElement -> is_root x = true) /\ (n_kind (h n) = KDocType -> is_type x = true).
Proof.
  intros lo hi h a n [t|m] S.
  - destruct t; cbn [item_shows] in S; [apply shows_elem in S; destruct S as (_ & -> & _)|cbn [shows] in S; destruct S as (_ & -> & _)..]; split; try discriminate; reflexivity.
  - destruct S as (_ & -> & _). split; [discriminate|reflexivity].
Qed.
Lemma f2_in : forall {A B} (P : A -> B -> Prop) l l' x, Forall2 P l l' -> In x l -> exists y, In y l' /\ P x y.
Proof. intros A B P l l' x F. induction F as [|a b l l' H F IH]; intros []; [subst; exists b; split; [left; reflexivity|exact H]|]. destruct (IH H0) as (y & Y & Z). exists y. split; [right; exact Y|exact Z]. Qed.
Lemma stage_later : forall d b b' items ids xs, stage d b items -> later b b' d ids ->
  Forall2 (item_shows (b_next b) (b_next b') (b_heap b') (b_atts b')) ids xs -> stage d b' (items ++ xs).
Proof.
  intros d b b' items ids xs [O Q K I DE DT] L S. assert (DL := op_lt _ _ _ _ O).
  constructor.
  - eapply open_later; eauto.
  - eapply quiet_rest; [apply (lt_rest _ _ _ _ L)|exact Q].
  - rewrite (look_kind _ _ (lt_look _ _ _ _ L d DL)). exact K.
  - rewrite (lt_kids _ _ _ _ L d DL), Nat.eqb_refl. apply Forall2_app.
    + eapply f2_impl; [|exact I]. intros n x X. eapply item_frame; [| |intros j J|exact X]; [lia|apply (lt_next _ _ _ _ L)|].
      split; [apply (lt_look _ _ _ _ L); lia|]. split; [|apply (lt_atts _ _ _ _ L); lia]. rewrite (lt_kids _ _ _ _ L) by lia. destruct (Nat.eqb_spec j d) as [E|E]; [lia|reflexivity].
    + eapply f2_impl; [|exact S]. intros n x X. eapply item_frame; [| |intros j J|exact X]; [lia|lia|auto].
  - rewrite existsb_app. intros E. apply Bool.orb_false_iff in E. destruct E as (E1 & E2). destruct (lt_docs _ _ _ _ L) as [E|(x & X & KX)]; [rewrite E; auto|].
    exfalso. destruct (f2_in _ _ _ _ S X) as (y & Y & Z). apply item_kind in Z. assert (existsb is_root xs = true) by (apply existsb_exists; exists y; split; [exact Y|apply Z; exact KX]). congruence.
  - rewrite existsb_app. intros E. apply Bool.orb_false_iff in E. destruct E as (E1 & E2). destruct (lt_types _ _ _ _ L) as [E|(x & X & KX)]; [rewrite E; auto|].
    exfalso. destruct (f2_in _ _ _ _ S X) as (y & Y & Z). apply item_kind in Z. assert (existsb is_type xs = true) by (apply existsb_exists; exists y; split; [exact Y|apply Z; exact KX]). congruence.
Qed.
Lemma begin_stage : forall b, stage (b_next b) (begin_parse b) [] /\ b_doc (begin_parse b) = Some (b_next b).
Proof.
  intros b. unfold begin_parse, alloc. split; [|reflexivity].
  assert (H : b_heap (begin_parse b) (b_next b) = new_node (b_next b) KDocument 0 (plain [])). { unfold begin_parse, alloc. cbn. unfold upd. rewrite Nat.eqb_refl. reflexivity. }
  unfold begin_parse, alloc in H. cbn [put_ents put_depth put_dtd put_cdata put_cur put_doc put_next put_atts put_heap b_heap] in H.
  constructor; [constructor| | | | |]; cbn [put_ents put_depth put_dtd put_cdata put_cur put_doc put_next put_atts put_heap b_heap b_cur b_doc b_next]; rewrite ?H; try reflexivity.
  - lia.
  - right. reflexivity.
  - constructor; [lia|]. unfold get_parent. rewrite H. reflexivity.
  - repeat split.
  - constructor.
Qed.
Lemma build_misc : forall l fuel d b items evs r, stage d b items -> Forall (fun t => misc t /\ fits t) l -> (1 < fuel)%nat -> flat_map see evs = flat_map tree_events l ++ r ->
  exists b' evs', handle_all fuel b evs = handle_all fuel b' evs' /\ flat_map see evs' = r /\ stage d b' (items ++ map inl l).
Proof.
  intros l fuel d b items evs r ST F D E. assert (F2 : depths l = O). { induction F as [|t l (M & _) F IH]; [reflexivity|]. cbn [depths flat_map] in *. destruct t; try contradiction M; cbn [depth]; clear - F; induction F as [|t l (M & _) F IH]; try reflexivity; cbn [depths]; destruct t; try contradiction M; exact IH. }
  destruct (build_list l (proj2 (Forall_forall _ _) (fun t _ => build_tree t)) fuel b d d 0 evs r) as (b' & evs' & ids & H & E' & L & S & R & N).
  - eapply Forall_impl; [|exact F]. intros t (_ & X). exact X.
  - apply (st_open _ _ _ ST).
  - apply (st_quiet _ _ _ ST).
  - lia.
  - rewrite (st_kind _ _ _ ST). eapply Forall_impl; [|exact F]. intros t (M & _). destruct t; try contradiction M; split; try reflexivity; discriminate.
  - exact E.
  - exists b', evs'. split; [exact H|]. split; [exact E'|]. eapply stage_later; [exact ST|exact L|]. clear - S. induction S; constructor; auto.
Qed.
Lemma build_type : forall fuel d b items evs n r, stage d b items -> existsb is_type items = false -> (1 < fuel)%nat -> flat_map see evs = VDoctype n :: VEndDoctype :: r ->
  exists b' evs', handle_all fuel b evs = handle_all fuel b' evs' /\ flat_map see evs' = r /\ stage d b' (items ++ [inr n]).
Proof.
  intros fuel d b items evs n r ST NT D E. assert (O := st_open _ _ _ ST). assert (Q := st_quiet _ _ _ ST). assert (DO := op_doc _ _ _ _ O).
  destruct (next_event fuel _ _ _ b E) as (e & evs1 & H & S & E1). apply see_dtd1 in S. destruct S as (p & s & ->).
  set (i := b_next b). destruct (alloc_born b KDocType d (plain n) ltac:(discriminate)) as (B & LK & _).
  destruct (alloc b KDocType d (plain n)) as [b1 i'] eqn:A. assert (i' = i) as -> by (unfold alloc in A; injection A as _ <-; reflexivity). cbn [fst] in *. fold i in B, LK.
  set (bt := put_type (Some i) b). set (b1t := put_type (Some i) b1).
  assert (STt : stage d bt items). { destruct ST as [[] X2 X3 X4 X5 X6]. constructor; [constructor; assumption|assumption..]. }
  assert (Bt : born bt b1t i KDocType d). { destruct B as [X1 X2 X3 X4 X5 X6 X7]. constructor; auto. unfold rest in *. cbn. injection X3 as Y0 Y1 Y2 Y3 Y4 Y5 Y6 Y7 Y8. congruence. }
  destruct (attach_ok fuel bt b1t d d 0 KDocType i (st_open _ _ _ STt) Bt) as (b2 & AP & LT & NX & LK2 & KD2 & PA2 & OW2 & AT2).
  { lia. } { rewrite (st_kind _ _ _ STt). reflexivity. } { intros; discriminate. } { intros _ _. apply (st_type _ _ _ STt). exact NT. }
  set (b3 := put_dtd true (put_ents [] b2)).
  destruct (next_event fuel _ _ _ b3 E1) as (e & evs2 & H2 & S & E2). apply see_dtd2 in S. subst e.
  set (b4 := put_dtd false (put_heap (set_read_only (b_heap b3) i) b3)).
  pose proof (lt_rest _ _ _ _ LT) as R. unfold rest in R. injection R as R0 R1 R2 R3 R4 R5 R6 R7 R8.
  exists b4, evs2. split; [|split; [exact E2|]].
  - rewrite H. rewrite (handle_cons fuel b _ _ b3). 2: { cbn [handle]. unfold with_doc. rewrite DO, A. fold b1t. rewrite AP. reflexivity. }
    rewrite H2. apply handle_cons. cbn [handle]. change (b_type b3) with (b_type b2). rewrite R1. reflexivity.
  - eapply (stage_later d bt b4 items [i] [inr n] STt).
    + assert (RO : forall j, j <> i -> b_heap b4 j = b_heap b2 j). { intros j J. unfold b4, set_read_only, upd. cbn [put_dtd put_heap b_heap]. apply Nat.eqb_neq in J. rewrite J. reflexivity. }
      assert (OL : forall j, (j < b_next bt)%nat -> j <> i) by (intros j J; change (b_next bt) with (b_next b) in J; unfold i; lia).
      assert (DI : d <> i) by (apply OL; apply (op_lt _ _ _ _ O)).
      constructor; change (b_next b4) with (b_next b2); change (b_atts b4) with (b_atts b2).
      * apply (lt_next _ _ _ _ LT).
      * destruct Q as (Q1 & Q2 & Q3). unfold b4, b3, rest. cbn. cbn in R0, R1, R2, R3, R4, R6, R7. rewrite R0, R1, R2, R3, R4, R6, R7, Q2, Q3. reflexivity.
      * intros j J. rewrite RO by auto. apply (lt_look _ _ _ _ LT j J).
      * intros j J. rewrite RO by auto. apply (lt_owner _ _ _ _ LT j J).
      * intros j J. rewrite RO by auto. apply (lt_parent _ _ _ _ LT j J).
      * intros j J. apply (lt_atts _ _ _ _ LT j J).
      * intros j J. rewrite RO by auto. apply (lt_kids _ _ _ _ LT j J).
      * left. rewrite RO by auto. destruct (lt_docs _ _ _ _ LT) as [X|(x & [<-|[]] & KX)]; [exact X|]. rewrite (look_kind _ _ LK2) in KX. change (b_heap b1t) with (b_heap b1) in KX. rewrite (look_kind _ _ LK) in KX. discriminate.
      * right. exists i. split; [left; reflexivity|]. unfold b4, set_read_only. cbn [put_dtd put_heap b_heap]. rewrite (upd_proj n_kind) by reflexivity. change (b_heap b3) with (b_heap b2).
        rewrite (look_kind _ _ LK2). change (b_heap b1t) with (b_heap b1). rewrite (look_kind _ _ LK). reflexivity.
      * intros j J JD. rewrite RO by auto. apply (lt_other _ _ _ _ LT j J JD).
    + constructor; [|constructor]. change (b_next b4) with (b_next b2). change (b_next bt) with i. unfold b4, set_read_only. cbn [item_shows put_dtd put_heap b_heap].
      rewrite (upd_proj n_kind), (upd_proj n_name) by reflexivity. change (b_heap b3) with (b_heap b2). change (b_heap b1t) with (b_heap b1) in LK2. unfold look in *. cbn in LK. injection LK as L1 _ _ L2 _ _. injection LK2 as L3 _ _ L4 _ _.
      repeat split; [lia|lia|congruence|congruence].
Qed.
Definition doc_items (x : xdoc) : list item :=
  map inl (x_before x) ++ match x_type x with Some n => [inr n] | None => [] end ++ map inl (x_between x) ++ [inl (x_root x)] ++ map inl (x_after x).
Lemma misc_items : forall l, Forall (fun t => misc t /\ fits t) l -> existsb is_root (map inl l) = false /\ existsb is_type (map inl l) = false.
Proof. intros l F. induction F as [|t l (M & _) F (I1 & I2)]; [split; reflexivity|]. cbn [map existsb]. rewrite I1, I2. destruct t; try contradiction M; split; reflexivity. Qed.
Lemma build_doc : forall x fuel b evs, doc_fits x -> (depth (x_root x) + 1 < fuel)%nat -> flat_map see evs = doc_events x ->
  exists b', handle_all fuel (begin_parse b) evs = BOk b' tt /\ b_doc b' = Some (b_next b) /\ n_kind (b_heap b' (b_next b)) = KDocument /\
    Forall2 (item_shows (S (b_next b)) (b_next b') (b_heap b') (b_atts b')) (n_kids (b_heap b' (b_next b))) (doc_items x).
Proof.
  intros x fuel b evs (F1 & F2 & F3 & F4 & (u & q & atts & kids & RT)) D E. unfold doc_events in E. set (d := b_next b).
  destruct (begin_stage b) as (ST & _). fold d in ST.
  destruct (misc_items _ F1) as (M1 & M1'). destruct (misc_items _ F2) as (M2 & M2').
  destruct (build_misc _ fuel d _ _ _ _ ST F1 ltac:(lia) E) as (b1 & evs1 & H1 & E1 & ST1). cbn [app] in ST1.
  assert (T : exists b2 evs2, handle_all fuel b1 evs1 = handle_all fuel b2 evs2 /\ flat_map see evs2 = flat_map tree_events (x_between x) ++ tree_events (x_root x) ++ flat_map tree_events (x_after x) ++ [VEndDocument] /\
    stage d b2 (map inl (x_before x) ++ match x_type x with Some n => [inr n] | None => [] end)).
  { destruct (x_type x) as [n|]; cbn [type_events app] in E1.
    - apply (build_type fuel d b1 _ evs1 n _ ST1 M1' ltac:(lia) E1).
    - exists b1, evs1. rewrite app_nil_r. auto. }
  destruct T as (b2 & evs2 & H2 & E2 & ST2).
  destruct (build_misc _ fuel d _ _ _ _ ST2 F2 ltac:(lia) E2) as (b3 & evs3 & H3 & E3 & ST3).
  destruct (build_tree (x_root x) fuel b3 d d O evs3 (flat_map tree_events (x_after x) ++ [VEndDocument]) F4 (st_open _ _ _ ST3) (st_quiet _ _ _ ST3)) as (b4 & evs4 & H4 & E4 & L4 & S4 & N4); [lia|rewrite (st_kind _ _ _ ST3), RT; reflexivity| |exact E3|].
  { intros _ _. apply (st_docel _ _ _ ST3). rewrite !existsb_app. apply Bool.orb_false_iff. split; [apply Bool.orb_false_iff; split; [exact M1|destruct (x_type x); reflexivity]|exact M2]. }
  assert (ST4 : stage d b4 (((map inl (x_before x) ++ match x_type x with Some n => [inr n] | None => [] end) ++ map inl (x_between x)) ++ [inl (x_root x)])).
  { eapply stage_later; [exact ST3|exact L4|]. constructor; [exact S4|constructor]. }
  destruct (build_misc _ fuel d _ _ _ _ ST4 F3 ltac:(lia) E4) as (b5 & evs5 & H5 & E5 & ST5).
  destruct (next_event fuel _ _ _ b5 E5) as (e & evs6 & H6 & S6 & E6). apply see_last in S6. subst e.
  exists (put_cur None b5). split; [|split; [|split]].
  - rewrite H1, H2, H3, H4, H5, H6. cbn [handle_all handle bbind]. clear - E6. revert E6. generalize (put_cur None b5). induction evs6 as [|e evs IH]; intros b E6; [reflexivity|]. cbn [flat_map] in E6.
    apply app_eq_nil in E6. destruct E6 as (N & E6). cbn [handle_all]. rewrite (see_none _ _ _ N). apply IH. exact E6.
  - cbn [put_cur b_doc]. apply (op_doc _ _ _ _ (st_open _ _ _ ST5)).
  - apply (st_kind _ _ _ ST5).
  - cbn [put_cur b_next b_heap b_atts]. unfold doc_items. pose proof (st_items _ _ _ ST5) as I. rewrite <- !app_assoc in I. exact I.
Qed.
Lemma walk_item : forall lo hi h at_ x n fuel, item_shows lo hi h at_ n x -> (item_depth x < fuel)%nat -> walk fuel h at_ n = Some (item_events x).
Proof.
  intros lo hi h at_ [t|m] n fuel S D; [eapply walk_shows; eauto|]. destruct S as (_ & K & N). destruct fuel as [|f]; [lia|]. cbn [walk]. rewrite K, N. reflexivity.
Qed.
Lemma walk_items : forall lo hi h at_ f ids xs, Forall2 (item_shows lo hi h at_) ids xs -> Forall (fun x => (item_depth x < f)%nat) xs ->
  (fix go (l : list nat) := match l with [] => Some [] | k :: r => opt_app (walk f h at_ k) (go r) end) ids = Some (flat_map item_events xs).
Proof.
  intros lo hi h at_ f ids xs S. induction S as [|i x ids xs S1 S2 IH]; intros D; [reflexivity|]. inversion D as [|? ? D1 D2]; subst.
  rewrite (walk_item _ _ _ _ _ _ _ S1 D1), IH by exact D2. reflexivity.
Qed.
Lemma parse_lemma : forall x b raw, doc_fits x -> flat_map see (fst (coalescer raw [])) = doc_events x ->
  exists enough, forall fuel, (enough <= fuel)%nat -> exists b' d, parse fuel b raw = BOk b' tt /\ b_doc b' = Some d /\ walk fuel (b_heap b') (b_atts b') d = Some (doc_events x).
Proof.
  intros x b raw F E. exists (depth (x_root x) + 3)%nat. intros fuel L.
  destruct (build_doc x fuel b _ F ltac:(lia) E) as (b' & H & D & K & I). exists b', (b_next b). split; [unfold parse; rewrite H; reflexivity|]. split; [exact D|].
  destruct fuel as [|f]; [lia|]. cbn [walk]. rewrite K, (walk_items _ _ _ _ _ _ _ I).
  - cbn [opt_app]. f_equal. unfold doc_items, doc_events. rewrite !flat_map_app. cbn [flat_map item_events]. rewrite app_nil_r.
    assert (M : forall l, flat_map item_events (map inl l) = flat_map tree_events l) by (induction l as [|t l IH]; [reflexivity|]; cbn [map flat_map item_events]; rewrite IH; reflexivity).
    rewrite !M, <- !app_assoc. f_equal. f_equal. destruct (x_type x); reflexivity.
  - destruct F as (F1 & F2 & F3 & _). assert (MD : forall l, Forall (fun t => misc t /\ fits t) l -> Forall (fun y => (item_depth y < f)%nat) (map inl l)).
    { intros l G. induction G as [|t l (M & _) G IH]; [constructor|]. cbn [map]. constructor; [|exact IH]. destruct t; try contradiction M; cbn; lia. }
    unfold doc_items. repeat (apply Forall_app; split); auto. destruct (x_type x); repeat constructor; cbn; lia. repeat constructor. cbn [item_depth]. lia.
Qed.
