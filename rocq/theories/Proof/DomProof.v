From Verif.Model Require Import Base Dom.
From Verif.Spec Require Import DomSpec.

(** * Reading an updated heap *)
Lemma upd_at : forall {A} (g : node -> A) h i f j,
  g (upd h i f j) = if Nat.eqb j i then g (f (h j)) else g (h j).
Proof. intros A g h i f j. unfold upd. destruct (Nat.eqb j i); reflexivity. Qed.
Lemma if_same : forall {A} (b : bool) (x : A), (if b then x else x) = x.
Proof. intros A [|] x; reflexivity. Qed.

(** The members that only their own setters touch. *)
Definition info (n : node) :=
  (n_kind n, n_owner n, n_ro n, n_docel n, n_doctype n, (n_data n, n_name n, n_uri n, n_local n)).

Lemma info_kind : forall a b, info a = info b -> n_kind a = n_kind b.
Proof. unfold info. intros a b E. congruence. Qed.

(** Each setter changes one member. *)
Lemma set_prev_prev : forall h i v j, n_prev (set_prev h i v j) = if Nat.eqb j i then v else n_prev (h j).
Proof. intros. unfold set_prev. rewrite upd_at. reflexivity. Qed.
Lemma set_prev_next : forall h i v j, n_next (set_prev h i v j) = n_next (h j).
Proof. intros. unfold set_prev. rewrite upd_at. apply if_same. Qed.
Lemma set_prev_kids : forall h i v j, n_kids (set_prev h i v j) = n_kids (h j).
Proof. intros. unfold set_prev. rewrite upd_at. apply if_same. Qed.
Lemma set_prev_parent : forall h i v j, n_parent (set_prev h i v j) = n_parent (h j).
Proof. intros. unfold set_prev. rewrite upd_at. apply if_same. Qed.
Lemma set_prev_info : forall h i v j, info (set_prev h i v j) = info (h j).
Proof. intros. unfold set_prev. rewrite upd_at. apply if_same. Qed.
Lemma set_prev_orphan : forall h i v j, n_orphan (set_prev h i v j) = n_orphan (h j).
Proof. intros. unfold set_prev. rewrite upd_at. apply if_same. Qed.

Lemma set_next_next : forall h i v j, n_next (set_next h i v j) = if Nat.eqb j i then v else n_next (h j).
Proof. intros. unfold set_next. rewrite upd_at. reflexivity. Qed.
Lemma set_next_prev : forall h i v j, n_prev (set_next h i v j) = n_prev (h j).
Proof. intros. unfold set_next. rewrite upd_at. apply if_same. Qed.
Lemma set_next_kids : forall h i v j, n_kids (set_next h i v j) = n_kids (h j).
Proof. intros. unfold set_next. rewrite upd_at. apply if_same. Qed.
Lemma set_next_parent : forall h i v j, n_parent (set_next h i v j) = n_parent (h j).
Proof. intros. unfold set_next. rewrite upd_at. apply if_same. Qed.
Lemma set_next_info : forall h i v j, info (set_next h i v j) = info (h j).
Proof. intros. unfold set_next. rewrite upd_at. apply if_same. Qed.
Lemma set_next_orphan : forall h i v j, n_orphan (set_next h i v j) = n_orphan (h j).
Proof. intros. unfold set_next. rewrite upd_at. apply if_same. Qed.

Lemma set_kids_kids : forall h i v j, n_kids (set_kids h i v j) = if Nat.eqb j i then v else n_kids (h j).
Proof. intros. unfold set_kids. rewrite upd_at. reflexivity. Qed.
Lemma set_kids_next : forall h i v j, n_next (set_kids h i v j) = n_next (h j).
Proof. intros. unfold set_kids. rewrite upd_at. apply if_same. Qed.
Lemma set_kids_prev : forall h i v j, n_prev (set_kids h i v j) = n_prev (h j).
Proof. intros. unfold set_kids. rewrite upd_at. apply if_same. Qed.
Lemma set_kids_parent : forall h i v j, n_parent (set_kids h i v j) = n_parent (h j).
Proof. intros. unfold set_kids. rewrite upd_at. apply if_same. Qed.
Lemma set_kids_info : forall h i v j, info (set_kids h i v j) = info (h j).
Proof. intros. unfold set_kids. rewrite upd_at. apply if_same. Qed.
Lemma set_kids_orphan : forall h i v j, n_orphan (set_kids h i v j) = n_orphan (h j).
Proof. intros. unfold set_kids. rewrite upd_at. apply if_same. Qed.

Ltac set_parent_tac :=
  intros h i v j; unfold set_parent; destruct (n_owner (h i)), v, (n_parent (h i));
  rewrite ?upd_at; unfold info; cbn; rewrite ?if_same; try reflexivity;
  repeat match goal with |- context[Nat.eqb ?a ?b] => destruct (Nat.eqb a b) end; reflexivity.
Lemma set_parent_parent : forall (h : heap) (i : nat) (v : option nat) (j : nat), n_parent (set_parent h i v j) = if Nat.eqb j i then v else n_parent (h j).
Proof. set_parent_tac. Qed.
Lemma set_parent_next : forall h i v j, n_next (set_parent h i v j) = n_next (h j).
Proof. set_parent_tac. Qed.
Lemma set_parent_prev : forall h i v j, n_prev (set_parent h i v j) = n_prev (h j).
Proof. set_parent_tac. Qed.
Lemma set_parent_kids : forall h i v j, n_kids (set_parent h i v j) = n_kids (h j).
Proof. set_parent_tac. Qed.
Lemma set_parent_info : forall h i v j, info (set_parent h i v j) = info (h j).
Proof. set_parent_tac. Qed.
Lemma set_parent_orphan : forall h i v j, n_orphan (set_parent h i v j) =
  if Nat.eqb j i then
    match n_owner (h i), v, n_parent (h i) with
    | Some _, None, Some _ => true
    | Some _, Some _, None => false
    | _, _, _ => n_orphan (h j)
    end
  else n_orphan (h j).
Proof.
  intros; unfold set_parent; destruct (n_owner (h i)), v, (n_parent (h i));
    rewrite ?upd_at; cbn; destruct (Nat.eqb j i); reflexivity.
Qed.

Ltac mark_tac := intros; unfold mark_changed; destruct (n_owner _); rewrite ?upd_at; cbn; rewrite ?if_same; reflexivity.
Lemma mark_parent : forall h i j, n_parent (mark_changed h i j) = n_parent (h j).
Proof. mark_tac. Qed.
Lemma mark_next : forall h i j, n_next (mark_changed h i j) = n_next (h j).
Proof. mark_tac. Qed.
Lemma mark_prev : forall h i j, n_prev (mark_changed h i j) = n_prev (h j).
Proof. mark_tac. Qed.
Lemma mark_kids : forall h i j, n_kids (mark_changed h i j) = n_kids (h j).
Proof. mark_tac. Qed.
Lemma mark_info : forall h i j, info (mark_changed h i j) = info (h j).
Proof. intros; unfold mark_changed; destruct (n_owner _); rewrite ?upd_at; unfold info; cbn; rewrite ?if_same; try reflexivity; destruct (Nat.eqb _ _); reflexivity. Qed.
Lemma mark_orphan : forall h i j, n_orphan (mark_changed h i j) = n_orphan (h j).
Proof. mark_tac. Qed.

#[global] Hint Rewrite set_prev_prev set_prev_next set_prev_kids set_prev_parent set_prev_info set_prev_orphan
  set_next_prev set_next_next set_next_kids set_next_parent set_next_info set_next_orphan
  set_kids_prev set_kids_next set_kids_kids set_kids_parent set_kids_info set_kids_orphan
  set_parent_prev set_parent_next set_parent_kids set_parent_parent set_parent_info set_parent_orphan
  mark_parent mark_next mark_prev mark_kids mark_info mark_orphan : hp.

(** * Chains of siblings *)
Definition first (l : list nat) (d : option nat) : option nat := match l with x :: _ => Some x | [] => d end.
Fixpoint lastof (l : list nat) (d : option nat) : option nat :=
  match l with [] => d | x :: r => lastof r (Some x) end.
Fixpoint chain (h : heap) (pre : option nat) (l : list nat) (post : option nat) : Prop :=
  match l with
  | [] => True
  | x :: r => n_prev (h x) = pre /\ n_next (h x) = first r post /\ chain h (Some x) r post
  end.
Lemma lastof_app : forall a b d, lastof (a ++ b) d = lastof b (lastof a d).
Proof. induction a as [|x a IH]; intros b d; [reflexivity | apply IH]. Qed.
Lemma first_app : forall a b d, first (a ++ b) d = first a (first b d).
Proof. intros [|x a] b d; reflexivity. Qed.
Lemma chain_app : forall h a pre b post,
  chain h pre (a ++ b) post <-> chain h pre a (first b post) /\ chain h (lastof a pre) b post.
Proof.
  intros h; induction a as [|x a IH]; intros pre b post; cbn [app chain lastof]; [tauto|].
  rewrite IH, first_app. tauto.
Qed.
Lemma chain_ext : forall h h' l pre post,
  (forall x, In x l -> n_prev (h' x) = n_prev (h x) /\ n_next (h' x) = n_next (h x)) ->
  chain h pre l post -> chain h' pre l post.
Proof.
  intros h h'; induction l as [|x l IH]; intros pre post E; cbn [chain]; [trivial|].
  intros (P & N & C). destruct (E x (or_introl eq_refl)) as [E1 E2]. rewrite E1, E2.
  repeat split; auto. apply IH; [|exact C]. intros y I. apply E. right; exact I.
Qed.
(** New ends: the first's previous and the last's next pointers changed. *)
Lemma chain_ends : forall h h' l pre post pre' post',
  NoDup l ->
  (forall x, In x l -> n_prev (h' x) = (if match first l None with Some y => Nat.eqb x y | None => false end
                                        then pre' else n_prev (h x))) ->
  (forall x, In x l -> n_next (h' x) = (if match lastof l None with Some y => Nat.eqb x y | None => false end
                                        then post' else n_next (h x))) ->
  chain h pre l post -> chain h' pre' l post'.
Proof.
  assert (G : forall h h' l pre post post' x,
    NoDup (x :: l) ->
    (forall y, In y l -> n_prev (h' y) = n_prev (h y)) ->
    (forall y, In y (x :: l) -> n_next (h' y) = (if match lastof (x :: l) None with Some z => Nat.eqb y z | None => false end
                                        then post' else n_next (h y))) ->
    chain h pre (x :: l) post -> n_next (h' x) = first l post' /\ chain h' (Some x) l post').
  { intros h h'; induction l as [|y l IH]; intros pre post post' x ND P N C.
    - cbn. split; [|trivial]. rewrite (N x (or_introl eq_refl)). cbn. rewrite Nat.eqb_refl. reflexivity.
    - cbn [chain] in C. destruct C as (C1 & C2 & C3).
      inversion ND as [|? ? ND1 ND2]; subst.
      assert (IH' := IH (Some x) post post' y ND2).
      assert (LE : lastof (x :: y :: l) None = lastof (y :: l) None) by reflexivity.
      destruct IH' as [I1 I2].
      + intros z I. apply P. right; exact I.
      + intros z I. rewrite (N z (or_intror I)), LE. reflexivity.
      + exact C3.
      + cbn [chain first]. split; [|split; [|split]]; auto.
        * rewrite (N x (or_introl eq_refl)), LE.
          destruct (lastof (y :: l) None) as [z|] eqn:E; [|exact C2].
          destruct (Nat.eqb_spec x z) as [<-|]; [|exact C2].
          exfalso. apply ND1. clear -E. revert y E. induction l as [|w l IH]; cbn; intros y E.
          -- left; congruence.
          -- right. apply (IH w). exact E.
        * rewrite (P y (or_introl eq_refl)). cbn [chain] in C3. apply C3. }
  intros h h' [|x l] pre post pre' post' ND P N C; [exact I|].
  destruct (G h h' l pre post post' x ND) as [G1 G2].
  - intros y I. rewrite (P y (or_intror I)). cbn [first].
    destruct (Nat.eqb_spec y x) as [->|]; [|reflexivity].
    inversion ND; contradiction.
  - exact N.
  - exact C.
  - cbn [chain]. repeat split; auto. rewrite (P x (or_introl eq_refl)). cbn [first]. rewrite Nat.eqb_refl. reflexivity.
Qed.
Lemma lastof_in : forall l d x, lastof l d = Some x -> In x l \/ (l = [] /\ d = Some x).
Proof.
  induction l as [|y l IH]; cbn; intros d x E; [right; auto|].
  left. destruct (IH _ _ E) as [I|[-> E2]]; [right; exact I|left; congruence].
Qed.

(** * The invariant *)
Inductive rooted (h : heap) : nat -> Prop :=
  | rooted_top : forall n, n_parent (h n) = None -> rooted h n
  | rooted_step : forall n p, n_parent (h n) = Some p -> rooted h p -> rooted h n.
(** Kinds that can have a parent. *)
Definition can_have_parent (k : nkind) : bool :=
  match k with KAttr | KDocument | KFragment | KEntity | KNotation => false | _ => true end.
Record links (h : heap) : Prop := {
  l_nodup : forall p, NoDup (n_kids (h p));
  l_parent : forall p c, In c (n_kids (h p)) <-> n_parent (h c) = Some p;
  l_chain : forall p, chain h None (n_kids (h p)) None;
  l_lone : forall c, n_parent (h c) = None -> n_prev (h c) = None /\ n_next (h c) = None;
  l_rooted : forall n, rooted h n }.
Record typed (h : heap) : Prop := {
  t_child : forall c p, n_parent (h c) = Some p -> can_have_parent (n_kind (h c)) = true;
  t_doc : forall d, n_kind (h d) = KDocument -> n_owner (h d) = Some d;
  t_owned : forall i, n_owner (h i) = None -> n_kind (h i) = KDocType;
  t_kids : forall c p, n_parent (h c) = Some p -> childless (n_kind (h p)) = false;
  t_inside : forall c p, n_parent (h c) = Some p -> n_owner (h c) <> None;
  t_in_list : forall c p, n_parent (h c) = Some p -> n_orphan (h c) = false;
  t_orphan : forall c, n_parent (h c) = None -> n_kind (h c) <> KDocument -> n_kind (h c) <> KDocType ->
             n_orphan (h c) = true }.
Definition good (h : heap) : Prop := links h /\ typed h.

(** Same structure, possibly other members. *)
Definition same_links (h h' : heap) : Prop :=
  forall i, n_kids (h' i) = n_kids (h i) /\ n_parent (h' i) = n_parent (h i)
            /\ n_prev (h' i) = n_prev (h i) /\ n_next (h' i) = n_next (h i).
Lemma rooted_ext : forall h h', (forall i, n_parent (h' i) = n_parent (h i)) ->
  forall n, rooted h n -> rooted h' n.
Proof.
  intros h h' E n R; induction R as [n P|n p P R IH].
  - apply rooted_top. rewrite E; exact P.
  - apply rooted_step with p; [rewrite E; exact P|exact IH].
Qed.
Lemma links_same : forall h h', same_links h h' -> links h -> links h'.
Proof.
  intros h h' S [A B C D E]. unfold same_links in S.
  assert (K : forall i, n_kids (h' i) = n_kids (h i)) by (intro i; apply S).
  assert (P : forall i, n_parent (h' i) = n_parent (h i)) by (intro i; apply S).
  constructor.
  - intro p. rewrite K. apply A.
  - intros p c. rewrite K, P. apply B.
  - intro p. rewrite K. apply chain_ext with h; [|apply C]. intros x _. split; apply S.
  - intros c. rewrite P. intro N. destruct (S c) as (_ & _ & -> & ->). apply D, N.
  - intro n. apply rooted_ext with h; auto.
Qed.

(** * Detaching *)
Lemma erase_split : forall x l l', erase x l = Some l' -> exists a b, l = a ++ x :: b /\ l' = a ++ b /\ ~ In x a.
Proof.
  intros x; induction l as [|y l IH]; cbn; intros l' E; [discriminate|].
  destruct (Nat.eqb_spec y x) as [->|N].
  - injection E as <-. exists [], l. auto.
  - destruct (erase x l) as [l1|]; [|discriminate]. injection E as <-.
    destruct (IH l1 eq_refl) as (a & b & -> & -> & NI). exists (y :: a), b. repeat split; auto.
    intros [->|I]; [apply N; reflexivity|apply NI, I].
Qed.
Lemma erase_in : forall x l, In x l -> exists l', erase x l = Some l'.
Proof.
  intros x; induction l as [|y l IH]; cbn; intros I; [contradiction|].
  destruct (Nat.eqb_spec y x) as [->|N]; [eauto|].
  destruct I as [->|I]; [contradiction|]. destruct (IH I) as [l' ->]. eauto.
Qed.
Lemma erase_none : forall x l, erase x l = None -> ~ In x l.
Proof. intros x l E I. destruct (erase_in x l I) as [l' E2]. congruence. Qed.

(** The structure after [o] has left [p]. *)
Record detached (h h' : heap) (p o : nat) : Prop := {
  d_kids : exists a b, n_kids (h p) = a ++ o :: b /\ n_kids (h' p) = a ++ b;
  d_others : forall i, i <> p -> n_kids (h' i) = n_kids (h i);
  d_parent : n_parent (h' o) = None;
  d_parents : forall i, i <> o -> n_parent (h' i) = n_parent (h i);
  d_info : forall i, info (h' i) = info (h i);
  d_orphan : forall i, i <> o -> n_orphan (h' i) = n_orphan (h i);
  d_orphan_o : n_owner (h o) <> None -> n_orphan (h' o) = true }.

Definition is (o : option nat) (j : nat) : bool := match o with Some i => Nat.eqb j i | None => false end.
Lemma set_next_opt_next : forall h i v j, n_next (set_next_opt h i v j) = if is i j then v else n_next (h j).
Proof. intros h [i|] v j; cbn [set_next_opt is]; [apply set_next_next|reflexivity]. Qed.
Lemma set_next_opt_prev : forall h i v j, n_prev (set_next_opt h i v j) = n_prev (h j).
Proof. intros h [i|] v j; cbn [set_next_opt is]; autorewrite with hp; reflexivity. Qed.
Lemma set_next_opt_kids : forall h i v j, n_kids (set_next_opt h i v j) = n_kids (h j).
Proof. intros h [i|] v j; cbn [set_next_opt is]; autorewrite with hp; reflexivity. Qed.
Lemma set_next_opt_parent : forall h i v j, n_parent (set_next_opt h i v j) = n_parent (h j).
Proof. intros h [i|] v j; cbn [set_next_opt is]; autorewrite with hp; reflexivity. Qed.
Lemma set_next_opt_info : forall h i v j, info (set_next_opt h i v j) = info (h j).
Proof. intros h [i|] v j; cbn [set_next_opt is]; autorewrite with hp; reflexivity. Qed.
Lemma set_next_opt_orphan : forall h i v j, n_orphan (set_next_opt h i v j) = n_orphan (h j).
Proof. intros h [i|] v j; cbn [set_next_opt is]; autorewrite with hp; reflexivity. Qed.
Lemma set_prev_opt_prev : forall h i v j, n_prev (set_prev_opt h i v j) = if is i j then v else n_prev (h j).
Proof. intros h [i|] v j; cbn [set_prev_opt is]; [apply set_prev_prev|reflexivity]. Qed.
Lemma set_prev_opt_next : forall h i v j, n_next (set_prev_opt h i v j) = n_next (h j).
Proof. intros h [i|] v j; cbn [set_prev_opt is]; autorewrite with hp; reflexivity. Qed.
Lemma set_prev_opt_kids : forall h i v j, n_kids (set_prev_opt h i v j) = n_kids (h j).
Proof. intros h [i|] v j; cbn [set_prev_opt is]; autorewrite with hp; reflexivity. Qed.
Lemma set_prev_opt_parent : forall h i v j, n_parent (set_prev_opt h i v j) = n_parent (h j).
Proof. intros h [i|] v j; cbn [set_prev_opt is]; autorewrite with hp; reflexivity. Qed.
Lemma set_prev_opt_info : forall h i v j, info (set_prev_opt h i v j) = info (h j).
Proof. intros h [i|] v j; cbn [set_prev_opt is]; autorewrite with hp; reflexivity. Qed.
Lemma set_prev_opt_orphan : forall h i v j, n_orphan (set_prev_opt h i v j) = n_orphan (h j).
Proof. intros h [i|] v j; cbn [set_prev_opt is]; autorewrite with hp; reflexivity. Qed.
#[global] Hint Rewrite set_next_opt_next set_next_opt_prev set_next_opt_kids set_next_opt_parent set_next_opt_info
  set_next_opt_orphan set_prev_opt_prev set_prev_opt_next set_prev_opt_kids set_prev_opt_parent set_prev_opt_info
  set_prev_opt_orphan : hp.

Lemma info_owner : forall a b, info a = info b -> n_owner a = n_owner b.
Proof. unfold info. intros a b E. congruence. Qed.

Lemma nodup_mid : forall (a b : list nat) x, NoDup (a ++ x :: b) -> NoDup (a ++ b) /\ ~ In x a /\ ~ In x b
  /\ NoDup a /\ NoDup b /\ (forall y, In y a -> ~ In y b).
Proof.
  intros a b x ND. assert (N := NoDup_remove_1 _ _ _ ND). assert (M := NoDup_remove_2 _ _ _ ND).
  split; [exact N|]. split; [|split]; [intro I; apply M, in_or_app; auto..|].
  clear ND M. induction a as [|y a IH]; cbn in N.
  - repeat split; auto using NoDup_nil.
  - inversion N as [|? ? N1 N2]; subst. destruct (IH N2) as (A & B & C). repeat split; auto.
    + constructor; auto. intro I. apply N1, in_or_app; auto.
    + intros z [->|I]; [intro J; apply N1, in_or_app; auto|apply C, I].
Qed.

(** The pointer updates of do_removeChild. *)
Lemma unlink_chain : forall h h' a o b,
  NoDup (a ++ o :: b) -> chain h None (a ++ o :: b) None ->
  (forall j, j <> o -> n_next (h' j) = if is (n_prev (h o)) j then n_next (h o) else n_next (h j)) ->
  (forall j, j <> o -> n_prev (h' j) = if is (n_next (h o)) j then n_prev (h o) else n_prev (h j)) ->
  chain h' None (a ++ b) None.
Proof.
  intros h h' a o b ND C EN EP.
  destruct (nodup_mid _ _ _ ND) as (NDab & Oa & Ob & NDa & NDb & DJ).
  apply chain_app in C as [C1 C2]. cbn [chain first] in C2. destruct C2 as (C2 & C3 & C4).
  rewrite C2, C3 in *. cbn [first] in C1.
  apply chain_app. split.
  - apply chain_ends with h None (Some o); auto.
    + intros x I. assert (x <> o) by congruence. rewrite EP by assumption.
      assert (HF : is (first b None) x = false).
      { destruct b as [|y b]; cbn; [reflexivity|]. apply Nat.eqb_neq. intros ->. apply (DJ y I). left; reflexivity. }
      rewrite HF. destruct a as [|z a]; [contradiction|]. cbn [first].
      destruct (Nat.eqb_spec x z) as [->|]; [|reflexivity]. cbn [chain] in C1. apply C1.
    + intros x I. assert (x <> o) by congruence. rewrite EN by assumption. reflexivity.
  - apply chain_ends with h (Some o) None; auto.
    + intros x I. assert (x <> o) by congruence. rewrite EP by assumption. unfold is. destruct b as [|y b]; reflexivity.
    + intros x I. assert (x <> o) by congruence. rewrite EN by assumption.
      assert (HF : is (lastof a None) x = false).
      { destruct (lastof a None) as [z|] eqn:L; cbn; [|reflexivity]. apply Nat.eqb_neq. intros ->.
        apply lastof_in in L as [L|[_ L]]; [apply (DJ z L I)|discriminate]. }
      rewrite HF.
      destruct (lastof b None) as [z|] eqn:L; [|reflexivity].
      destruct (Nat.eqb_spec x z) as [->|]; [|reflexivity].
      clear -C4 L. assert (G : forall l pre, chain h pre l None -> lastof l None = Some z -> n_next (h z) = None).
      { clear. induction l as [|y l IH]; intros pre C E; [discriminate|]. cbn [chain] in C. destruct C as (_ & N & C).
        destruct l as [|w l]; cbn in E; [injection E as <-; exact N|]. apply (IH (Some y)); [exact C|exact E]. }
      apply (G b (Some o)); auto.
Qed.
Lemma do_remove_detached : forall h p o h' r, links h -> do_remove h p (Some o) = Ok h' r ->
  detached h h' p o /\ links h' /\ r = Some o /\ n_ro (h p) = false.
Proof.
  intros h p o h' r L E. unfold do_remove in E.
  destruct (n_ro (h p)) eqn:RO; [discriminate|].
  destruct (erase o (n_kids (h p))) as [l|] eqn:ER; [|discriminate].
  injection E as <- <-.
  destruct (erase_split _ _ _ ER) as (a & b & KA & -> & NA).
  assert (PO : n_parent (h o) = Some p).
  { apply (l_parent h L). rewrite KA. apply in_or_app; right; left; reflexivity. }
  match goal with |- detached h ?H p o /\ _ => set (h' := H) end.
  assert (KP : n_kids (h' p) = a ++ b).
  { unfold h'. autorewrite with hp. rewrite Nat.eqb_refl. reflexivity. }
  assert (KO : forall i, i <> p -> n_kids (h' i) = n_kids (h i)).
  { intros i N. unfold h'. autorewrite with hp. apply Nat.eqb_neq in N. rewrite N. reflexivity. }
  assert (PP : forall i, n_parent (h' i) = if Nat.eqb i o then None else n_parent (h i)).
  { intro i. unfold h'. autorewrite with hp. reflexivity. }
  assert (NX : forall j, n_next (h' j) = if Nat.eqb j o then None else
              if is (n_prev (h o)) j then n_next (h o) else n_next (h j)).
  { intro i. unfold h'. autorewrite with hp. reflexivity. }
  assert (PV : forall j, n_prev (h' j) = if Nat.eqb j o then None else
              if is (n_next (h o)) j then n_prev (h o) else n_prev (h j)).
  { intro i. unfold h'. autorewrite with hp. reflexivity. }
  assert (IN : forall i, info (h' i) = info (h i)).
  { intro i. unfold h'. autorewrite with hp. reflexivity. }
  split; [|split; [|split; reflexivity]].
  - constructor; auto.
    + exists a, b. auto.
    + rewrite PP, Nat.eqb_refl. reflexivity.
    + intros i N. rewrite PP. apply Nat.eqb_neq in N. rewrite N. reflexivity.
    + intros i N. unfold h'. autorewrite with hp. apply Nat.eqb_neq in N. rewrite N. reflexivity.
    + intro OW. unfold h'. autorewrite with hp. rewrite Nat.eqb_refl, PO.
      match goal with |- context[n_owner ?x] => assert (EO : n_owner x = n_owner (h o)) end.
      { apply info_owner. autorewrite with hp. reflexivity. }
      rewrite EO. destruct (n_owner (h o)); [reflexivity|contradiction].
  - destruct L as [A B C D R]. assert (ND := A p). rewrite KA in ND.
    destruct (nodup_mid _ _ _ ND) as (NDab & Oa & Ob & NDa & NDb & DJ).
    constructor.
    + intro q. destruct (Nat.eq_dec q p) as [->|N]; [rewrite KP; exact NDab|rewrite KO by assumption; apply A].
    + intros q c. rewrite PP. destruct (Nat.eqb_spec c o) as [->|NC].
      * split; [|discriminate]. intro I. exfalso. destruct (Nat.eq_dec q p) as [->|N].
        -- rewrite KP in I. apply in_app_or in I as [I|I]; auto.
        -- rewrite KO in I by assumption. apply B in I. congruence.
      * destruct (Nat.eq_dec q p) as [->|N].
        -- rewrite KP, <- (B p c), KA. rewrite !in_app_iff. cbn. intuition congruence.
        -- rewrite KO by assumption. apply B.
    + intro q. destruct (Nat.eq_dec q p) as [->|N].
      * rewrite KP. apply unlink_chain with h o; auto.
        -- rewrite <- KA. apply C.
        -- intros j NJ. rewrite NX. apply Nat.eqb_neq in NJ. rewrite NJ. reflexivity.
        -- intros j NJ. rewrite PV. apply Nat.eqb_neq in NJ. rewrite NJ. reflexivity.
      * rewrite KO by assumption. apply chain_ext with h; [|apply C].
        intros x I. assert (NO : x <> o) by (intros ->; apply B in I; congruence).
        assert (Cp := C p). rewrite KA in Cp. apply chain_app in Cp as [_ Cp]. cbn [chain] in Cp.
        destruct Cp as (Cp1 & Cp2 & _).
        assert (NI : forall y, In y (a ++ b) -> y <> x).
        { intros y J ->. apply B in I. assert (n_parent (h x) = Some p); [|congruence].
          apply B. rewrite KA. apply in_app_or in J as [J|J]; apply in_or_app; [left|right; right]; auto. }
        rewrite NX, PV. apply Nat.eqb_neq in NO. rewrite NO, Cp1, Cp2. split.
        -- destruct b as [|y b]; cbn [first is]; [reflexivity|].
           assert (H : y <> x) by (apply NI, in_or_app; right; left; reflexivity).
           apply not_eq_sym, Nat.eqb_neq in H. rewrite H. reflexivity.
        -- destruct (lastof a None) as [y|] eqn:LA; cbn [is]; [|reflexivity].
           apply lastof_in in LA as [LA|[_ LA]]; [|discriminate].
           assert (H : y <> x) by (apply NI, in_or_app; left; auto).
           apply not_eq_sym, Nat.eqb_neq in H. rewrite H. reflexivity.
    + intro c. rewrite PP, NX, PV. destruct (Nat.eqb_spec c o) as [->|NC]; [auto|].
      intro PC. destruct (D c PC) as [D1 D2].
      assert (NI : forall y, In y (a ++ b) -> y <> c).
      { intros y J ->. assert (n_parent (h c) = Some p); [|congruence].
        apply B. rewrite KA. apply in_app_or in J as [J|J]; apply in_or_app; [left|right; right]; auto. }
      assert (Cp := C p). rewrite KA in Cp. apply chain_app in Cp as [_ Cp]. cbn [chain] in Cp.
      destruct Cp as (Cp1 & Cp2 & _). rewrite Cp1, Cp2. split.
      * destruct b as [|y b]; cbn [first is]; [exact D1|].
        assert (H : y <> c) by (apply NI, in_or_app; right; left; reflexivity).
        apply not_eq_sym, Nat.eqb_neq in H. rewrite H. exact D1.
      * destruct (lastof a None) as [y|] eqn:LA; cbn [is]; [|exact D2].
        apply lastof_in in LA as [LA|[_ LA]]; [|discriminate].
        assert (H : y <> c) by (apply NI, in_or_app; left; auto).
        apply not_eq_sym, Nat.eqb_neq in H. rewrite H. exact D2.
    + intro n. assert (RN := R n). induction RN as [n P|n q P RN IH].
      * apply rooted_top. rewrite PP. destruct (Nat.eqb n o); auto.
      * destruct (Nat.eq_dec n o) as [->|N].
        -- apply rooted_top. rewrite PP, Nat.eqb_refl. reflexivity.
        -- apply rooted_step with q; [|exact IH]. rewrite PP. apply Nat.eqb_neq in N. rewrite N. exact P.
Qed.

(** * Attaching *)
Inductive upward (h : heap) : nat -> nat -> Prop :=
  | up_self : forall n, upward h n n
  | up_step : forall n p a, n_parent (h n) = Some p -> upward h p a -> upward h n a.

Record attached (h h' : heap) (p n : nat) (a b : list nat) : Prop := {
  at_kids : n_kids (h p) = a ++ b;
  at_kids' : n_kids (h' p) = a ++ n :: b;
  at_others : forall i, i <> p -> n_kids (h' i) = n_kids (h i);
  at_parents : forall i, n_parent (h' i) = if Nat.eqb i n then Some p else n_parent (h i);
  at_next : forall j, n_next (h' j) = if Nat.eqb j n then first b None
                                      else if is (lastof a None) j then Some n else n_next (h j);
  at_prev : forall j, n_prev (h' j) = if Nat.eqb j n then lastof a None
                                      else if is (first b None) j then Some n else n_prev (h j) }.
Lemma attach_links : forall h h' p n a b,
  links h -> n_parent (h n) = None -> ~ upward h p n -> attached h h' p n a b -> links h'.
Proof.
  intros h h' p n a b [A B C D R] PN UP [K K' KO PP NX PV].
  assert (ND := A p). rewrite K in ND.
  assert (NI : ~ In n (a ++ b)). { rewrite <- K, B. congruence. }
  assert (ND' : NoDup (a ++ n :: b)).
  { apply (NoDup_Add (Add_app n a b)). auto. }
  destruct (nodup_mid _ _ _ ND') as (_ & Na & Nb & NDa & NDb & DJ).
  assert (CP := C p). rewrite K in CP. apply chain_app in CP as [C1 C2].
  assert (LN : forall x, In x b -> is (lastof a None) x = false).
  { intros x I. destruct (lastof a None) as [z|] eqn:L; cbn; [|reflexivity]. apply Nat.eqb_neq. intros ->.
    apply lastof_in in L as [L|[_ L]]; [apply (DJ z L I)|discriminate]. }
  assert (FN : forall x, In x a -> is (first b None) x = false).
  { intros x I. destruct b as [|y b]; cbn; [reflexivity|]. apply Nat.eqb_neq. intros ->. apply (DJ y I). left; reflexivity. }
  assert (OUT : forall x, ~ In x (a ++ b) -> is (lastof a None) x = false /\ is (first b None) x = false).
  { intros x NX1. split.
    - destruct (lastof a None) as [z|] eqn:L; cbn; [|reflexivity]. apply Nat.eqb_neq. intros ->.
      apply lastof_in in L as [L|[_ L]]; [apply NX1, in_or_app; auto|discriminate].
    - destruct b as [|y b]; cbn; [reflexivity|]. apply Nat.eqb_neq. intros ->. apply NX1, in_or_app. right; left; reflexivity. }
  constructor.
  - intro q. destruct (Nat.eq_dec q p) as [->|N]; [rewrite K'; exact ND'|rewrite KO by assumption; apply A].
  - intros q c. rewrite PP. destruct (Nat.eqb_spec c n) as [->|NC].
    + split.
      * intro I. destruct (Nat.eq_dec q p) as [->|N]; [reflexivity|].
        rewrite KO in I by assumption. apply B in I. congruence.
      * intro E. injection E as <-. rewrite K'. apply in_or_app; right; left; reflexivity.
    + destruct (Nat.eq_dec q p) as [->|N].
      * rewrite K', <- (B p c), K. rewrite !in_app_iff. cbn. intuition congruence.
      * rewrite KO by assumption. apply B.
  - intro q. destruct (Nat.eq_dec q p) as [->|N].
    + rewrite K'. apply chain_app. cbn [first]. split.
      * apply chain_ends with h None (first b None); auto.
        -- intros x I. assert (x <> n) by congruence. rewrite PV.
           assert (H0 := H). apply Nat.eqb_neq in H0. rewrite H0, (FN x I).
           destruct a as [|z a]; [contradiction|]. cbn [first].
           destruct (Nat.eqb_spec x z) as [->|]; [|reflexivity]. cbn [chain] in C1. apply C1.
        -- intros x I. assert (x <> n) by congruence. rewrite NX.
           apply Nat.eqb_neq in H. rewrite H. reflexivity.
      * cbn [chain]. rewrite PV, NX, Nat.eqb_refl. repeat split.
        apply chain_ends with h (lastof a None) None; auto.
        -- intros x I. assert (x <> n) by congruence. rewrite PV.
           apply Nat.eqb_neq in H. rewrite H. destruct b as [|y b]; reflexivity.
        -- intros x I. assert (x <> n) by congruence. rewrite NX.
           apply Nat.eqb_neq in H. rewrite H, (LN x I).
           destruct (lastof b None) as [z|] eqn:L; [|reflexivity].
           destruct (Nat.eqb_spec x z) as [->|]; [|reflexivity].
           clear -C2 L. revert C2 L. generalize (lastof a None).
           induction b as [|y l IH]; intros pre C E; [discriminate|]. cbn [chain] in C. destruct C as (_ & N & C).
           destruct l as [|w l]; cbn in E; [injection E as <-; exact N|]. apply (IH (Some y)); [exact C|exact E].
    + rewrite KO by assumption. apply chain_ext with h; [|apply C].
      intros x I. apply B in I. assert (x <> n) by congruence.
      assert (NX1 : ~ In x (a ++ b)). { rewrite <- K, B. congruence. }
      destruct (OUT x NX1) as [O1 O2]. rewrite NX, PV, O1, O2.
      apply Nat.eqb_neq in H. rewrite H. auto.
  - intro c. rewrite PP, NX, PV. destruct (Nat.eqb_spec c n) as [->|NC]; [discriminate|].
    intro PC. assert (NX1 : ~ In c (a ++ b)). { rewrite <- K, B. congruence. }
    destruct (OUT c NX1) as [O1 O2]. rewrite O1, O2. apply D, PC.
  - assert (RP : rooted h' p).
    { assert (G : forall m, rooted h m -> ~ upward h m n -> rooted h' m); [|apply G; auto].
      clear UP. intros m RN UP. induction RN as [m P|m q P RN IH].
      - apply rooted_top. rewrite PP. destruct (Nat.eqb_spec m n) as [->|]; [exfalso; apply UP, up_self|exact P].
      - apply rooted_step with q.
        + rewrite PP. destruct (Nat.eqb_spec m n) as [->|]; [exfalso; apply UP, up_self|exact P].
        + apply IH. intro U. apply UP. apply up_step with q; auto. }
    intro m. assert (RN := R m). induction RN as [m P|m q P RN IH].
    + destruct (Nat.eq_dec m n) as [->|N].
      * apply rooted_step with p; [rewrite PP, Nat.eqb_refl; reflexivity|exact RP].
      * apply rooted_top. rewrite PP. apply Nat.eqb_neq in N. rewrite N. exact P.
    + apply rooted_step with q; [|exact IH]. rewrite PP.
      destruct (Nat.eqb_spec m n) as [->|]; [congruence|exact P].
Qed.

(** * The checks *)
Lemma hidden_parent : forall h c, typed h -> get_parent h c = n_parent (h c).
Proof.
  intros h c T. unfold get_parent. destruct (n_parent (h c)) as [p|] eqn:P.
  - assert (H := t_child h T c p P). destruct (n_kind (h c)); try discriminate; reflexivity.
  - destruct (n_kind (h c)); reflexivity.
Qed.
Lemma climb_upward : forall h f n t, typed h -> climb f h n t = Some false -> ~ upward h n t.
Proof.
  intros h; induction f as [|f IH]; intros n t T E; cbn [climb] in E; [discriminate|].
  destruct (Nat.eqb_spec n t) as [->|N]; [discriminate|].
  rewrite hidden_parent in E by exact T. intro U. inversion U as [m|m p a P U']; subst; [contradiction|].
  rewrite P in E. apply (IH p t T E), U'.
Qed.
Lemma climb_true : forall h f n t, typed h -> climb f h n t = Some true -> upward h n t.
Proof.
  intros h; induction f as [|f IH]; intros n t T E; cbn [climb] in E; [discriminate|].
  destruct (Nat.eqb_spec n t) as [->|N]; [apply up_self|].
  rewrite hidden_parent in E by exact T. destruct (n_parent (h n)) as [p|] eqn:P; [|discriminate].
  apply up_step with p; [exact P|]. apply IH; assumption.
Qed.
Lemma climb_total : forall h n t, typed h -> rooted h n -> exists f0, forall f, (f0 <= f)%nat -> climb f h n t <> None.
Proof.
  intros h n t T R. induction R as [n P|n p P R [f0 IH]].
  - exists 1%nat. intros [|f] L; [lia|]. cbn [climb]. destruct (Nat.eqb n t); [discriminate|].
    rewrite hidden_parent, P by exact T. discriminate.
  - exists (S f0). intros [|f] L; [lia|]. cbn [climb]. destruct (Nat.eqb n t); [discriminate|].
    rewrite hidden_parent, P by exact T. apply IH. lia.
Qed.

(** What no mutation changes. *)
Definition static (n : node) := (n_kind n, n_ro n, (n_data n, n_name n, n_uri n, n_local n)).
Lemma info_static : forall a b, info a = info b -> static a = static b.
Proof. unfold info, static. intros a b E. congruence. Qed.
Lemma static_kind : forall a b, static a = static b -> n_kind a = n_kind b.
Proof. unfold static. intros a b E. congruence. Qed.
Lemma static_ro : forall a b, static a = static b -> n_ro a = n_ro b.
Proof. unfold static. intros a b E. congruence. Qed.

Lemma can_add_spec : forall f h this new h1 u, good h ->
  childless (n_kind (h this)) = false -> (n_kind (h new) = KDocument -> this <> new) ->
  check_can_add f h this new = Ok h1 u ->
  same_links h h1 /\ good h1 /\ (forall i, static (h1 i) = static (h i))
  /\ (forall i, n_docel (h1 i) = n_docel (h i) /\ n_doctype (h1 i) = n_doctype (h i))
  /\ (forall i, i <> new -> n_owner (h1 i) = n_owner (h i)) /\ n_owner (h1 new) <> None
  /\ ~ upward h1 this new /\ can_have_parent (n_kind (h new)) = true
  /\ (n_owner (h new) <> None -> h1 = h).
Proof.
  intros f h this new h1 u [L T] CL ND E. unfold check_can_add in E.
  destruct (n_owner (h new)) as [cd|] eqn:OW.
  - assert (h1 = h /\ ~ upward h this new /\ can_have_parent (n_kind (h new)) = true) as (-> & UP & CP).
    { unfold has_kind in E. destruct (nkind_eqb (n_kind (h new)) KDocument) eqn:KD.
      - exfalso. assert (KD' : n_kind (h new) = KDocument) by (destruct (n_kind (h new)); try discriminate; reflexivity).
        assert (OD := t_doc h T new KD'). rewrite OW in OD. injection OD as ->.
        destruct (nkind_eqb (n_kind (h this)) KDocument); cbn [andb] in E; [|discriminate].
        destruct (Nat.eqb_spec new this) as [Heq|]; [|discriminate]. apply (ND KD'). auto.
      - destruct (match n_owner (h this) with Some d => negb (Nat.eqb cd d) | None => false end); [discriminate|].
        destruct (climb f h this new) as [[|]|] eqn:CL1; try discriminate.
        destruct (nkind_eqb (n_kind (h this)) KEntityRef && n_ro (h this)); [discriminate|].
        destruct (child_kind_ok (n_kind (h this)) (n_kind (h new))) eqn:CK; [|discriminate].
        injection E as <-. split; [reflexivity|]. split; [apply climb_upward with f; auto|].
        destruct (n_kind (h this)), (n_kind (h new)); try discriminate; reflexivity. }
    assert (OW' : n_owner (h new) <> None) by congruence.
    split; [intro i; auto|]. split; [split; assumption|]. repeat split; auto.
  - injection E as <- _. assert (KT := t_owned h T new OW).
    set (h1 := upd h new (set_owner_f (n_owner (h this)))).
    assert (SL : same_links h h1).
    { intro i. unfold h1. rewrite !upd_at. cbn. rewrite !if_same. auto. }
    assert (KK : forall i, n_kind (h1 i) = n_kind (h i)).
    { intro i. unfold h1. rewrite !upd_at. cbn. apply if_same. }
    assert (OO : forall i, n_orphan (h1 i) = n_orphan (h i)).
    { intro i. unfold h1. rewrite !upd_at. cbn. apply if_same. }
    assert (PP : forall i, n_parent (h1 i) = n_parent (h i)) by (intro i; apply SL).
    assert (OT : n_owner (h this) <> None).
    { intro N. apply (t_owned h T) in N. rewrite N in CL. discriminate. }
    assert (OW1 : forall i, n_owner (h1 i) = if Nat.eqb i new then n_owner (h this) else n_owner (h i)).
    { intro i. unfold h1. rewrite upd_at. reflexivity. }
    assert (UP : ~ upward h1 this new).
    { assert (G : forall a b, upward h1 a b -> b = new -> n_kind (h a) <> KDocType -> False).
      { intros a b U. induction U as [m|m p b P U IH]; intros EB KA.
        - congruence.
        - apply IH; [exact EB|]. rewrite PP in P. assert (X := t_kids h T _ _ P). intro Y. rewrite Y in X. discriminate. }
      intro U. apply (G _ _ U eq_refl). intro Y. rewrite Y in CL. discriminate. }
    split; [exact SL|]. split; [split|].
    + apply links_same with h; auto.
    + destruct T as [A B C D E F G]. constructor.
      * intros c p. rewrite PP, KK. apply A.
      * intros d. rewrite KK, OW1. intro KD. destruct (Nat.eqb_spec d new) as [->|]; [congruence|]. apply B, KD.
      * intro i. rewrite OW1, KK. destruct (Nat.eqb_spec i new) as [->|]; [intro; contradiction|]. apply C.
      * intros c p. rewrite PP, KK. apply D.
      * intros c p. rewrite PP, OW1. intro P. destruct (Nat.eqb c new); [exact OT|]. apply (E c p P).
      * intros c p. rewrite PP, OO. apply F.
      * intros c. rewrite PP, OO, KK. apply G.
    + split; [|split; [|split; [|split; [|split; [|split]]]]].
      * intro i. unfold h1. rewrite upd_at. apply if_same.
      * intro i. unfold h1. rewrite !upd_at. cbn. rewrite !if_same. auto.
      * intros i N. rewrite OW1. apply Nat.eqb_neq in N. rewrite N. reflexivity.
      * rewrite OW1, Nat.eqb_refl. exact OT.
      * exact UP.
      * rewrite KT. reflexivity.
      * intro X. exfalso. apply X. reflexivity.
Qed.

(** Effects of removal on everything but documentElement_. *)
Record removed (h h' : heap) (p o : nat) : Prop := {
  r_kids : exists a b, n_kids (h p) = a ++ o :: b /\ n_kids (h' p) = a ++ b;
  r_others : forall i, i <> p -> n_kids (h' i) = n_kids (h i);
  r_parents : forall i, n_parent (h' i) = if Nat.eqb i o then None else n_parent (h i);
  r_static : forall i, static (h' i) = static (h i);
  r_owner : forall i, n_owner (h' i) = n_owner (h i);
  r_doctype : forall i, n_doctype (h' i) = n_doctype (h i);
  r_docel : forall i, n_docel (h' i) =
    if Nat.eqb i p && has_kind h p KDocument && opt_eqb (n_docel (h p)) (Some o) then None else n_docel (h i) }.

Lemma detached_typed : forall h h' p o, typed h -> n_parent (h o) = Some p -> detached h h' p o -> typed h'.
Proof.
  intros h h' p o [A B C D E F G] PO [K KO PN PP IN ON OO].
  assert (KK : forall i, n_kind (h' i) = n_kind (h i)) by (intro i; apply info_kind, IN).
  assert (OW : forall i, n_owner (h' i) = n_owner (h i)) by (intro i; apply info_owner, IN).
  assert (PX : forall i q, n_parent (h' i) = Some q -> n_parent (h i) = Some q /\ i <> o).
  { intros i q P. destruct (Nat.eq_dec i o) as [->|N]; [congruence|]. rewrite PP in P by assumption. auto. }
  constructor.
  - intros c q P. apply PX in P as [P N]. rewrite KK. apply (A c q P).
  - intros d. rewrite KK, OW. apply B.
  - intros i. rewrite OW, KK. apply C.
  - intros c q P. apply PX in P as [P N]. rewrite KK. apply (D c q P).
  - intros c q P. apply PX in P as [P N]. rewrite OW. apply (E c q P).
  - intros c q P. apply PX in P as [P N]. rewrite ON by assumption. apply (F c q P).
  - intros c P K1 K2. rewrite KK in K1, K2. destruct (Nat.eq_dec c o) as [->|N].
    + apply OO, (E o p PO).
    + rewrite ON by assumption. rewrite PP in P by assumption. apply G; assumption.
Qed.
Lemma nkind_eqb_eq : forall a b, nkind_eqb a b = true -> a = b.
Proof. intros a b; destruct a, b; intro E; try discriminate; reflexivity. Qed.
Lemma nkind_eqb_refl : forall a, nkind_eqb a a = true.
Proof. intros []; reflexivity. Qed.
Lemma opt_eqb_eq : forall a b, opt_eqb a b = true -> a = b.
Proof. intros [a|] [b|]; cbn; intro E; try discriminate; [apply Nat.eqb_eq in E; congruence|reflexivity]. Qed.

(** Other members changed: links and typing stay. *)
Lemma good_ext : forall h h', same_links h h' ->
  (forall i, n_kind (h' i) = n_kind (h i) /\ n_owner (h' i) = n_owner (h i) /\ n_orphan (h' i) = n_orphan (h i)) ->
  good h -> good h'.
Proof.
  intros h h' S I [L [A B C D E F G]].
  assert (KK : forall i, n_kind (h' i) = n_kind (h i)) by (intro i; apply I).
  assert (OW : forall i, n_owner (h' i) = n_owner (h i)) by (intro i; apply I).
  assert (OO : forall i, n_orphan (h' i) = n_orphan (h i)) by (intro i; apply I).
  assert (PP : forall i, n_parent (h' i) = n_parent (h i)) by (intro i; apply S).
  split; [apply links_same with h; auto|].
  constructor; intros *; rewrite ?KK, ?OW, ?OO, ?PP; auto; [apply A|apply D|apply E|apply F].
Qed.

Lemma vremove_spec : forall h p o h' r, good h -> vremove h p (Some o) = Ok h' r ->
  removed h h' p o /\ good h' /\ r = Some o /\ n_parent (h o) = Some p
  /\ (n_kind (h p) = KDocument -> n_doctype (h p) <> Some o).
Proof.
  intros h p o h' r [L T] E. unfold vremove in E.
  destruct (childless (n_kind (h p))) eqn:CL; [discriminate|].
  assert (PO : forall h1 r1, do_remove h p (Some o) = Ok h1 r1 -> n_parent (h o) = Some p).
  { intros h1 r1 E1. destruct (do_remove_detached _ _ _ _ _ L E1) as ([(a & b & K & _)] & _).
    apply (l_parent h L). rewrite K. apply in_or_app; right; left; reflexivity. }
  destruct (has_kind h p KDocument) eqn:KD.
  - destruct (opt_eqb (n_doctype (h p)) (Some o)) eqn:DT; [discriminate|].
    destruct (do_remove h p (Some o)) as [h1 r1| |] eqn:DR; cbn [rbind] in E; try discriminate.
    destruct (do_remove_detached _ _ _ _ _ L DR) as (DD & L1 & -> & _).
    assert (T1 : typed h1) by (apply detached_typed with h p o; eauto).
    assert (IN := d_info _ _ _ _ DD).
    assert (DE : forall i, n_docel (h1 i) = n_docel (h i)) by (intro i; specialize (IN i); unfold info in IN; congruence).
    assert (DTY : forall i, n_doctype (h1 i) = n_doctype (h i)) by (intro i; specialize (IN i); unfold info in IN; congruence).
    assert (PP : forall i, n_parent (h1 i) = if Nat.eqb i o then None else n_parent (h i)).
    { intro i. destruct (Nat.eqb_spec i o) as [->|N]; [apply (d_parent _ _ _ _ DD)|apply (d_parents _ _ _ _ DD), N]. }
    rewrite DE in E. destruct (opt_eqb (n_docel (h p)) (Some o)) eqn:OE; injection E as <- <-.
    + split; [|split; [|split; [reflexivity|split; [eauto|]]]].
      * constructor.
        -- destruct (d_kids _ _ _ _ DD) as (a & b & K1 & K2). exists a, b. split; [exact K1|].
           rewrite upd_at. cbn. rewrite if_same. exact K2.
        -- intros i N. rewrite upd_at. cbn. rewrite if_same. apply (d_others _ _ _ _ DD), N.
        -- intro i. rewrite upd_at. cbn. rewrite if_same. apply PP.
        -- intro i. rewrite upd_at. unfold static. cbn. rewrite if_same. apply info_static, IN.
        -- intro i. rewrite upd_at. cbn. rewrite if_same. apply info_owner, IN.
        -- intro i. rewrite upd_at. cbn. rewrite if_same. apply DTY.
        -- intro i. rewrite upd_at. cbn. rewrite KD, OE, andb_true_r. cbn. rewrite andb_true_r.
           destruct (Nat.eqb i p); [reflexivity|apply DE].
      * apply good_ext with h1; [| |split; assumption].
        -- intro i. rewrite !upd_at. cbn. rewrite !if_same. auto.
        -- intro i. rewrite !upd_at. cbn. rewrite !if_same. auto.
      * intros _ X. rewrite X in DT. cbn in DT. rewrite Nat.eqb_refl in DT. discriminate.
    + split; [|split; [split; assumption|split; [reflexivity|split; [eauto|]]]].
      * constructor; auto.
        -- apply (d_kids _ _ _ _ DD).
        -- apply (d_others _ _ _ _ DD).
        -- intro i. apply info_static, IN.
        -- intro i. apply info_owner, IN.
        -- intro i. rewrite OE, andb_false_r. apply DE.
      * intros _ X. rewrite X in DT. cbn in DT. rewrite Nat.eqb_refl in DT. discriminate.
  - destruct (do_remove_detached _ _ _ _ _ L E) as (DD & L1 & -> & _).
    assert (T1 : typed h') by (apply detached_typed with h p o; eauto).
    assert (IN := d_info _ _ _ _ DD).
    split; [|split; [split; assumption|split; [reflexivity|split; [eauto|]]]].
    + constructor.
      * apply (d_kids _ _ _ _ DD).
      * apply (d_others _ _ _ _ DD).
      * intro i. destruct (Nat.eqb_spec i o) as [->|N]; [apply (d_parent _ _ _ _ DD)|apply (d_parents _ _ _ _ DD), N].
      * intro i. apply info_static, IN.
      * intro i. apply info_owner, IN.
      * intro i. specialize (IN i). unfold info in IN. congruence.
      * intro i. rewrite KD, andb_false_r. cbn. specialize (IN i). unfold info in IN. congruence.
    + unfold has_kind in KD. intro X. rewrite X in KD. discriminate.
Qed.
Lemma vremove_ex : forall h p o e h', vremove h p o = Ex e h' -> h' = h.
Proof.
  intros h p o e h' E. unfold vremove in E. destruct (childless _); [congruence|].
  assert (G : do_remove h p o = Ex e h' -> h' = h).
  { unfold do_remove. destruct (n_ro _); [congruence|]. destruct o as [o|]; [|congruence].
    destruct (erase _ _); congruence. }
  destruct (has_kind h p KDocument); [|auto].
  destruct (opt_eqb _ _); [congruence|].
  destruct (do_remove h p o) as [h1 r1|e1 h1|] eqn:D; cbn [rbind] in E; [|injection E as -> ->; auto|discriminate].
  destruct (opt_eqb _ _); discriminate.
Qed.
Lemma vremove_div : forall h p o, vremove h p o <> Div.
Proof.
  intros h p o E. unfold vremove in E. destruct (childless _); [congruence|].
  assert (G : do_remove h p o <> Div).
  { unfold do_remove. destruct (n_ro _); [congruence|]. destruct o as [o|]; [|congruence].
    destruct (erase _ _); congruence. }
  destruct (has_kind h p KDocument); [|auto].
  destruct (opt_eqb _ _); [congruence|].
  destruct (do_remove h p o) as [h1 r1|e1 h1|] eqn:D; cbn [rbind] in E; try discriminate; [|auto].
  destruct (opt_eqb _ _); discriminate.
Qed.

(** * Insertion *)
Lemma without_notin : forall x l, ~ In x l -> without x l = l.
Proof.
  intros x; induction l as [|y l IH]; intro N; [reflexivity|]. unfold without in *. cbn.
  destruct (Nat.eqb_spec y x) as [->|]; [exfalso; apply N; left; reflexivity|]. cbn. f_equal. apply IH.
  intro I; apply N; right; exact I.
Qed.
Lemma without_app : forall x a b, without x (a ++ b) = without x a ++ without x b.
Proof. intros. apply filter_app. Qed.
Lemma without_mid : forall x a b, NoDup (a ++ x :: b) -> without x (a ++ x :: b) = a ++ b.
Proof.
  intros x a b ND. destruct (nodup_mid _ _ _ ND) as (_ & A & B & _).
  rewrite without_app, (without_notin x a A). f_equal. unfold without. cbn. rewrite Nat.eqb_refl. cbn.
  apply without_notin, B.
Qed.
Lemma without_in : forall x y l, In y (without x l) <-> In y l /\ y <> x.
Proof.
  intros x y l. unfold without. rewrite filter_In. rewrite negb_true_iff, Nat.eqb_neq. tauto.
Qed.

Record moved_out (h h1 : heap) (new : nat) : Prop := {
  mo_kids : forall i, n_kids (h1 i) = without new (n_kids (h i));
  mo_parents : forall i, n_parent (h1 i) = if Nat.eqb i new then None else n_parent (h i);
  mo_static : forall i, static (h1 i) = static (h i);
  mo_owner : forall i, n_owner (h1 i) = n_owner (h i);
  mo_doctype : forall i, n_doctype (h1 i) = n_doctype (h i);
  mo_docel : forall i, n_docel (h1 i) =
    if opt_eqb (n_parent (h new)) (Some i) && has_kind h i KDocument && opt_eqb (n_docel (h i)) (Some new)
    then None else n_docel (h i);
  mo_kept : forall d, n_parent (h new) = Some d -> n_kind (h d) = KDocument -> n_doctype (h d) <> Some new }.

Lemma removed_moved : forall h h1 p new, links h -> n_parent (h new) = Some p ->
  (n_kind (h p) = KDocument -> n_doctype (h p) <> Some new) -> removed h h1 p new -> moved_out h h1 new.
Proof.
  intros h h1 p new L P KP [(a & b & K1 & K2) KO PP ST OW DT DE]. constructor; auto.
  - intro i. destruct (Nat.eq_dec i p) as [->|N].
    + rewrite K1, K2, without_mid; [reflexivity|]. rewrite <- K1. apply (l_nodup h L).
    + rewrite KO by assumption. rewrite without_notin; [reflexivity|].
      intro I. apply (l_parent h L) in I. congruence.
  - intro i. rewrite DE, P. cbn. destruct (Nat.eqb_spec i p) as [->|N]; cbn.
    + rewrite Nat.eqb_refl. reflexivity.
    + apply not_eq_sym, Nat.eqb_neq in N. rewrite N. reflexivity.
  - intros d E. rewrite P in E. injection E as <-. exact KP.
Qed.
Lemma out_spec : forall h new h1 u, good h -> remove_if_required h new = Ok h1 u ->
  good h1 /\ moved_out h h1 new.
Proof.
  intros h new h1 u G E. unfold remove_if_required in E. rewrite hidden_parent in E by apply G.
  destruct (n_parent (h new)) as [p|] eqn:P.
  - destruct (vremove h p (Some new)) as [h2 r| |] eqn:V; cbn [rbind] in E; try discriminate.
    injection E as <- _. destruct (vremove_spec _ _ _ _ _ G V) as (R & G1 & _ & _ & KP).
    split; [exact G1|]. apply removed_moved with p; auto. apply G.
  - injection E as <- _. split; [exact G|]. constructor; auto.
    + intro i. rewrite without_notin; [reflexivity|]. intro I. apply (l_parent h (proj1 G)) in I. congruence.
    + intro i. destruct (Nat.eqb_spec i new) as [->|]; auto.
    + intro i. rewrite P. reflexivity.
    + intros d X. congruence.
Qed.
Lemma out_ex : forall h new e h1, remove_if_required h new = Ex e h1 -> h1 = h.
Proof.
  intros h new e h1 E. unfold remove_if_required in E. destruct (get_parent h new) as [p|]; [|discriminate].
  destruct (vremove h p (Some new)) eqn:V; cbn [rbind] in E; try discriminate.
  injection E as -> ->. apply vremove_ex in V. exact V.
Qed.
Lemma out_div : forall h new, remove_if_required h new <> Div.
Proof.
  intros h new E. unfold remove_if_required in E. destruct (get_parent h new) as [p|]; [|discriminate].
  destruct (vremove h p (Some new)) eqn:V; cbn [rbind] in E; try discriminate.
  apply (vremove_div _ _ _ V).
Qed.
Lemma upward_less : forall h h1, (forall i p, n_parent (h1 i) = Some p -> n_parent (h i) = Some p) ->
  forall a b, upward h1 a b -> upward h a b.
Proof.
  intros h h1 P a b U. induction U as [n|n p a PN U IH]; [apply up_self|].
  apply up_step with p; auto.
Qed.

Lemma insert_at_split : forall x new l l', insert_at x new l = Some l' ->
  exists a b, l = a ++ x :: b /\ l' = a ++ new :: x :: b /\ ~ In x a.
Proof.
  intros x new; induction l as [|y l IH]; cbn; intros l' E; [discriminate|].
  destruct (Nat.eqb_spec y x) as [->|N].
  - injection E as <-. exists [], l. auto.
  - destruct (insert_at x new l) as [l1|]; [|discriminate]. injection E as <-.
    destruct (IH l1 eq_refl) as (a & b & -> & -> & NI). exists (y :: a), b. repeat split; auto.
    intros [->|I]; [apply N; reflexivity|apply NI, I].
Qed.
Lemma insert_at_put : forall x new l l', insert_at x new l = Some l' -> l' = put_before x new l.
Proof.
  intros x new; induction l as [|y l IH]; cbn; intros l' E; [discriminate|].
  destruct (Nat.eqb y x); [congruence|]. destruct (insert_at x new l) as [l1|]; [|discriminate].
  injection E as <-. f_equal. apply IH. reflexivity.
Qed.
Lemma insert_at_none : forall x new l, insert_at x new l = None <-> ~ In x l.
Proof.
  intros x new; induction l as [|y l IH]; cbn; [tauto|].
  destruct (Nat.eqb_spec y x) as [->|N]; [split; [discriminate|intros X; exfalso; apply X; auto]|].
  destruct (insert_at x new l); split; try discriminate; intuition congruence.
Qed.
Lemma replace_at_split : forall x new l l', replace_at x new l = Some l' ->
  exists a b, l = a ++ x :: b /\ l' = a ++ new :: b /\ ~ In x a.
Proof.
  intros x new; induction l as [|y l IH]; cbn; intros l' E; [discriminate|].
  destruct (Nat.eqb_spec y x) as [->|N].
  - injection E as <-. exists [], l. auto.
  - destruct (replace_at x new l) as [l1|]; [|discriminate]. injection E as <-.
    destruct (IH l1 eq_refl) as (a & b & -> & -> & NI). exists (y :: a), b. repeat split; auto.
    intros [->|I]; [apply N; reflexivity|apply NI, I].
Qed.
Lemma replace_at_none : forall x new l, replace_at x new l = None <-> ~ In x l.
Proof.
  intros x new; induction l as [|y l IH]; cbn; [tauto|].
  destruct (Nat.eqb_spec y x) as [->|N]; [split; [discriminate|intros X; exfalso; apply X; auto]|].
  destruct (replace_at x new l); split; try discriminate; intuition congruence.
Qed.
Lemma last_opt_lastof : forall l, last_opt l = lastof l None.
Proof.
  assert (G : forall (l : list nat) x, last_opt (x :: l) = lastof l (Some x)).
  { induction l as [|y l IH]; intro x; [reflexivity|]. cbn [lastof]. rewrite <- IH. reflexivity. }
  intros [|x l]; [reflexivity|apply G].
Qed.

(** A node put into a child list, the owner being known and the node detached. *)
Lemma attach_good : forall h h' p n a b, good h ->
  n_parent (h n) = None -> ~ upward h p n -> attached h h' p n a b ->
  can_have_parent (n_kind (h n)) = true -> n_owner (h n) <> None -> childless (n_kind (h p)) = false ->
  (forall i, info (h' i) = info (h i)) ->
  (forall i, n_orphan (h' i) = if Nat.eqb i n then false else n_orphan (h i)) ->
  good h'.
Proof.
  intros h h' p n a b [L T] PN UP AT CP OW CL IN OR.
  split; [apply attach_links with h p n a b; auto|].
  assert (KK : forall i, n_kind (h' i) = n_kind (h i)) by (intro i; apply info_kind, IN).
  assert (OW1 : forall i, n_owner (h' i) = n_owner (h i)) by (intro i; apply info_owner, IN).
  assert (PP := at_parents _ _ _ _ _ _ AT).
  destruct T as [A B C D E F G]. constructor.
  - intros c q. rewrite PP, KK. destruct (Nat.eqb_spec c n) as [->|]; [intros _; exact CP|apply A].
  - intro d. rewrite KK, OW1. apply B.
  - intro i. rewrite KK, OW1. apply C.
  - intros c q. rewrite PP, KK. destruct (Nat.eqb_spec c n) as [->|]; [|apply D]. intro X; injection X as <-. exact CL.
  - intros c q. rewrite PP, OW1. destruct (Nat.eqb_spec c n) as [->|]; [intros _; exact OW|apply E].
  - intros c q. rewrite PP, OR. destruct (Nat.eqb c n); [reflexivity|apply F].
  - intros c. rewrite PP, OR, KK. destruct (Nat.eqb c n); [discriminate|apply G].
Qed.

(** The observable effect of putting [new] into [this]. *)
Record placed (h h' : heap) (this new : nat) (list' : list nat) : Prop := {
  p_kids : n_kids (h' this) = list';
  p_others : forall i, i <> this -> n_kids (h' i) = without new (n_kids (h i));
  p_static : forall i, static (h' i) = static (h i);
  p_doctype : forall i, n_doctype (h' i) = n_doctype (h i);
  p_docel : forall i, n_docel (h' i) =
    if opt_eqb (n_parent (h new)) (Some i) && has_kind h i KDocument && opt_eqb (n_docel (h i)) (Some new)
    then None else n_docel (h i);
  p_kept : forall d, n_parent (h new) = Some d -> n_kind (h d) = KDocument -> n_doctype (h d) <> Some new;
  p_owner : forall i, i <> new -> n_owner (h' i) = n_owner (h i);
  p_kind : can_have_parent (n_kind (h new)) = true }.

Lemma insert_node_spec : forall f h this new ref h' r, good h ->
  childless (n_kind (h this)) = false -> (n_kind (h new) = KDocument -> this <> new) ->
  insert_node f h this new ref = Ok h' r ->
  good h' /\ r = new /\ placed h h' this new (put ref new (without new (n_kids (h this))))
  /\ (forall i, n_parent (h' i) = if Nat.eqb i new then Some this else n_parent (h i))
  /\ ref_ok h this new ref.
Proof.
  intros f h this new ref h' r G CL ND E. unfold insert_node in E.
  destruct (check_can_add f h this new) as [h1 u1| |] eqn:CA; cbn [rbind] in E; try discriminate.
  destruct (can_add_spec _ _ _ _ _ _ G CL ND CA) as (S1 & G1 & ST1 & DD1 & OW1 & ON1 & UP1 & CP & _).
  destruct (remove_if_required h1 new) as [h2 u2| |] eqn:RR; cbn [rbind] in E; try discriminate.
  destruct (out_spec _ _ _ _ G1 RR) as (G2 & [K2 P2 ST2 OW2 DT2 DE2 KP2]).
  assert (KT : forall i, n_kids (h2 i) = without new (n_kids (h i))).
  { intro i. rewrite K2. f_equal. apply S1. }
  assert (KD : forall i, n_kind (h1 i) = n_kind (h i)) by (intro i; apply static_kind, ST1).
  assert (KD2 : forall i, n_kind (h2 i) = n_kind (h i)).
  { intro i. rewrite <- KD. apply static_kind, ST2. }
  assert (PN : n_parent (h2 new) = None) by (rewrite P2, Nat.eqb_refl; reflexivity).
  assert (UP2 : ~ upward h2 this new).
  { intro U. apply UP1. revert U. apply upward_less. intros i p. rewrite P2. destruct (Nat.eqb i new); [discriminate|auto]. }
  assert (OW : n_owner (h2 new) <> None) by (rewrite OW2; exact ON1).
  assert (FIN : forall a b h', attached h2 h' this new a b ->
    (forall i, info (h' i) = info (h2 i)) ->
    (forall i, n_orphan (h' i) = if Nat.eqb i new then false else n_orphan (h2 i)) ->
    a ++ new :: b = put ref new (without new (n_kids (h this))) ->
    good h' /\ placed h h' this new (put ref new (without new (n_kids (h this))))
    /\ (forall i, n_parent (h' i) = if Nat.eqb i new then Some this else n_parent (h i))).
  { intros a b h0 AT IN OR LE. split; [|split].
    - apply attach_good with h2 this new a b; auto.
      + rewrite KD2; exact CP.
      + rewrite KD2; exact CL.
    - constructor.
      + rewrite (at_kids' _ _ _ _ _ _ AT). exact LE.
      + intros i N. rewrite (at_others _ _ _ _ _ _ AT) by assumption. apply KT.
      + intro i. rewrite (info_static _ _ (IN i)), ST2. apply ST1.
      + intro i. assert (X := IN i). transitivity (n_doctype (h2 i)); [unfold info in X; congruence|].
        rewrite DT2. apply DD1.
      + intro i. assert (X := IN i). transitivity (n_docel (h2 i)); [unfold info in X; congruence|].
        rewrite DE2. unfold has_kind. rewrite KD. destruct (S1 new) as (_ & -> & _). rewrite !(proj1 (DD1 i)). reflexivity.
      + intros d. rewrite <- KD. destruct (S1 new) as (_ & <- & _). rewrite <- (proj2 (DD1 d)). apply KP2.
      + intros i N. rewrite (info_owner _ _ (IN i)), OW2. apply OW1, N.
      + exact CP.
    - intro i. rewrite (at_parents _ _ _ _ _ _ AT), P2. destruct (Nat.eqb_spec i new) as [->|]; [reflexivity|]. apply S1. }
  destruct ref as [rf|].
  - destruct (insert_at rf new (n_kids (h2 this))) as [l|] eqn:IA; [|discriminate].
    injection E as <- <-.
    destruct (insert_at_split _ _ _ _ IA) as (a & b & KA & -> & NA).
    assert (RI : In rf (n_kids (h2 this))) by (rewrite KA; apply in_or_app; right; left; reflexivity).
    rewrite KT in RI. apply without_in in RI.
    assert (CP2 := l_chain h2 (proj1 G2) this). rewrite KA in CP2. apply chain_app in CP2 as [_ CP2].
    cbn [chain] in CP2. destruct CP2 as (PVr & _).
    match goal with |- good ?H /\ _ => destruct (FIN a (rf :: b) H) as (F1 & F2 & F3) end.
    + assert (RN : (rf =? new)%nat = false) by (apply Nat.eqb_neq; apply RI).
      constructor.
      * exact KA.
      * autorewrite with hp. rewrite Nat.eqb_refl. reflexivity.
      * intros i N. autorewrite with hp. apply Nat.eqb_neq in N. rewrite N. reflexivity.
      * intro i. autorewrite with hp. reflexivity.
      * intro j. autorewrite with hp. rewrite PVr. reflexivity.
      * intro j. autorewrite with hp. rewrite PVr. cbn [first is].
        destruct (Nat.eqb_spec j new) as [->|]; [|reflexivity].
        rewrite (Nat.eqb_sym new rf), RN. reflexivity.
    + intro i. autorewrite with hp. reflexivity.
    + intro i. autorewrite with hp. rewrite PN.
      match goal with |- context[n_owner ?x] => assert (EO : n_owner x = n_owner (h2 new)) end.
      { apply info_owner. autorewrite with hp. reflexivity. }
      rewrite EO. destruct (n_owner (h2 new)); [reflexivity|contradiction].
    + cbn [put]. rewrite <- KT. exact (insert_at_put _ _ _ _ IA).
    + split; [exact F1|]. split; [reflexivity|]. split; [exact F2|]. split; [exact F3|]. exact RI.
  - assert (CP2 := l_chain h2 (proj1 G2) this).
    assert (LO := l_lone h2 (proj1 G2) new PN).
    assert (NI : ~ In new (n_kids (h2 this))) by (rewrite KT, without_in; tauto).
    injection E as <- <-.
    match goal with |- good ?H /\ _ => destruct (FIN (n_kids (h2 this)) [] H) as (F1 & F2 & F3) end.
    + assert (LC : last_child h2 this = lastof (n_kids (h2 this)) None) by apply last_opt_lastof.
      assert (LN : forall l, lastof (n_kids (h2 this)) None = Some l -> (new =? l)%nat = false).
      { intros l X. apply Nat.eqb_neq. intros <-. apply lastof_in in X as [X|[_ X]]; [auto|discriminate]. }
      rewrite LC. destruct (lastof (n_kids (h2 this)) None) as [l|] eqn:LL.
      * constructor; autorewrite with hp; rewrite ?app_nil_r, ?Nat.eqb_refl; auto.
        -- intros i N. autorewrite with hp. apply Nat.eqb_neq in N. rewrite N. reflexivity.
        -- intro i. autorewrite with hp. reflexivity.
        -- intro j. autorewrite with hp. rewrite LL. cbn [first is]. destruct (Nat.eqb_spec j new) as [->|]; [|reflexivity].
           rewrite (LN l eq_refl). apply LO.
        -- intro j. autorewrite with hp. rewrite LL. cbn [first is]. reflexivity.
      * constructor; autorewrite with hp; rewrite ?app_nil_r, ?Nat.eqb_refl; auto.
        -- intros i N. autorewrite with hp. apply Nat.eqb_neq in N. rewrite N. reflexivity.
        -- intro i. autorewrite with hp. reflexivity.
        -- intro j. autorewrite with hp. rewrite LL. cbn [first is]. destruct (Nat.eqb_spec j new) as [->|]; [apply LO|reflexivity].
        -- intro j. autorewrite with hp. rewrite LL. cbn [first is]. destruct (Nat.eqb_spec j new) as [->|]; [apply LO|reflexivity].
    + intro i. destruct (last_child h2 this); autorewrite with hp; reflexivity.
    + intro i. autorewrite with hp.
      match goal with |- context[n_owner ?x] => assert (EO : n_owner x = n_owner (h2 new)) end.
      { apply info_owner. destruct (last_child h2 this); autorewrite with hp; reflexivity. }
      rewrite EO.
      assert (X : forall j, n_orphan ((match last_child h2 this with Some l => set_prev (set_next h2 l (Some new)) new (Some l) | None => h2 end) j) = n_orphan (h2 j)
        /\ n_parent ((match last_child h2 this with Some l => set_prev (set_next h2 l (Some new)) new (Some l) | None => h2 end) j) = n_parent (h2 j)).
      { intro j. destruct (last_child h2 this); autorewrite with hp; auto. }
      rewrite (proj1 (X i)), (proj2 (X new)), PN. destruct (n_owner (h2 new)); [reflexivity|contradiction].
    + cbn [put]. rewrite KT. reflexivity.
    + split; [exact F1|]. split; [reflexivity|]. split; [exact F2|]. split; [exact F3|]. exact I.
Qed.

Lemma put_for_mid : forall a b old new, NoDup (a ++ old :: b) -> put_for old new (a ++ old :: b) = a ++ new :: b.
Proof.
  intros a b old new ND. destruct (nodup_mid _ _ _ ND) as (_ & A & B & _).
  assert (G : forall l, ~ In old l -> put_for old new l = l).
  { induction l as [|y l IH]; cbn; intro N; [reflexivity|].
    destruct (Nat.eqb_spec y old) as [->|]; [exfalso; auto|]. f_equal. apply IH. auto. }
  unfold put_for. rewrite map_app. cbn [map]. rewrite Nat.eqb_refl. f_equal; [apply (G a A)|].
  f_equal. apply (G b B).
Qed.
Lemma erase_mid : forall a b x, ~ In x a -> erase x (a ++ x :: b) = Some (a ++ b).
Proof.
  induction a as [|y a IH]; intros b x N; cbn.
  - rewrite Nat.eqb_refl. reflexivity.
  - destruct (Nat.eqb_spec y x) as [->|]; [exfalso; apply N; left; reflexivity|].
    rewrite IH; [reflexivity|]. intro I; apply N; right; exact I.
Qed.

Lemma replace_node_spec : forall f h this new old h' r, good h ->
  childless (n_kind (h this)) = false -> (n_kind (h new) = KDocument -> this <> new) ->
  n_ro (h this) = false ->
  replace_node f h this new old = Ok h' r ->
  good h' /\ r = old /\ placed h h' this new (put_for old new (without new (n_kids (h this))))
  /\ (forall i, n_parent (h' i) = if Nat.eqb i new then Some this else if Nat.eqb i old then None else n_parent (h i))
  /\ In old (n_kids (h this)) /\ old <> new.
Proof.
  intros f h this new old h' r G CL ND RO E. unfold replace_node in E.
  destruct (check_can_add f h this new) as [h1 u1| |] eqn:CA; cbn [rbind] in E; try discriminate.
  destruct (can_add_spec _ _ _ _ _ _ G CL ND CA) as (S1 & G1 & ST1 & DD1 & OW1 & ON1 & UP1 & CP & _).
  destruct (remove_if_required h1 new) as [h2 u2| |] eqn:RR; cbn [rbind] in E; try discriminate.
  destruct (out_spec _ _ _ _ G1 RR) as (G2 & [K2 P2 ST2 OW2 DT2 DE2 KP2]).
  assert (KT : forall i, n_kids (h2 i) = without new (n_kids (h i))).
  { intro i. rewrite K2. f_equal. apply S1. }
  assert (KD : forall i, n_kind (h1 i) = n_kind (h i)) by (intro i; apply static_kind, ST1).
  assert (KD2 : forall i, n_kind (h2 i) = n_kind (h i)).
  { intro i. rewrite <- KD. apply static_kind, ST2. }
  assert (PN : n_parent (h2 new) = None) by (rewrite P2, Nat.eqb_refl; reflexivity).
  assert (UP2 : ~ upward h2 this new).
  { intro U. apply UP1. revert U. apply upward_less. intros i p. rewrite P2. destruct (Nat.eqb i new); [discriminate|auto]. }
  assert (OW : n_owner (h2 new) <> None) by (rewrite OW2; exact ON1).
  destruct (replace_at old new (n_kids (h2 this))) as [l|] eqn:RA; [|discriminate].
  injection E as <- <-.
  destruct (replace_at_split _ _ _ _ RA) as (a & b & KA & -> & NA).
  assert (NDK := l_nodup h2 (proj1 G2) this). rewrite KA in NDK.
  destruct (nodup_mid _ _ _ NDK) as (NDab & Oa & Ob & NDa & NDb & DJ).
  assert (RI : In old (n_kids (h2 this))) by (rewrite KA; apply in_or_app; right; left; reflexivity).
  assert (PO : n_parent (h2 old) = Some this) by (apply (l_parent h2 (proj1 G2)), RI).
  rewrite KT in RI. apply without_in in RI.
  assert (NI : ~ In new (a ++ b)).
  { intro I. assert (J : In new (n_kids (h2 this))).
    { rewrite KA. apply in_app_or in I as [I|I]; apply in_or_app; [left|right; right]; exact I. }
    rewrite KT in J. apply without_in in J. destruct J; congruence. }
  assert (RO2 : n_ro (h2 this) = false).
  { rewrite (static_ro _ _ (ST2 this)), (static_ro _ _ (ST1 this)). exact RO. }
  destruct (do_remove h2 this (Some old)) as [h3 r3| |] eqn:DR.
  2, 3: exfalso; unfold do_remove in DR; rewrite RO2, KA, (erase_mid _ _ _ NA) in DR; discriminate.
  destruct (do_remove_detached _ _ _ _ _ (proj1 G2) DR) as (DD & L3 & _ & _).
  assert (T3 : typed h3) by (apply detached_typed with h2 this old; auto; apply G2).
  assert (CP2 := l_chain h2 (proj1 G2) this). rewrite KA in CP2. apply chain_app in CP2 as [_ CP2].
  cbn [chain] in CP2. destruct CP2 as (PVo & NXo & _).
  assert (H3 : (forall j, n_next (h3 j) = if Nat.eqb j old then None else
              if is (lastof a None) j then first b None else n_next (h2 j))
            /\ (forall j, n_prev (h3 j) = if Nat.eqb j old then None else
              if is (first b None) j then lastof a None else n_prev (h2 j))
            /\ (forall j, n_kids (h3 j) = if Nat.eqb j this then a ++ b else n_kids (h2 j))
            /\ (forall j, n_orphan (h3 j) = if Nat.eqb j old then true else n_orphan (h2 j))).
  { assert (OO : n_owner (h2 old) <> None) by apply (t_inside h2 (proj2 G2) old this PO).
    split; [|split; [|split]].
    4: { intro j. destruct (Nat.eqb_spec j old) as [->|N]; [apply (d_orphan_o _ _ _ _ DD), OO|apply (d_orphan _ _ _ _ DD), N]. }
    all: unfold do_remove in DR; rewrite RO2, KA, (erase_mid _ _ _ NA) in DR; injection DR as <- _; intro j;
      autorewrite with hp; rewrite ?PVo, ?NXo; reflexivity. }
  destruct H3 as (NX3 & PV3 & K3 & OR3).
  assert (P3 : forall i, n_parent (h3 i) = if Nat.eqb i old then None else n_parent (h2 i)).
  { intro i. destruct (Nat.eqb_spec i old) as [->|N]; [apply (d_parent _ _ _ _ DD)|apply (d_parents _ _ _ _ DD), N]. }
  assert (IN3 := d_info _ _ _ _ DD).
  assert (ON : (old =? new)%nat = false) by (apply Nat.eqb_neq; apply RI).
  assert (NO : (new =? old)%nat = false) by (rewrite Nat.eqb_sym; exact ON).
  assert (LN : is (lastof a None) new = false).
  { destruct (lastof a None) as [z|] eqn:L; cbn; [|reflexivity]. apply Nat.eqb_neq. intros <-.
    apply lastof_in in L as [L|[_ L]]; [apply NI, in_or_app; auto|discriminate]. }
  assert (FN : is (first b None) new = false).
  { destruct b as [|y b]; cbn; [reflexivity|]. apply Nat.eqb_neq. intros <-. apply NI, in_or_app. right; left; reflexivity. }
  assert (LO : is (lastof a None) old = false).
  { destruct (lastof a None) as [z|] eqn:L; cbn; [|reflexivity]. apply Nat.eqb_neq. intros <-.
    apply lastof_in in L as [L|[_ L]]; [auto|discriminate]. }
  assert (FO : is (first b None) old = false).
  { destruct b as [|y b]; cbn; [reflexivity|]. apply Nat.eqb_neq. intros <-. apply Ob. left; reflexivity. }
  match goal with |- good ?H /\ _ => set (h' := H) end.
  assert (IN : forall i, info (h' i) = info (h2 i)) by (intro i; unfold h'; autorewrite with hp; reflexivity).
  assert (KK' : forall i, n_kids (h' i) = if Nat.eqb i this then a ++ new :: b else n_kids (h2 i)).
  { intro i. unfold h'. autorewrite with hp. reflexivity. }
  assert (PP' : forall i, n_parent (h' i) = if Nat.eqb i old then None else if Nat.eqb i new then Some this else n_parent (h2 i)).
  { intro i. unfold h'. autorewrite with hp. reflexivity. }
  assert (AT : attached h3 h' this new a b).
  { constructor.
    - rewrite K3, Nat.eqb_refl. reflexivity.
    - rewrite KK', Nat.eqb_refl. reflexivity.
    - intros i N. rewrite KK', K3. apply Nat.eqb_neq in N. rewrite N. reflexivity.
    - intro i. rewrite PP', P3. destruct (Nat.eqb_spec i old) as [->|]; [rewrite ON; reflexivity|reflexivity].
    - intro j. rewrite NX3. unfold h'. autorewrite with hp. rewrite PVo, NXo.
      destruct (Nat.eqb_spec j old) as [->|]; [rewrite ON, LO; reflexivity|].
      destruct (Nat.eqb_spec j new) as [->|]; [rewrite LN; reflexivity|].
      destruct (is (lastof a None) j); reflexivity.
    - intro j. rewrite PV3. unfold h'. autorewrite with hp. rewrite PVo, NXo.
      destruct (Nat.eqb_spec j old) as [->|]; [rewrite ON, FO; reflexivity|].
      destruct (Nat.eqb_spec j new) as [->|]; [rewrite FN; reflexivity|].
      destruct (is (first b None) j); reflexivity. }
  assert (OWp : forall i, n_owner (h3 i) = n_owner (h2 i)) by (intro i; apply info_owner, IN3).
  split; [|split; [reflexivity|split; [|split; [|exact RI]]]].
  - apply attach_good with h3 this new a b; auto.
    + split; assumption.
    + rewrite P3, NO. exact PN.
    + intro U. apply UP2. revert U. apply upward_less. intros i p. rewrite P3. destruct (Nat.eqb i old); [discriminate|auto].
    + rewrite (info_kind _ _ (IN3 new)), KD2. exact CP.
    + rewrite OWp. exact OW.
    + rewrite (info_kind _ _ (IN3 this)), KD2. exact CL.
    + intro i. rewrite IN3. apply IN.
    + intro i. rewrite OR3. unfold h'. autorewrite with hp. rewrite PN, ?Nat.eqb_refl.
      match goal with |- context[n_owner ?x] => assert (EO : n_owner x = n_owner (h2 old)) end.
      { apply info_owner. autorewrite with hp. reflexivity. }
      rewrite EO.
      assert (OO : n_owner (h2 old) <> None) by apply (t_inside h2 (proj2 G2) old this PO).
      match goal with |- context[n_owner ?x] => match x with set_kids _ _ _ _ => assert (EN : n_owner x = n_owner (h2 new)) end end.
      { apply info_owner. autorewrite with hp. reflexivity. }
      rewrite EN, ON, PO.
      destruct (n_owner (h2 old)); [|contradiction]. destruct (n_owner (h2 new)); [|contradiction].
      destruct (Nat.eqb_spec i old) as [->|]; [rewrite ON; reflexivity|].
      destruct (Nat.eqb i new); reflexivity.
  - constructor.
    + rewrite KK', Nat.eqb_refl, <- KT, KA. symmetry. apply put_for_mid, NDK.
    + intros i N. rewrite KK'. apply Nat.eqb_neq in N. rewrite N. apply KT.
    + intro i. rewrite (info_static _ _ (IN i)), ST2. apply ST1.
    + intro i. assert (X := IN i). transitivity (n_doctype (h2 i)); [unfold info in X; congruence|].
      rewrite DT2. apply DD1.
    + intro i. assert (X := IN i). transitivity (n_docel (h2 i)); [unfold info in X; congruence|].
      rewrite DE2. unfold has_kind. rewrite KD. destruct (S1 new) as (_ & -> & _). rewrite !(proj1 (DD1 i)). reflexivity.
    + intros d. rewrite <- KD. destruct (S1 new) as (_ & <- & _). rewrite <- (proj2 (DD1 d)). apply KP2.
    + intros i N. rewrite (info_owner _ _ (IN i)), OW2. apply OW1, N.
    + exact CP.
  - intro i. rewrite PP', P2. destruct (Nat.eqb_spec i old) as [->|N].
    + rewrite ON. reflexivity.
    + destruct (Nat.eqb_spec i new); [reflexivity|]. apply S1.
Qed.

(** * Histories keep the invariant *)
Definition step (h h' : heap) : Prop := good h' /\ (forall i, static (h' i) = static (h i)).
Lemma step_refl : forall h, good h -> step h h.
Proof. intros h G. split; auto. Qed.
Lemma step_trans : forall a b c, step a b -> step b c -> step a c.
Proof. intros a b c [_ S1] [G S2]. split; [exact G|]. intro i. rewrite S2. apply S1. Qed.
Definition res_step {A} (h : heap) (r : res A) : Prop := match r with Ok h' _ | Ex _ h' => step h h' | Div => True end.
Lemma res_step_trans : forall {A} a b (r : res A), step a b -> res_step b r -> res_step a r.
Proof. intros A a b [h x|e h|] S R; cbn in *; auto; apply step_trans with b; auto. Qed.
Lemma res_bind : forall {A B} h (r : res A) (k : heap -> A -> res B), res_step h r ->
  (forall h' a, r = Ok h' a -> step h h' -> res_step h' (k h' a)) -> res_step h (rbind r k).
Proof.
  intros A B h [h1 a|e h1|] k R K; cbn in *; auto. apply res_step_trans with h1; auto.
Qed.
Lemma check_ex : forall f h this new e h1, check_can_add f h this new = Ex e h1 -> h1 = h.
Proof.
  intros f h this new e h1 E. unfold check_can_add in E. destruct (n_owner (h new)) as [cd|]; [|discriminate].
  repeat match type of E with
         | context[if ?b then _ else _] => destruct b
         | context[match climb ?a ?b ?c ?d with _ => _ end] => destruct (climb a b c d) as [[|]|]
         end; congruence.
Qed.
Lemma check_step : forall f h this new, good h ->
  childless (n_kind (h this)) = false -> (n_kind (h new) = KDocument -> this <> new) ->
  res_step h (check_can_add f h this new).
Proof.
  intros f h this new G CL ND. destruct (check_can_add f h this new) as [h1 u1|e1 h1|] eqn:CA; [| |exact I].
  - destruct (can_add_spec _ _ _ _ _ _ G CL ND CA) as (_ & G1 & S1 & _). split; auto.
  - apply check_ex in CA. subst. apply step_refl, G.
Qed.
Lemma out_step : forall h new, good h -> res_step h (remove_if_required h new).
Proof.
  intros h new G. destruct (remove_if_required h new) as [h2 u2|e2 h2|] eqn:RR; [| |exact I].
  - destruct (out_spec _ _ _ _ G RR) as [G2 M]. split; [exact G2|apply (mo_static _ _ _ M)].
  - apply out_ex in RR. subst. apply step_refl, G.
Qed.
Lemma insert_node_step : forall f h this new ref, good h ->
  childless (n_kind (h this)) = false -> (n_kind (h new) = KDocument -> this <> new) ->
  res_step h (insert_node f h this new ref).
Proof.
  intros f h this new ref G CL ND. destruct (insert_node f h this new ref) as [h' r|e h'|] eqn:E; [| |exact I].
  - destruct (insert_node_spec _ _ _ _ _ _ _ G CL ND E) as (G' & _ & P & _). split; [exact G'|apply (p_static _ _ _ _ _ P)].
  - assert (C := check_step f h this new G CL ND). unfold insert_node in E.
    destruct (check_can_add f h this new) as [h1 u1|e1 h1|]; cbn [rbind] in E; [|injection E as -> ->; exact C|discriminate].
    assert (C2 := out_step h1 new (proj1 C)).
    destruct (remove_if_required h1 new) as [h2 u2|e2 h2|]; cbn [rbind] in E; [| |discriminate].
    + destruct ref; [|discriminate]. destruct (insert_at _ _ _); [discriminate|]. injection E as _ <-.
      apply step_trans with h1; auto.
    + injection E as -> ->. apply step_trans with h1; auto.
Qed.
Lemma replace_node_step : forall f h this new old, good h ->
  childless (n_kind (h this)) = false -> (n_kind (h new) = KDocument -> this <> new) -> n_ro (h this) = false ->
  res_step h (replace_node f h this new old).
Proof.
  intros f h this new old G CL ND RO. destruct (replace_node f h this new old) as [h' r|e h'|] eqn:E; [| |exact I].
  - destruct (replace_node_spec _ _ _ _ _ _ _ G CL ND RO E) as (G' & _ & P & _). split; [exact G'|apply (p_static _ _ _ _ _ P)].
  - assert (C := check_step f h this new G CL ND). unfold replace_node in E.
    destruct (check_can_add f h this new) as [h1 u1|e1 h1|]; cbn [rbind] in E; [|injection E as -> ->; exact C|discriminate].
    assert (C2 := out_step h1 new (proj1 C)).
    destruct (remove_if_required h1 new) as [h2 u2|e2 h2|]; cbn [rbind] in E; [| |discriminate].
    + destruct (replace_at _ _ _); [discriminate|]. injection E as _ <-. apply step_trans with h1; auto.
    + injection E as -> ->. apply step_trans with h1; auto.
Qed.
Lemma docel_step : forall h d v, good h -> step h (upd h d (set_docel_f v)).
Proof.
  intros h d v G. split.
  - revert G. apply good_ext; intro i; rewrite !upd_at; cbn; rewrite !if_same; auto.
  - intro i. rewrite upd_at. apply if_same.
Qed.
Lemma doctype_step : forall h d v, good h -> step h (upd h d (set_doctype_f v)).
Proof.
  intros h d v G. split.
  - revert G. apply good_ext; intro i; rewrite !upd_at; cbn; rewrite !if_same; auto.
  - intro i. rewrite upd_at. apply if_same.
Qed.
Lemma has_kind_eq : forall h i k, has_kind h i k = true <-> n_kind (h i) = k.
Proof.
  intros h i k. unfold has_kind. split; [apply nkind_eqb_eq|]. intros ->. apply nkind_eqb_refl.
Qed.
Lemma vremove_none : forall h p h' r, vremove h p None <> Ok h' r.
Proof.
  intros h p h' r E. unfold vremove in E. destruct (childless _); [discriminate|].
  unfold do_remove in E. destruct (n_ro _), (has_kind h p KDocument); cbn [rbind] in E; try discriminate;
    destruct (opt_eqb _ _); discriminate.
Qed.
Lemma vremove_step : forall h p o, good h -> res_step h (vremove h p o).
Proof.
  intros h p [o|] G.
  - destruct (vremove h p (Some o)) as [h' r|e h'|] eqn:E; [| |exact I].
    + destruct (vremove_spec _ _ _ _ _ G E) as (R & G1 & _). split; [exact G1|apply (r_static _ _ _ _ R)].
    + apply vremove_ex in E. subst. apply step_refl, G.
  - destruct (vremove h p None) as [h' r|e h'|] eqn:E; [| |exact I].
    + exfalso. apply (vremove_none _ _ _ _ E).
    + apply vremove_ex in E. subst. apply step_refl, G.
Qed.
Lemma vremove_child_kind : forall h p o h' r, good h -> vremove h p (Some o) = Ok h' r ->
  can_have_parent (n_kind (h' o)) = true.
Proof.
  intros h p o h' r G V. destruct (vremove_spec _ _ _ _ _ G V) as (R & G1 & _ & PC & _).
  rewrite (static_kind _ _ (r_static _ _ _ _ R o)). apply (t_child h (proj2 G) o p PC).
Qed.
Lemma not_doc : forall k (P : Prop), can_have_parent k = true -> k = KDocument -> P.
Proof. intros k P A ->. discriminate. Qed.

Lemma vinsert_step : forall f,
  (forall h this new ref, good h -> (n_kind (h new) = KDocument -> this <> new) ->
     res_step h (vinsert f h this new ref)) /\
  (forall h this frag ref, good h -> res_step h (frag_loop f h this frag ref)).
Proof.
  induction f as [|f [IH1 IH2]]; [split; intros; exact I|]. split.
  - intros h this new ref G ND. cbn [vinsert].
    assert (RF := step_refl h G).
    destruct (childless (n_kind (h this))) eqn:CL; [exact RF|].
    assert (BASE : res_step h (if n_ro (h this) then Ex NO_MODIFICATION h
        else if has_kind h new KFragment then frag_loop f h this new ref else insert_node f h this new ref)).
    { destruct (n_ro (h this)); [exact RF|]. destruct (has_kind h new KFragment); [apply IH2, G|apply insert_node_step; auto]. }
    destruct (has_kind h this KDocument); [|exact BASE].
    destruct (has_kind h new KElement && negb (opt_eqb (n_docel (h this)) None)); [exact RF|].
    destruct (has_kind h new KDocType && negb (opt_eqb (n_doctype (h this)) None)); [exact RF|].
    apply res_bind; [exact BASE|]. intros h1 r1 _ S1. cbn.
    assert (RF1 := step_refl h1 (proj1 S1)).
    destruct (has_kind h1 new KElement && opt_eqb (n_docel (h1 this)) None).
    + apply step_trans with (upd h1 this (set_docel_f (Some new))); [apply docel_step, S1|].
      match goal with |- context[if ?b then _ else _] => destruct b end;
        [apply doctype_step|apply step_refl]; apply docel_step, S1.
    + match goal with |- context[if ?b then _ else _] => destruct b end; [apply doctype_step, S1|exact RF1].
  - intros h this frag ref G. cbn [frag_loop].
    destruct (first_child h frag) as [c|] eqn:FC; [|apply step_refl, G].
    apply res_bind; [apply vremove_step, G|]. intros h1 r1 V S1.
    apply res_bind; [apply IH1; [apply S1|]|].
    + apply not_doc. apply (vremove_child_kind _ _ _ _ _ G V).
    + intros h2 r2 _ S2. apply IH2, S2.
Qed.
Lemma last_opt_in : forall (l : list nat) x, last_opt l = Some x -> In x l.
Proof.
  intros l x E. rewrite last_opt_lastof in E. apply lastof_in in E as [E|[_ E]]; [exact E|discriminate].
Qed.
Lemma vreplace_step : forall f h this new old, good h -> (n_kind (h new) = KDocument -> this <> new) ->
  res_step h (vreplace f h this new old).
Proof.
  induction f as [|f IH]; intros h this new old G ND; [exact I|]. cbn [vreplace].
  assert (RF := step_refl h G).
  destruct (childless (n_kind (h this))) eqn:CL; [exact RF|].
  match goal with |- res_step h (if _ then if _ then _ else if _ then _ else if _ then _ else rbind ?b _ else _) =>
    assert (BASE : res_step h b) end.
  { destruct (n_ro (h this)) eqn:RO; [exact RF|].
    destruct (has_kind h new KFragment) eqn:KF; [|apply replace_node_step; auto].
    apply res_bind; [apply vremove_step, G|]. intros h1 r1 V S1.
    destruct (last_child h new) as [c|] eqn:LC; [|exfalso; apply (vremove_none _ _ _ _ V)].
    assert (KC := vremove_child_kind _ _ _ _ _ G V).
    destruct (vremove_spec _ _ _ _ _ G V) as (_ & _ & -> & _).
    apply res_bind; [apply IH; [apply S1|apply not_doc, KC]|]. intros h2 r2 _ S2.
    apply res_bind; [|intros h3 r3 _ S3; apply step_refl, S3].
    apply vinsert_step; [apply S2|]. intro K. exfalso.
    apply has_kind_eq in KF.
    rewrite (static_kind _ _ (proj2 S2 new)), (static_kind _ _ (proj2 S1 new)) in K. congruence. }
  destruct (has_kind h this KDocument); [|exact BASE].
  destruct (negb _); [exact RF|].
  destruct (has_kind h new KDocType && _); [exact RF|].
  destruct (has_kind h new KElement && _ && _); [exact RF|].
  apply res_bind; [exact BASE|]. intros h1 r1 _ S1. cbn.
  destruct (has_kind h1 new KElement && _); [apply docel_step|apply step_refl]; apply S1.
Qed.

(** * The specification from the invariant *)
Lemma good_tree : forall h, good h -> tree_ok h.
Proof.
  intros h [L T]. assert (HP : forall c, get_parent h c = n_parent (h c)) by (intro c; apply hidden_parent, T).
  split; [|split].
  - split; [apply (l_nodup h L)|]. intros p c. rewrite HP. apply (l_parent h L).
  - unfold siblings_ok, kids. split; [|split; [|split]].
    + intros p x l K. assert (C := l_chain h L p). rewrite K in C. apply C.
    + intros p l x K. assert (C := l_chain h L p). rewrite K in C. apply chain_app in C as [_ C]. apply C.
    + intros p l x y m K. assert (C := l_chain h L p). rewrite K in C. apply chain_app in C as [_ C].
      cbn [chain first] in C. split; apply C.
    + intros c. rewrite HP. apply (l_lone h L).
  - intros n A.
    assert (G : forall a b, above h a b -> rooted h b -> exists c, n_parent (h b) = Some c /\ (c = a \/ above h a c)).
    { intros a b A1. induction A1 as [p c I|p c d I A1 IH]; intro R.
      - exists p. split; [apply (l_parent h L), I|auto].
      - destruct (IH R) as (e & P & [E2|A2]); exists e; split; auto; right.
        + subst e. apply above_child. exact I.
        + apply above_trans with c; auto. }
    assert (R : forall b, rooted h b -> ~ above h b b).
    { intros b R. induction R as [b P|b p P R IH]; intro A1.
      - destruct (G _ _ A1 (l_rooted h L b)) as (c & P2 & _). congruence.
      - apply IH. destruct (G _ _ A1 (l_rooted h L b)) as (c & P2 & H). rewrite P in P2. injection P2 as <-.
        assert (IB : In b (kids h p)) by (apply (l_parent h L), P).
        destruct H as [->|A2]; [apply above_child; exact IB|].
        apply above_trans with b; auto. }
    apply (R n (l_rooted h L n) A).
Qed.
Lemma fresh_good : forall kinds docs names, good (fresh_heap kinds docs names).
Proof.
  intros kinds docs names.
  assert (P : forall i, n_parent (fresh_heap kinds docs names i) = None /\ n_kids (fresh_heap kinds docs names i) = []
     /\ n_prev (fresh_heap kinds docs names i) = None /\ n_next (fresh_heap kinds docs names i) = None).
  { intro i. unfold fresh_heap, new_node. destruct (kinds i); auto. }
  split.
  - constructor.
    + intro p. destruct (P p) as (_ & -> & _). constructor.
    + intros p c. destruct (P p) as (_ & -> & _). destruct (P c) as (-> & _). split; [contradiction|discriminate].
    + intro p. destruct (P p) as (_ & -> & _). exact I.
    + intros c _. destruct (P c) as (_ & _ & -> & ->). auto.
    + intro n. apply rooted_top, P.
  - constructor.
    + intros c p X. destruct (P c). congruence.
    + intro d. unfold fresh_heap, new_node. destruct (kinds d); cbn; try discriminate. reflexivity.
    + intro d. unfold fresh_heap, new_node. destruct (kinds d); cbn; try discriminate. reflexivity.
    + intros c p X. destruct (P c). congruence.
    + intros c p X. destruct (P c). congruence.
    + intros c p X. destruct (P c). congruence.
    + intros c _. unfold fresh_heap, new_node. destruct (kinds c); cbn; congruence.
Qed.
Lemma freeze_only : forall f h i h', freeze f h i = Some h' -> forall j, h' j = h j \/ h' j = set_ro_f true (h j).
Proof.
  induction f as [|f IH]; intros h i h' E; [discriminate|]. cbn [freeze] in E.
  assert (M : forall j, set_read_only h i j = h j \/ set_read_only h i j = set_ro_f true (h j)).
  { intro j. unfold set_read_only, upd. destruct (Nat.eqb j i); auto. }
  revert E M. generalize (set_read_only h i) as g.
  induction (n_kids (h i)) as [|c l IHl]; intros g E M; [injection E as <-; exact M|].
  destruct (freeze f g c) as [g1|] eqn:F; [|discriminate]. apply (IHl g1 E).
  intro j. destruct (IH g c g1 F j) as [->| ->]; [apply M|]. destruct (M j) as [->| ->]; right; reflexivity.
Qed.
Lemma freeze_good : forall f h i h', good h -> freeze f h i = Some h' -> good h'.
Proof.
  intros f h i h' G E. assert (M := freeze_only _ _ _ _ E). revert G. apply good_ext; intro j; destruct (M j) as [->| ->]; auto.
Qed.
Lemma call_good : forall f h o, good h -> not_into_itself KDocument h o ->
  match dom_call f h o with Ok h' _ | Ex _ h' => good h' /\ (forall i, n_kind (h' i) = n_kind (h i)) | Div => True end.
Proof.
  intros f h o G ND. assert (X : forall A (r : res A), res_step h r ->
    match rbind r (fun h _ => Ok h tt) with Ok h' _ | Ex _ h' => good h' /\ (forall i, n_kind (h' i) = n_kind (h i)) | Div => True end).
  { intros A [h1 a|e h1|] S; cbn in *; auto; split; try apply S; intro i; apply static_kind, S. }
  destruct o as [t n r|t n old|t old|t]; cbn [dom_call].
  - apply X, vinsert_step; [exact G|]. intro K. apply ND. cbn. apply has_kind_eq, K.
  - apply X, vreplace_step; [exact G|]. intro K. apply ND. cbn. apply has_kind_eq, K.
  - apply X, vremove_step, G.
  - destruct (freeze f h t) as [h1|] eqn:FZ; [|exact I]. split; [apply (freeze_good _ _ _ _ G FZ)|].
    intro i. destruct (freeze_only _ _ _ _ FZ i) as [->| ->]; reflexivity.
Qed.
Lemma run_good : forall f ops h h', good h -> Forall (not_into_itself KDocument h) ops ->
  dom_run f h ops = Some h' -> good h' /\ (forall i, n_kind (h' i) = n_kind (h i)).
Proof.
  intros f; induction ops as [|o ops IH]; intros h h' G F E; cbn [dom_run] in E.
  - injection E as <-. auto.
  - inversion F as [|? ? F1 F2]; subst. assert (C := call_good f h o G F1).
    assert (T : forall h1, good h1 -> (forall i, n_kind (h1 i) = n_kind (h i)) -> dom_run f h1 ops = Some h' ->
       good h' /\ (forall i, n_kind (h' i) = n_kind (h i))).
    { intros h1 G1 K1 E1. destruct (IH h1 h' G1) as [G2 K2]; auto.
      - eapply Forall_impl; [|exact F2]. intros a. unfold not_into_itself.
        destruct (op_target a) as [[t n]|]; auto. unfold has_kind. rewrite K1. auto.
      - split; auto. intro i. rewrite K2. apply K1. }
    destruct (dom_call f h o) as [h1 a|e h1|]; [apply T with h1; tauto..|discriminate].
Qed.
