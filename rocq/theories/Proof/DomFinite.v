(** Histories of calls change finitely many child lists, so trees are finite; setReadOnly. *)
From Verif.Model Require Import Base Dom.
From Verif.Spec Require Import DomSpec.
From Verif.Proof Require Import DomProof.

(** * Finitely many child lists change *)
Definition nearly (h h' : heap) : Prop := exists L, forall i, ~ In i L -> n_kids (h' i) = n_kids (h i).
Definition res_nearly {A} (h : heap) (r : res A) : Prop := match r with Ok h' _ | Ex _ h' => nearly h h' | Div => True end.
Lemma nearly_refl : forall h, nearly h h.
Proof. intro h. exists []. auto. Qed.
Lemma nearly_trans : forall a b c, nearly a b -> nearly b c -> nearly a c.
Proof.
  intros a b c [L1 H1] [L2 H2]. exists (L1 ++ L2). intros i N. rewrite H2, H1; auto; intro I; apply N, in_or_app; auto.
Qed.
Lemma nearly_upd : forall a h i f, nearly a h -> nearly a (upd h i f).
Proof.
  intros a h i f N. apply nearly_trans with h; [exact N|]. exists [i]. intros j NI. unfold upd.
  destruct (Nat.eqb_spec j i) as [->|]; [|reflexivity]. exfalso. apply NI. left; reflexivity.
Qed.
Lemma res_nearly_trans : forall {A} a b (r : res A), nearly a b -> res_nearly b r -> res_nearly a r.
Proof. intros A a b [h x|e h|] S R; cbn in *; auto; apply nearly_trans with b; auto. Qed.
Lemma res_nearly_bind : forall {A B} h (r : res A) (k : heap -> A -> res B), res_nearly h r ->
  (forall h' a, res_nearly h' (k h' a)) -> res_nearly h (rbind r k).
Proof.
  intros A B h [h1 a|e h1|] k R K; cbn [rbind]; auto. apply res_nearly_trans with h1; auto.
Qed.
Lemma nearly_parent : forall a h i p, nearly a h -> nearly a (set_parent h i p).
Proof.
  intros a h i p N. unfold set_parent. apply nearly_upd. destruct (n_owner (h i)); [|exact N].
  destruct p, (n_parent (h i)); auto; apply nearly_upd, N.
Qed.
Lemma nearly_prev_opt : forall a h i v, nearly a h -> nearly a (set_prev_opt h i v).
Proof. intros a h [i|] v N; cbn; [apply nearly_upd|]; exact N. Qed.
Lemma nearly_next_opt : forall a h i v, nearly a h -> nearly a (set_next_opt h i v).
Proof. intros a h [i|] v N; cbn; [apply nearly_upd|]; exact N. Qed.
Lemma nearly_mark : forall a h i, nearly a h -> nearly a (mark_changed h i).
Proof. intros a h i N. unfold mark_changed. destruct (n_owner (h i)); [apply nearly_upd|]; exact N. Qed.
Ltac near := repeat first [apply nearly_refl | apply nearly_mark | apply nearly_parent | apply nearly_prev_opt
  | apply nearly_next_opt | (unfold set_prev; apply nearly_upd) | (unfold set_next; apply nearly_upd)
  | (unfold set_kids; apply nearly_upd) | apply nearly_upd | assumption].
Lemma do_remove_nearly : forall h this old, res_nearly h (do_remove h this old).
Proof.
  intros h this old. unfold do_remove. destruct (n_ro (h this)); [apply nearly_refl|].
  destruct old as [o|]; [|apply nearly_refl]. destruct (erase o (n_kids (h this))); [|apply nearly_refl].
  cbn [res_nearly]. near.
Qed.
Lemma vremove_nearly : forall h this old, res_nearly h (vremove h this old).
Proof.
  intros h this old. unfold vremove. destruct (childless _); [apply nearly_refl|].
  destruct (has_kind h this KDocument); [|apply do_remove_nearly].
  destruct (opt_eqb _ _); [apply nearly_refl|]. apply res_nearly_bind; [apply do_remove_nearly|].
  intros h1 r. destruct (opt_eqb _ _); cbn [res_nearly]; near.
Qed.
Lemma check_nearly : forall f h this new, res_nearly h (check_can_add f h this new).
Proof.
  intros f h this new. unfold check_can_add.
  repeat match goal with |- res_nearly _ (match ?x with _ => _ end) => destruct x end; cbn [res_nearly]; near; exact I.
Qed.
Lemma out_nearly : forall h new, res_nearly h (remove_if_required h new).
Proof.
  intros h new. unfold remove_if_required. destruct (get_parent h new); [|apply nearly_refl].
  apply res_nearly_bind; [apply vremove_nearly|]. intros; apply nearly_refl.
Qed.
Lemma insert_node_nearly : forall f h this new ref, res_nearly h (insert_node f h this new ref).
Proof.
  intros f h this new ref. unfold insert_node. apply res_nearly_bind; [apply check_nearly|]. intros h1 _.
  apply res_nearly_bind; [apply out_nearly|]. intros h2 _. destruct ref as [r|].
  - destruct (insert_at _ _ _); cbn [res_nearly]; near.
  - cbn [res_nearly]. destruct (last_child h2 this); near.
Qed.
Lemma replace_node_nearly : forall f h this new old, res_nearly h (replace_node f h this new old).
Proof.
  intros f h this new ref. unfold replace_node. apply res_nearly_bind; [apply check_nearly|]. intros h1 _.
  apply res_nearly_bind; [apply out_nearly|]. intros h2 _. destruct (replace_at _ _ _); cbn [res_nearly]; near.
Qed.
Lemma vinsert_nearly : forall f,
  (forall h this new ref, res_nearly h (vinsert f h this new ref)) /\
  (forall h this frag ref, res_nearly h (frag_loop f h this frag ref)).
Proof.
  induction f as [|f [IH1 IH2]]; [split; intros; exact I|]. split.
  - intros h this new ref. cbn [vinsert]. destruct (childless _); [apply nearly_refl|].
    assert (BASE : res_nearly h (if n_ro (h this) then Ex NO_MODIFICATION h
        else if has_kind h new KFragment then frag_loop f h this new ref else insert_node f h this new ref)).
    { destruct (n_ro (h this)); [apply nearly_refl|]. destruct (has_kind h new KFragment); [apply IH2|apply insert_node_nearly]. }
    destruct (has_kind h this KDocument); [|exact BASE].
    destruct (has_kind h new KElement && _); [apply nearly_refl|].
    destruct (has_kind h new KDocType && _); [apply nearly_refl|].
    apply res_nearly_bind; [exact BASE|]. intros h1 r. cbn [res_nearly].
    repeat match goal with |- context[if ?b then _ else _] => destruct b end; near.
  - intros h this frag ref. cbn [frag_loop]. destruct (first_child h frag); [|apply nearly_refl].
    apply res_nearly_bind; [apply vremove_nearly|]. intros h1 _. apply res_nearly_bind; [apply IH1|]. intros; apply IH2.
Qed.
Lemma vreplace_nearly : forall f h this new old, res_nearly h (vreplace f h this new old).
Proof.
  induction f as [|f IH]; intros h this new old; [exact I|]. cbn [vreplace]. destruct (childless _); [apply nearly_refl|].
  match goal with |- res_nearly _ (if _ then if _ then _ else if _ then _ else if _ then _ else rbind ?b _ else _) =>
    assert (BASE : res_nearly h b) end.
  { destruct (n_ro (h this)); [apply nearly_refl|]. destruct (has_kind h new KFragment); [|apply replace_node_nearly].
    apply res_nearly_bind; [apply vremove_nearly|]. intros h1 [c|]; [|exact I].
    apply res_nearly_bind; [apply IH|]. intros h2 _. apply res_nearly_bind; [apply (proj1 (vinsert_nearly f))|].
    intros; apply nearly_refl. }
  destruct (has_kind h this KDocument); [|exact BASE]. destruct (negb _); [apply nearly_refl|].
  destruct (_ && _); [apply nearly_refl|]. destruct (_ && _); [apply nearly_refl|].
  apply res_nearly_bind; [exact BASE|]. intros h1 r.
  repeat match goal with |- context[if ?b then _ else _] => destruct b end; cbn [res_nearly]; near.
Qed.

(** * setReadOnly *)
Definition marks (h h' : heap) : Prop := forall j, h' j = h j \/ h' j = set_ro_f true (h j).
Lemma freeze_marks : forall f h i h', freeze f h i = Some h' -> marks h h'.
Proof. exact freeze_only. Qed.
Lemma marks_kids : forall h h', marks h h' -> forall i, n_kids (h' i) = n_kids (h i).
Proof. intros h h' M i. destruct (M i) as [->| ->]; reflexivity. Qed.
Lemma freeze_settles : forall h0 i, finite_below h0 i -> forall h, (forall j, n_kids (h j) = n_kids (h0 j)) ->
  exists f0 h', forall f, (f0 <= f)%nat -> freeze f h i = Some h'.
Proof.
  intros h0 i FB. induction FB as [i FB IH]. intros h K.
  assert (X : forall l g, (forall c, In c l -> In c (kids h0 i)) -> (forall j, n_kids (g j) = n_kids (h0 j)) ->
    exists f0 h', forall f, (f0 <= f)%nat ->
      (fix each (l : list nat) (h : heap) : option heap :=
         match l with
         | [] => Some h
         | c :: r => match freeze f h c with Some h' => each r h' | None => None end
         end) l g = Some h').
  { induction l as [|c l IHl]; intros g IN KG; [exists O, g; auto|].
    destruct (IH c (IN c (or_introl eq_refl)) g KG) as (f1 & g1 & H1).
    destruct (IHl g1) as (f2 & g2 & H2); [intros x I; apply IN; right; exact I| |].
    { intro j. rewrite (marks_kids g g1); [apply KG|]. apply (freeze_marks f1 g c g1 (H1 f1 (le_n _))). }
    exists (Nat.max f1 f2), g2. intros f L. rewrite H1 by lia. apply H2. lia. }
  destruct (X (n_kids (h i)) (set_read_only h i)) as (f0 & h' & H).
  - intros c I. rewrite K in I. exact I.
  - intro j. rewrite <- K. unfold set_read_only, upd. destruct (Nat.eqb j i); reflexivity.
  - exists (S f0), h'. intros [|f] L; [lia|]. cbn [freeze]. apply H. lia.
Qed.
Lemma call_nearly : forall f h o, res_nearly h (dom_call f h o).
Proof.
  intros f h o. destruct o as [t n ref|t n old|t old|t]; cbn [dom_call].
  - apply res_nearly_bind; [apply (proj1 (vinsert_nearly f))|intros; apply nearly_refl].
  - apply res_nearly_bind; [apply vreplace_nearly|intros; apply nearly_refl].
  - apply res_nearly_bind; [apply vremove_nearly|intros; apply nearly_refl].
  - destruct (freeze f h t) as [h1|] eqn:FZ; [|exact I]. exists []. intros i _. apply marks_kids, (freeze_marks _ _ _ _ FZ).
Qed.

Lemma above_end : forall h x m c, above h x m -> In c (kids h m) -> above h x c.
Proof.
  intros h x m c A I. induction A as [p d J|p d e J A IH].
  - apply above_trans with d; [exact J|constructor; exact I].
  - apply above_trans with d; auto.
Qed.
Definition few_parents (h : heap) : Prop := exists L, forall i, n_kids (h i) <> [] -> In i L.
Lemma few_nearly : forall h h', few_parents h -> nearly h h' -> few_parents h'.
Proof.
  intros h1 h2 [L H] [L2 H2]. exists (L ++ L2). intros i N. apply in_or_app.
  destruct (in_dec Nat.eq_dec i L2) as [|NI]; [auto|]. left. apply H. rewrite <- (H2 i NI). exact N.
Qed.
Lemma few_fresh : forall kinds docs names, few_parents (fresh_heap kinds docs names).
Proof.
  intros kinds docs names. exists []. intros i N. exfalso. apply N. unfold fresh_heap, new_node. destruct (kinds i); reflexivity.
Qed.
Lemma few_finite : forall h, good h -> few_parents h -> forall n, finite_below h n.
Proof.
  intros h G [L H] n. assert (AC : acyclic h) by apply (good_tree h G).
  assert (X : forall k n seen, NoDup seen -> incl seen L -> (forall x, In x seen -> above h x n) -> (length L <= length seen + k)%nat ->
    finite_below h n).
  { induction k as [|k IH]; intros m seen ND IN AB LE; constructor; intros c IC.
    - exfalso. assert (IM : In m L) by (apply H; intro Z; unfold kids in IC; rewrite Z in IC; exact IC).
      assert (NM : ~ In m seen) by (intro I; apply (AC m), AB, I).
      assert (NoDup (m :: seen)) as ND2 by (constructor; auto).
      apply NoDup_incl_length with (l' := L) in ND2; [cbn in ND2; lia|]. intros x [<-|I]; auto.
    - assert (IM : In m L) by (apply H; intro Z; unfold kids in IC; rewrite Z in IC; exact IC).
      assert (NM : ~ In m seen) by (intro I; apply (AC m), AB, I).
      apply IH with (m :: seen); [constructor; auto| | |cbn; lia].
      + intros x [<-|I]; auto.
      + intros x [<-|I]; [constructor; exact IC|].
        apply above_end with m; auto. }
  apply (X (length L) n []); [constructor|intros x []|intros x []|cbn; lia].
Qed.

