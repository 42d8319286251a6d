From Coq Require Import Permutation Sorted.
From Verif.Model Require Import Base XNode XAxis XNodeSet.
From Verif.Spec Require Import XOrder XAxisSpec XNodeSetSpec.
From Verif.Proof Require Import Tac ContainersProof XOrderProof XAxisProof XAxisWalks XAxisSimple.

Lemma less_precedes : forall f x y, documents f -> node_of f x -> node_of f y -> (nodes_less_than f x y = true <-> precedes f x y).
Proof.
  intros f [d x] [d' y] D (DX & SX & X) (DY & SY & Y). unfold precedes, nodes_less_than. cbn [fst snd] in *. destruct (Nat.eqb_spec d d') as [E|N].
  - subst d'. destruct (order_lemma f d x y SX X Y) as (A & _). rewrite Z.ltb_lt. exact A.
  - unfold compare_nodes, xnode_eqb. cbn [fst snd]. rewrite DX, DY. pose proof N as N'. apply Nat.eqb_neq in N'. rewrite N'. cbn [andb negb].
    assert (f_addr f d <> f_addr f d') by (intros E'; apply D in E'; contradiction). destruct (f_addr f d <? f_addr f d') eqn:E; split; intros H0; try discriminate; try reflexivity; lia.
Qed.
Lemma nodes_strict_weak : forall f l, documents f -> Forall (node_of f) l -> strict_weak (nodes_less_than f) l.
Proof.
  intros f l D F. rewrite Forall_forall in F. destruct (documents_lemma f D) as (IR & TO & TR). split; [|split].
  - intros x X. apply IR. exact (F x X).
  - intros x y z X Y Z. apply TR; apply F; assumption.
  - intros x y z X Y Z A B C E. destruct (TO x y (F x X) (F y Y)) as [H|[->|H]]; try congruence. split; assumption.
Qed.
Definition lt_in (f : forest) (b : bool) (x y : xnode) : Prop := if b then nodes_less_than f x y = true else nodes_less_than f y x = true.
Lemma unique_in : forall l x, In x (unique l) <-> In x l.
Proof.
  induction l as [|y l IH]; intros x; [reflexivity|]. cbn [unique]. destruct l as [|z l]; [reflexivity|]. destruct (xnode_eqb y z) eqn:E.
  - apply xnode_eqb_ok in E. subst z. rewrite IH. cbn [In]. tauto.
  - cbn [In]. rewrite IH. reflexivity.
Qed.
Lemma unique_sorted : forall (R L : xnode -> xnode -> Prop) l, StronglySorted R l -> (forall x y, In x l -> In y l -> R x y -> x = y \/ L x y) -> (forall x y z, In x l -> In y l -> In z l -> L x y -> L y z -> L x z) ->
  StronglySorted L (unique l).
Proof.
  intros R L l S. induction S as [|x l S IH F]; intros H T; [constructor|]. cbn [unique]. rewrite Forall_forall in F.
  assert (IU : StronglySorted L (unique l)) by (apply IH; [intros; apply H; auto; right; assumption|intros a b c A B C; apply T; right; assumption]). destruct l as [|y l]; [constructor; constructor|].
  destruct (xnode_eqb x y) eqn:E; [exact IU|]. constructor; [exact IU|]. rewrite Forall_forall. intros z Z. apply (proj1 (unique_in (y :: l) z)) in Z.
  assert (N : x <> y) by (intros ->; rewrite (proj2 (xnode_eqb_ok y y) eq_refl) in E; discriminate).
  assert (LY : L x y) by (destruct (H x y) as [?|?]; [left; reflexivity|right; left; reflexivity|apply F; left; reflexivity|contradiction|assumption]).
  destruct Z as [<-|Z]; [exact LY|]. inversion S as [|? ? S1 F1]; subst. rewrite Forall_forall in F1. destruct (H y z) as [->|LZ]; [right; left; reflexivity|right; right; exact Z|apply F1; exact Z|exact LY|]. eapply T; [left; reflexivity|right; left; reflexivity|right; right; exact Z|exact LY|exact LZ].
Qed.
Lemma sorted_rev : forall {A} (R : A -> A -> Prop) l, StronglySorted R l -> StronglySorted (fun x y => R y x) (rev l).
Proof.
  intros A R l S. induction S as [|x l S IH F]; [constructor|]. cbn [rev]. apply sorted_app; [exact IH|constructor; constructor|]. intros a b Ia [<-|[]]. rewrite Forall_forall in F. apply F. apply in_rev. exact Ia.
Qed.
Definition good_set (f : forest) (s : nodeset) : Prop := Forall (node_of f) (s_nodes s) /\ (s_sorted s = true -> StronglySorted (lt_in f (s_forward s)) (s_nodes s)).
Lemma sort_spec : forall ss f s, sorts ss -> documents f -> good_set f s -> good_set f (sort ss f s) /\ s_sorted (sort ss f s) = true /\ s_forward (sort ss f s) = s_forward s /\ (forall x, In x (s_nodes (sort ss f s)) <-> In x (s_nodes s)).
Proof.
  intros ss f s SS D (F & ORD). unfold sort. destruct (s_sorted s) eqn:ES; [split; [split; [exact F|intros _; apply ORD; reflexivity]|split; [exact ES|split; [reflexivity|reflexivity]]]|]. destruct (documents_lemma f D) as (IR & TO & TR).
  set (l := if s_forward s then _ else _). assert (PL : Permutation l (s_nodes s) /\ StronglySorted (if s_forward s then fun x y => nodes_less_than f y x = false else fun x y => nodes_less_than f x y = false) l).
  { unfold l. destruct (s_forward s).
    - apply SS. apply nodes_strict_weak; assumption.
    - destruct (SS (nodes_less_than f) (rev (s_nodes s))) as (P & S).
      + apply nodes_strict_weak; [exact D|]. rewrite Forall_forall in *. intros x X. apply F. apply in_rev. exact X.
      + split; [|apply sorted_rev in S; exact S]. eapply perm_trans; [apply Permutation_sym, Permutation_rev|]. eapply perm_trans; [exact P|]. apply Permutation_sym, Permutation_rev. }
  clearbody l. destruct PL as (P & S).
  assert (IN : forall x, In x (unique l) <-> In x (s_nodes s)). { intros x. rewrite unique_in. split; apply Permutation_in; [exact P|apply Permutation_sym; exact P]. }
  assert (FL : forall x, In x l -> node_of f x). { intros x X. rewrite Forall_forall in F. apply F. apply (Permutation_in _ P). exact X. }
  split; [split|split; [reflexivity|split; [reflexivity|exact IN]]].
  - cbn [s_nodes]. rewrite Forall_forall in *. intros x X. apply F. apply IN. exact X.
  - intros _. cbn [s_forward s_nodes]. eapply unique_sorted; [exact S| |].
    + intros x y X Y. destruct (TO x y (FL x X) (FL y Y)) as [A|[A|A]]; destruct (s_forward s); unfold lt_in; intros B; auto; congruence.
    + intros x y z X Y Z. unfold lt_in. destruct (s_forward s); [apply TR; apply FL; assumption|intros A B; apply (TR z y x); try (apply FL; assumption); assumption].
Qed.
Lemma to_document_order_spec : forall ss f s, sorts ss -> documents f -> good_set f s -> good_set f (to_document_order ss f s) /\ s_sorted (to_document_order ss f s) = true /\ s_forward (to_document_order ss f s) = true /\ (forall x, In x (s_nodes (to_document_order ss f s)) <-> In x (s_nodes s)).
Proof.
  intros ss f s SS D G. destruct (sort_spec ss f s SS D G) as ((F & O) & S1 & S2 & IN). unfold to_document_order. destruct (s_forward (sort ss f s)) eqn:E.
  - split; [split; [exact F|intros _; rewrite E; exact (O S1)]|]. split; [exact S1|split; [exact E|exact IN]].
  - split; [split|split; [exact S1|split; [reflexivity|]]]; cbn [s_nodes s_sorted s_forward].
    + rewrite Forall_forall in *. intros x X. apply F. apply in_rev. exact X.
    + intros _. specialize (O S1). apply sorted_rev in O. exact O.
    + intros x. rewrite <- in_rev. apply IN.
Qed.
Lemma in_cut : forall {A} (x : A) l n m, In x (firstn n l ++ m ++ skipn n l) <-> In x l \/ In x m.
Proof. intros A x l n m. rewrite <- (firstn_skipn n l) at 3. rewrite !in_app_iff. tauto. Qed.
Lemma op_spec : forall ss f o s, sorts ss -> documents f -> good_set f s -> Forall (node_of f) (added o) ->
  good_set f (apply_op ss f o s) /\ (forall x, In x (s_nodes (apply_op ss f o s)) <-> In x (s_nodes s) \/ In x (added o)).
Proof.
  intros ss f o s SS D G A. pose proof G as (F & ORD). rewrite Forall_forall in A, F. destruct o as [x|n l|r|b| | |]; cbn [apply_op added] in *.
  - split; [split; [|discriminate]|]; unfold push_node; cbn [s_nodes].
    + rewrite Forall_forall. intros y Y. apply in_app_or in Y. destruct Y; auto.
    + intros y. rewrite in_app_iff. reflexivity.
  - split; [split; [|discriminate]|]; unfold insert_nodes; cbn [s_nodes].
    + rewrite Forall_forall. intros y Y. apply in_cut in Y. destruct Y; auto.
    + intros y. apply in_cut.
  - split; [split; [|discriminate]|]; unfold push_set, insert_nodes; cbn [s_nodes].
    + rewrite Forall_forall. intros y Y. apply in_cut in Y. destruct Y; auto.
    + intros y. apply in_cut.
  - unfold set_forward. destruct (Bool.eqb (s_forward s) b); [split; [exact G|intros y; cbn; tauto]|]. split; [split; [rewrite Forall_forall; exact F|discriminate]|]. intros y. cbn. tauto.
  - destruct (sort_spec ss f s SS D G) as (G' & _ & _ & IN). split; [exact G'|]. intros y. rewrite IN. cbn. tauto.
  - destruct (to_document_order_spec ss f s SS D G) as (G' & _ & _ & IN). split; [exact G'|]. intros y. rewrite IN. cbn. tauto.
  - destruct (sort_spec ss f s SS D G) as (G' & _ & _ & IN). split; [exact G'|]. intros y. unfold top. cbn [fst]. rewrite IN. cbn. tauto.
Qed.
Lemma ops_spec : forall ss f ops s, sorts ss -> documents f -> good_set f s -> Forall (fun o => Forall (node_of f) (added o)) ops ->
  good_set f (fold_left (fun s o => apply_op ss f o s) ops s) /\ (forall x, In x (s_nodes (fold_left (fun s o => apply_op ss f o s) ops s)) <-> In x (s_nodes s) \/ In x (flat_map added ops)).
Proof.
  intros ss f ops. induction ops as [|o ops IH]; intros s SS D G A; [split; [exact G|intros x; cbn; tauto]|]. inversion A as [|? ? A1 A2]; subst. destruct (op_spec ss f o s SS D G A1) as (G' & IN). cbn [fold_left flat_map]. destruct (IH _ SS D G' A2) as (G'' & IN'). split; [exact G''|]. intros x. rewrite IN', IN, in_app_iff. tauto.
Qed.
Lemma new_good : forall f b, good_set f (new_set b).
Proof. intros f b. split; [constructor|discriminate]. Qed.
Lemma lt_precedes : forall f l b, documents f -> Forall (node_of f) l -> StronglySorted (lt_in f b) l -> StronglySorted (if b then precedes f else fun x y => precedes f y x) l.
Proof.
  intros f l b D F S. induction S as [|x l S IH O]; [destruct b; constructor|]. inversion F as [|? ? F1 F2]; subst. specialize (IH F2). rewrite Forall_forall in *. destruct b; constructor; try exact IH; rewrite Forall_forall; intros y Y; specialize (O y Y); unfold lt_in in O; apply less_precedes in O; auto.
Qed.
Lemma set_lemma : forall ss f b ops, sorts ss -> documents f -> Forall (fun o => Forall (node_of f) (added o)) ops ->
  let s := fold_left (fun s o => apply_op ss f o s) ops (new_set b) in
  (s_sorted s = true -> StronglySorted (if s_forward s then precedes f else fun x y => precedes f y x) (s_nodes s)) /\
  (forall x, In x (s_nodes s) <-> In x (flat_map added ops)) /\
  StronglySorted (if s_forward s then precedes f else fun x y => precedes f y x) (s_nodes (sort ss f s)) /\
  StronglySorted (precedes f) (s_nodes (to_document_order ss f s)) /\
  (forall x, In x (s_nodes (sort ss f s)) <-> In x (s_nodes s)) /\ (forall x, In x (s_nodes (to_document_order ss f s)) <-> In x (s_nodes s)).
Proof.
  intros ss f b ops SS D A s. destruct (ops_spec ss f ops (new_set b) SS D (new_good f b) A) as (G & IN). fold s in G, IN. pose proof G as (F & O).
  destruct (sort_spec ss f s SS D G) as ((F1 & O1) & S1 & E1 & IN1). destruct (to_document_order_spec ss f s SS D G) as ((F2 & O2) & S2 & E2 & IN2). split; [|split; [|split; [|split; [|split; [exact IN1|exact IN2]]]]].
  - intros S. apply lt_precedes; auto.
  - intros x. rewrite IN. cbn. tauto.
  - rewrite <- E1. apply lt_precedes; auto.
  - specialize (O2 S2). rewrite E2 in O2. apply (lt_precedes f _ true) in O2; auto.
Qed.
Lemma precedes_irrefl : forall f x, ~ precedes f x x.
Proof. intros f x P. unfold precedes in P. rewrite Nat.eqb_refl in P. exact (not_before_self _ _ P). Qed.
Lemma precedes_nodup : forall f l, StronglySorted (precedes f) l -> NoDup l.
Proof. intros f l S. induction S as [|x l S IH F]; constructor; [|exact IH]. intros I. rewrite Forall_forall in F. exact (precedes_irrefl f x (F x I)). Qed.
Lemma union_lemma : forall ss f a b, sorts ss -> documents f -> good_set f a -> good_set f b -> (s_nodes a <> [] -> s_nodes b <> [] ->  StronglySorted (precedes f) (s_nodes (union ss f a b))) /\ (forall x, In x (s_nodes (union ss f a b)) <-> In x (s_nodes a) \/ In x (s_nodes b)).
Proof.
  intros ss f a b SS D GA GB. unfold union. destruct (s_nodes a) as [|x l] eqn:EA; [split; [contradiction|intros y; cbn; tauto]|]. destruct (s_nodes b) as [|y m] eqn:EB; [split; [contradiction|intros z; rewrite EA; cbn; tauto]|].
  destruct (op_spec ss f (Insert (length (x :: l) - 1) (y :: m)) a SS D GA) as (G & IN); [rewrite <- EB; exact (proj1 GB)|]. cbn [apply_op added] in *. destruct (to_document_order_spec ss f _ SS D G) as ((F2 & O2) & S2 & E2 & IN2). split.
  - intros _ _. specialize (O2 S2). rewrite E2 in O2. apply (lt_precedes f _ true) in O2; auto.
  - intros z. rewrite IN2, IN, EA. reflexivity.
Qed.
Lemma top_lemma : forall ss f s, sorts ss -> documents f -> good_set f s -> s_nodes s <> [] -> exists x, snd (top ss f s) = Some x /\ In x (s_nodes s) /\ forall y, In y (s_nodes s) -> y = x \/ precedes f x y.
Proof.
  intros ss f s SS D G N. destruct (sort_spec ss f s SS D G) as ((F1 & O1) & S1 & E1 & IN1). specialize (O1 S1). unfold top. cbn [snd]. apply (lt_precedes f) in O1; auto. destruct (s_forward (sort ss f s)).
  - destruct (s_nodes (sort ss f s)) as [|x l] eqn:E; [destruct (s_nodes s) as [|y m]; [contradiction|]; destruct (proj2 (IN1 y) (or_introl eq_refl))|]. exists x. split; [reflexivity|]. split; [apply IN1; left; reflexivity|]. inversion O1 as [|? ? O2 F2]; subst. rewrite Forall_forall in F2. intros y Y. apply IN1 in Y. destruct Y as [<-|Y]; auto.
  - apply sorted_rev in O1. assert (IN2 : forall x, In x (rev (s_nodes (sort ss f s))) <-> In x (s_nodes s)) by (intros x; rewrite <- in_rev; apply IN1). destruct (rev (s_nodes (sort ss f s))) as [|x l] eqn:E; [destruct (s_nodes s) as [|y m]; [contradiction|]; destruct (proj2 (IN2 y) (or_introl eq_refl))|].
    exists x. split; [reflexivity|]. split; [apply IN2; left; reflexivity|]. inversion O1 as [|? ? O2 F2]; subst. rewrite Forall_forall in F2. intros y Y. apply IN2 in Y. destruct Y as [<-|Y]; auto.
Qed.

(** * String values *)
Lemma size_eq : forall t p, length (order t p) = tree_size t.
Proof.
  induction t as [i a k _ IH] using xtree_ind2. intros p. rewrite order_eq. cbn [length tree_size]. rewrite app_length. f_equal. f_equal.
  - generalize O. clear. induction a as [|x a IH]; intros n; [reflexivity|]. cbn. rewrite IH. reflexivity.
  - enough (G : forall n, length (orders p n k) = (fix go (l : list xtree) := match l with [] => O | k :: r => (tree_size k + go r)%nat end) k) by apply G.
    induction IH as [|x k X F IHk]; intros n; [reflexivity|]. cbn [orders]. rewrite app_length, X, IHk. reflexivity.
Qed.
Definition alltexts (l : list xtree) : str := flat_map texts l.
Lemma texts_eq : forall i a k, texts (Xt i a k) = match i_kind i with Xtext | Xcdata => i_value i | _ => alltexts k end.
Proof.
  intros i a k. cbn [texts]. replace ((fix go l := match l with [] => [] | k0 :: r => texts k0 ++ go r end) k) with (alltexts k); [reflexivity|]. unfold alltexts. induction k as [|x k IH]; [reflexivity|]. cbn [flat_map]. rewrite IH. reflexivity.
Qed.
Lemma no_nul_eq : forall i a k, no_nul (Xt i a k) <-> ~ In 0 (i_value i) /\ Forall no_nul k.
Proof. intros i a k. cbn [no_nul]. split; intros (A & B); (split; [exact A|]); clear A; induction k as [|x k IH]; try constructor; try (destruct B; auto; fail); inversion B; subst; [assumption|apply IH; assumption]. Qed.
Lemma cut_none : forall s, ~ In 0 s -> cut_nul s = s.
Proof. induction s as [|c s IH]; intros N; [reflexivity|]. cbn. destruct (c =? 0) eqn:E; [exfalso; apply N; left; lia|]. f_equal. apply IH. intros I. apply N. right. exact I. Qed.
Lemma texts_nul : forall t, no_nul t -> ~ In 0 (texts t).
Proof.
  induction t as [i a k _ IH] using xtree_ind2. intros N. apply no_nul_eq in N. destruct N as (N & F). rewrite texts_eq. assert (A : ~ In 0 (alltexts k)). { unfold alltexts. rewrite in_flat_map. intros (x & X & Y). rewrite Forall_forall in IH, F. exact (IH x X (F x X) Y). } destruct (i_kind i); assumption.
Qed.
(** The texts at the head of a list, and what is after them. *)
Fixpoint lead (l : list xtree) : str := match l with [] => [] | k :: r => if tree_is_text k then texts k ++ lead r else [] end.
Fixpoint rest (l : list xtree) : list xtree := match l with [] => [] | k :: r => if tree_is_text k then rest r else l end.
Lemma lead_rest : forall l, alltexts l = lead l ++ alltexts (rest l).
Proof. induction l as [|k l IH]; [reflexivity|]. cbn [lead rest]. destruct (tree_is_text k); [|reflexivity]. unfold alltexts in *. cbn [flat_map]. rewrite IH, app_assoc. reflexivity. Qed.
Lemma text_texts : forall k, tree_is_text k = true -> texts k = i_value (t_info k).
Proof. intros [i a k] T. unfold tree_is_text, t_kind in T. cbn [t_info] in *. rewrite texts_eq. destruct (i_kind i); try discriminate; reflexivity. Qed.
Lemma run_lead : forall l k, tree_is_text k = true -> Forall no_nul (k :: l) -> text_run (k :: l) = lead (k :: l) /\ ~ In 0 (lead (k :: l)).
Proof.
  induction l as [|n l IH]; intros k T F; inversion F as [|? ? F1 F2]; subst.
  - cbn [text_run lead]. rewrite T, app_nil_r, (text_texts k T). split; [reflexivity|]. rewrite <- (text_texts k T). apply texts_nul. exact F1.
  - assert (V : ~ In 0 (i_value (t_info k))) by (rewrite <- (text_texts k T); apply texts_nul; exact F1).
    change (text_run (k :: n :: l)) with (if tree_is_text n then cut_nul (i_value (t_info k) ++ text_run (n :: l)) else i_value (t_info k)). cbn [lead]. rewrite T. rewrite (text_texts k T). destruct (tree_is_text n) eqn:TN.
    + destruct (IH n TN F2) as (E & N). rewrite E. cbn [lead] in *. rewrite TN in *. assert (NN : ~ In 0 (i_value (t_info k) ++ texts n ++ lead l)) by (intros I; apply in_app_or in I; tauto). split; [apply cut_none; exact NN|exact NN].
    + rewrite app_nil_r. split; [reflexivity|exact V].
Qed.
Definition piece (t : xtree) (q : path) : str := if is_text t q then text_value t q else [].
Lemma pieces_list : forall t p w l i prev, kids_only p -> subtree t p = Some w -> l = skipn i (t_kids w) -> Forall shape_ok l -> Forall no_nul l ->
  Forall (fun k => forall j p, kids_only p -> subtree t (Kid j :: p) = Some k -> tree_is_text k = false -> flat_map (piece t) (cn k (Kid j :: p)) = texts k) l ->
  flat_map (piece t) (cns p i prev l) = alltexts (if prev then rest l else l).
Proof.
  intros t p w l. induction l as [|k l IH]; intros i prev K W E SH NN F; [destruct prev; reflexivity|]. inversion F as [|? ? F1 F2]; inversion SH as [|? ? SH1 SH2]; inversion NN as [|? ? NN1 NN2]; subst.
  assert (NK : nth_error (t_kids w) i = Some k) by (rewrite <- (Nat.add_0_r i), <- nth_skipn, <- E; reflexivity).
  assert (El : l = skipn (S i) (t_kids w)). { destruct (nth_split3 _ _ _ NK) as (E1 & L1). rewrite E1 in E. rewrite skipn_app, L1, Nat.sub_diag, skipn_all2 in E by lia. cbn [app skipn] in E. injection E as E. exact E. }
  assert (UK : subtree t (Kid i :: p) = Some k) by (cbn [subtree]; rewrite W; exact NK).
  cbn [cns]. rewrite flat_map_app. rewrite (IH (S i) (tree_is_text k) K W El SH2 NN2 F2). destruct (tree_is_text k) eqn:T.
  - rewrite andb_true_r. destruct prev; cbn [flat_map rest app]; rewrite ?T; [reflexivity|]. destruct (text_leaf k SH1 T) as (ik & EK). rewrite EK at 1. rewrite cn_eq. cbn [cns flat_map app]. rewrite app_nil_r. unfold piece. unfold is_text. rewrite UK, T. unfold text_value. rewrite W, <- E.
    rewrite (proj1 (run_lead l k T NN)). cbn [lead]. rewrite T, <- app_assoc, <- lead_rest. reflexivity.
  - rewrite andb_false_r. rewrite (F1 i p K UK eq_refl). destruct prev; cbn [rest]; rewrite ?T; reflexivity.
Qed.
Lemma pieces_node : forall t k j p, shape_ok k -> no_nul k -> kids_only p -> subtree t (Kid j :: p) = Some k -> tree_is_text k = false -> flat_map (piece t) (cn k (Kid j :: p)) = texts k.
Proof.
  intros t. induction k as [i a k _ IH] using xtree_ind2. intros j p SH NN K U T. rewrite cn_eq. cbn [flat_map]. unfold piece at 1. unfold is_text. rewrite U, T. cbn [app]. apply shape_eq in SH. destruct SH as (_ & _ & _ & _ & SK). apply no_nul_eq in NN. destruct NN as (_ & NK).
  rewrite (pieces_list t (Kid j :: p) (Xt i a k) k 0 false K U eq_refl SK NK).
  - rewrite texts_eq. unfold tree_is_text, t_kind in T. cbn [t_info] in T. destruct (i_kind i); try discriminate; reflexivity.
  - rewrite Forall_forall in *. intros x X j' p' K' U' T'. apply IH; auto.
Qed.
Lemma string_value_lemma : forall t x u, shape_ok t -> t_kind t <> Xattribute -> no_nul t -> In x (order t []) -> subtree t x = Some u ->
  match t_kind u with Xdocument | Xfragment | Xelement => True | _ => False end -> string_value t x = Some (texts u).
Proof.
  intros t x u SH R NN I U KU. apply in_order in I. destruct I as [(K & _)|(i & e & -> & K & v & V)].
  - assert (SU : shape_ok u) by (apply (shape_sub t x); auto). assert (NU : no_nul u).
    { clear KU SU. revert u U. induction x as [|[j| |] x IH]; intros u U; try contradiction; [cbn in U; congruence|]. cbn [subtree] in U. destruct (subtree t x) as [w|]; [|discriminate]. specialize (IH K w eq_refl). destruct w as [iw a k]. apply no_nul_eq in IH. destruct IH as (_ & F). rewrite Forall_forall in F. apply F. eapply nth_error_In. exact U. }
    unfold string_value. rewrite U. destruct u as [iu a k]. pose proof SU as SU0. apply shape_eq in SU. destruct SU as (_ & _ & _ & _ & SK). pose proof NU as NU0. apply no_nul_eq in NU. destruct NU as (_ & NK).
    rewrite (descendant_run t x (Xt iu a k)); auto; [|pose proof (picks_length _ _ _ (descendant_picks t x _ SH K U)) as PL; pose proof (nodes_length t) as NL; rewrite size_eq in NL; lia]. cbn [t_kids].
    assert (E : flat_map (fun q => if is_text t q then text_value t q else []) (cns x 0 false k) = texts (Xt iu a k)).
    { change (fun q => if is_text t q then text_value t q else []) with (piece t). rewrite (pieces_list t x (Xt iu a k) k 0 false K U eq_refl SK NK); [rewrite texts_eq; unfold t_kind in KU; cbn [t_info] in KU; destruct (i_kind iu); try contradiction; reflexivity|]. rewrite Forall_forall in *. intros y Y j p K' U' T'. apply pieces_node; auto. }
    rewrite E, cut_none by (apply texts_nul; exact NU0). destruct (t_kind (Xt iu a k)); try contradiction; reflexivity.
  - exfalso. cbn [subtree] in U. destruct (subtree t e) as [w|] eqn:W; [|discriminate]. destruct (attribute_kind t i e w u SH K W U) as (KK & _). unfold is_kind in KK. cbn [subtree] in KK. rewrite W, U in KK. destruct (t_kind u); try discriminate; contradiction.
Qed.

(** * A sort *)
Fixpoint insert_by (less : xnode -> xnode -> bool) (x : xnode) (l : list xnode) : list xnode :=
  match l with [] => [x] | y :: r => if less y x then y :: insert_by less x r else x :: l end.
Definition insertion_sort : sorter := fun less l => fold_right (insert_by less) [] l.
Lemma insert_perm : forall less x l, Permutation (insert_by less x l) (x :: l).
Proof. intros less x l. induction l as [|y l IH]; [apply Permutation_refl|]. cbn. destruct (less y x); [|apply Permutation_refl]. eapply perm_trans; [apply perm_skip; exact IH|apply perm_swap]. Qed.
Lemma insertion_perm : forall less l, Permutation (insertion_sort less l) l.
Proof. intros less l. induction l as [|x l IH]; [constructor|]. cbn. eapply perm_trans; [apply insert_perm|]. apply perm_skip. exact IH. Qed.
Lemma sw_trans : forall less l a b c, strict_weak less l -> In a l -> In b l -> In c l -> less b a = false -> less c b = false -> less c a = false.
Proof.
  intros less l a b c (IR & TR & EQ) A B C H1 H2. destruct (less c a) eqn:H; [|reflexivity]. destruct (less a b) eqn:AB; [rewrite (TR c a b C A B H AB) in H2; discriminate|]. destruct (less b c) eqn:BC; [rewrite (TR b c a B C A BC H) in H1; discriminate|]. destruct (EQ a b c A B C AB H1 BC H2). congruence.
Qed.
Lemma insert_sorted : forall less l0 x l, strict_weak less l0 -> In x l0 -> (forall y, In y l -> In y l0) -> StronglySorted (fun x y => less y x = false) l -> StronglySorted (fun x y => less y x = false) (insert_by less x l).
Proof.
  intros less l0 x l SW X SUB S. induction S as [|y l S IH F]; [constructor; constructor|]. rewrite Forall_forall in F. cbn. destruct (less y x) eqn:E.
  - constructor; [apply IH; intros z Z; apply SUB; right; exact Z|]. rewrite Forall_forall. intros z Z. apply (Permutation_in _ (insert_perm less x l)) in Z. destruct Z as [<-|Z]; [|apply F; exact Z].
    destruct (less x y) eqn:E'; [|reflexivity]. destruct SW as (IR & TR & _). rewrite <- (IR x X). symmetry. apply (TR x y x); auto. apply SUB. left. reflexivity.
  - constructor; [constructor; [exact S|rewrite Forall_forall; exact F]|]. rewrite Forall_forall. intros z [<-|Z]; [exact E|]. apply (sw_trans less l0 x y z SW X); auto; apply SUB; [left; reflexivity|right; exact Z].
Qed.
Lemma insertion_sorts : sorts insertion_sort.
Proof.
  intros less l SW. split; [apply insertion_perm|]. assert (G : forall m, (forall y, In y m -> In y l) -> StronglySorted (fun x y => less y x = false) (insertion_sort less m)); [|apply G; auto].
  induction m as [|x m IH]; intros SUB; [constructor|]. cbn. apply (insert_sorted less l); auto; [apply SUB; left; reflexivity| |apply IH; intros y Y; apply SUB; right; exact Y]. intros y Y. apply SUB. right. apply (Permutation_in _ (insertion_perm less m)). exact Y.
Qed.
Lemma made_good : forall ss f s, sorts ss -> documents f -> made ss f s -> good_set f s.
Proof. intros ss f s SS D (b & ops & A & ->). exact (proj1 (ops_spec ss f ops (new_set b) SS D (new_good f b) A)). Qed.
Lemma union_made : forall ss f a b, sorts ss -> documents f -> made ss f a -> made ss f b -> (s_nodes a <> [] -> s_nodes b <> [] ->  StronglySorted (precedes f) (s_nodes (union ss f a b))) /\ (forall x, In x (s_nodes (union ss f a b)) <-> In x (s_nodes a) \/ In x (s_nodes b)).
Proof. intros ss f a b SS D A B. apply union_lemma; auto; apply (made_good ss); auto. Qed.
Lemma top_made : forall ss f s, sorts ss -> documents f -> made ss f s -> s_nodes s <> [] -> exists x, snd (top ss f s) = Some x /\ In x (s_nodes s) /\ forall y, In y (s_nodes s) -> y = x \/ precedes f x y.
Proof. intros ss f s SS D A. apply top_lemma; auto. apply (made_good ss); auto. Qed.
