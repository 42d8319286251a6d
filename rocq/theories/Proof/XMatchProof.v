From Coq Require Import SpecFloat Sorted Permutation.
From Verif.Model Require Import Base Containers Text XNode XAxis XNodeSet XCompare XString XStep XEval XMatch.
From Verif.Spec Require Import TextSpec XOrder XAxisSpec XNodeSetSpec XCompareSpec XNumberSpec XStringSpec XStepSpec XEvalSpec XMatchSpec.
From Verif.Proof Require Import Tac ContainersProof TextProof XOrderProof XAxisProof XAxisWalks XAxisSimple XNodeSetProof XCompareProof XStepProof XEvalProof.

(** * Positions *)
Lemma numeric_ok : forall e, type_is_number e = numeric e.
Proof. destruct e as [| | | | | | | | |[]|]; reflexivity. Qed.
Lemma asks_ok : forall e, finds_position e = asks_position e.
Proof. induction e using expr_ind2; cbn [finds_position asks_position]; try congruence; auto. Qed.

Definition level (q : expression) : Prop := forall x p l p' l', q x p l = q x p' l'.
Lemma level_texts : forall k es, Forall level es -> forall x p l p' l', text_args k es x p l = text_args k es x p' l'.
Proof. induction 1 as [|e es E _ IH]; intros x p l p' l'; cbn [text_args]; [reflexivity|]. rewrite (E x p l p' l'), (IH x p l p' l'). reflexivity. Qed.
Lemma level_call : forall k g es, g <> Position -> g <> Last -> Forall level es -> level (call k g es).
Proof.
  intros k g es NP NL F x p l p' l'. unfold call. destruct g; try contradiction; try (rewrite (level_texts k es F x p l p' l'); reflexivity);
    destruct es as [|a es]; try reflexivity; inversion F as [|? ? A F1]; subst; try (unfold node_arg, text_arg; rewrite (A x p l p' l'); reflexivity);
    destruct es as [|b es]; try reflexivity; try (rewrite (A x p l p' l'); reflexivity); inversion F1 as [|? ? B F2]; subst;
    destruct es as [|c es]; try reflexivity; try (rewrite (A x p l p' l'), (B x p l p' l'); reflexivity); inversion F2 as [|? ? C F3]; subst;
    try (destruct es; [|reflexivity]); rewrite (A x p l p' l'), (B x p l p' l'), (C x p l p' l'); reflexivity.
Qed.
Definition level_step (s : step) : Prop := match s with TestStep _ _ _ => True | ExprStep e _ => level e end.
Lemma level_steps : forall ss f steps, Forall level_step steps -> forall nodes p l p' l', steps_value ss f steps nodes p l = steps_value ss f steps nodes p' l'.
Proof.
  induction 1 as [|s steps S _ IH]; intros nodes p l p' l'; cbn [steps_value]; [reflexivity|]. assert (E : step_value ss f s nodes p l = step_value ss f s nodes p' l').
  { destruct s as [a n qs|e qs]; cbn [step_value]; [reflexivity|]. destruct (snd (top ss f nodes)); [|reflexivity]. unfold filter_value. rewrite (S x p l p' l'). reflexivity. }
  rewrite E. destruct (step_value ss f s nodes p' l'); cbn [andthen]; try reflexivity. apply IH.
Qed.
Lemma all_true : forall {A} (g : A -> bool) l, forallb (fun b => b) (map g l) = true -> Forall (fun x => g x = true) l.
Proof. intros A g l. induction l as [|x l IH]; cbn; [constructor|]. rewrite andb_true_iff. intros (E & F). constructor; auto. Qed.
Lemma positionless_level : forall k e, positionless e = true -> level (eval k e).
Proof.
  intros k e. induction e as [n|s|u n|a b IHa IHb|a b IHa IHb|o a b IHa IHb|o a b IHa IHb|a IHa|a b IHa IHb|g args IH|b steps IH] using expr_ind2; intros P;
    try (intros x p l p' l'; reflexivity); cbn [positionless] in P; try (apply andb_true_iff in P; destruct P as (PA & PB));
    try (intros x p l p' l'; cbn [eval]; rewrite (IHa PA x p l p' l'), (IHb PB x p l p' l'); reflexivity).
  - intros x p l p' l'; cbn [eval]; rewrite (IHa P x p l p' l'); reflexivity.
  - cbn [eval]. assert (N : g <> Position /\ g <> Last /\ forallb (fun b => b) (map positionless args) = true) by (destruct g; try discriminate P; auto; split; try split; try discriminate; exact P).
    destruct N as (N1 & N2 & P'). apply level_call; auto. apply all_true in P'. rewrite Forall_forall in *. intros q Q. apply in_map_iff in Q. destruct Q as (e & <- & I). auto.
  - cbn [eval]. set (sts := map _ steps). assert (L : Forall level_step sts).
    { apply all_true in P. rewrite Forall_forall in *. intros q Q. apply in_map_iff in Q. destruct Q as (s & <- & I). specialize (IH s I). specialize (P s I). cbn beta in P. destruct s as [a s qs|e qs]; [exact Logic.I|]. destruct IH as (IH & _). exact (IH P). }
    clearbody sts. intros x p l p' l'. destruct b; unfold absolute_path, relative_path; erewrite level_steps by exact L; reflexivity.
Qed.
Definition no_number (v : value) : Prop := match v with VNum _ => False | _ => True end.
Lemma andthen_got : forall {A B} (a : answer A) (g : A -> answer B) b, andthen a g = Got b -> exists x, a = Got x /\ g x = Got b.
Proof. intros A B a g b E. destruct a as [x| | |]; try discriminate. exists x. auto. Qed.
Ltac dig E := repeat (match type of E with
  | andthen _ _ = Got _ => apply andthen_got in E; let z := fresh "z" in let F := fresh "F" in destruct E as (z & F & E)
  | (if ?b then _ else _) = Got _ => destruct b; try discriminate E
  | match ?b with _ => _ end = Got _ => destruct b; try discriminate E
  end).
Lemma by_truth_value : forall k e, numeric e = false -> match e with EVariable _ _ => False | _ => True end -> forall x p l v, eval k e x p l = Got v -> no_number v.
Proof.
  intros k e N V x p l v E. destruct e as [n|s|u n|a b|a b|o a b|o a b|a|a b|g args|b steps]; try discriminate; try contradiction; cbn [eval] in E.
  - injection E as <-. exact Logic.I.
  - dig E; injection E as <-; exact Logic.I.
  - dig E; injection E as <-; exact Logic.I.
  - dig E. unfold compared in E. dig E. injection E as <-. exact Logic.I.
  - unfold united in E. dig E. injection E as <-. exact Logic.I.
  - unfold call in E. destruct g; try discriminate N; unfold named in E; dig E; try discriminate E; injection E as <-; exact Logic.I.
  - destruct b; unfold absolute_path, relative_path in E; dig E; injection E as <-; exact Logic.I.
Qed.

(** * Lists *)
Lemma picks_same : forall {A} (P : A -> Prop) l m n, picks P l m -> picks P l n -> m = n.
Proof. intros A P l m n H. revert n. induction H as [|x l m P1 _ IH|x l m P1 _ IH]; intros n H; inversion H; subst; try contradiction; auto. f_equal. auto. Qed.
Lemma axis_same : forall t a x l m, axis_list t a x l -> axis_list t a x m -> l = m.
Proof. unfold axis_list. intros t a x l m A B. destruct (axis_forward a); [exact (picks_same _ _ _ _ A B)|]. pose proof (picks_same _ _ _ _ A B) as E. rewrite <- (rev_involutive l), E. apply rev_involutive. Qed.
Lemma picks_nodup : forall {A} (P : A -> Prop) l m, picks P l m -> NoDup l -> NoDup m.
Proof. intros A P l m H. induction H as [|x l m P1 H IH|x l m P1 H IH]; intros D; [constructor| |]; inversion D as [|? ? NI D']; subst; auto. constructor; [|auto]. intros I. apply NI. apply (picks_incl _ _ _ H) in I. apply I. Qed.
Lemma axis_list_nodup : forall t a x l, axis_list t a x l -> NoDup l.
Proof. unfold axis_list. intros t a x l A. pose proof (nodes_nodup t) as N. destruct (axis_forward a); [exact (picks_nodup _ _ _ A N)|]. pose proof (picks_nodup _ _ _ A N) as R. apply NoDup_rev in R. rewrite rev_involutive in R. exact R. Qed.
Definition same_node (x y : xnode) : bool := Nat.eqb (fst x) (fst y) && path_eqb (snd x) (snd y).
Lemma same_node_ok : forall x y, same_node x y = true <-> x = y.
Proof. intros [d p] [e q]. unfold same_node. cbn [fst snd]. rewrite andb_true_iff, Nat.eqb_eq, path_eqb_ok. split; [intros (-> & ->); reflexivity|intros E; injection E; auto]. Qed.
Definition member (l : list xnode) (x : xnode) : bool := existsb (same_node x) l.
Lemma member_ok : forall l x, member l x = true <-> In x l.
Proof. intros l x. unfold member. rewrite existsb_exists. split; [intros (y & I & E); apply same_node_ok in E; subst; exact I|intros I; exists x; split; [exact I|apply same_node_ok; reflexivity]]. Qed.
Lemma kept_incl : forall q size p l m, kept q size p l m -> incl m l.
Proof. induction 1 as [|p x l m v Q H K IH|p x l m v Q H K IH]; intros y I; [exact I| |]. - destruct I as [->|I]; [left; reflexivity|right; auto]. - right. auto. Qed.
Lemma kept_member : forall q size p l m, kept q size p l m -> NoDup l -> m = filter (member m) l.
Proof.
  induction 1 as [|p x l m v Q H K IH|p x l m v Q H K IH]; intros D; [reflexivity| |]; inversion D as [|? ? NI D']; subst; cbn [filter].
  - replace (member (x :: m) x) with true by (symmetry; apply member_ok; left; reflexivity). f_equal. rewrite (IH D') at 1. apply filter_ext_in. intros y I. apply eq_iff_eq_true. rewrite !member_ok. cbn [In]. split; [tauto|]. intros [->|M]; [contradiction|exact M].
  - replace (member m x) with false; [exact (IH D')|]. symmetry. destruct (member m x) eqn:M; [|reflexivity]. apply member_ok in M. apply (kept_incl _ _ _ _ _ K) in M. contradiction.
Qed.
Lemma filter_filter : forall {A} (g h : A -> bool) l, filter h (filter g l) = filter (fun x => g x && h x) l.
Proof. induction l as [|x l IH]; cbn [filter]; [reflexivity|]. destruct (g x); cbn [filter andb]; [destruct (h x); congruence|exact IH]. Qed.
Lemma forallb_snoc : forall {A} (g : A -> bool) l x, forallb g (l ++ [x]) = forallb g l && g x.
Proof. intros. rewrite forallb_app. cbn [forallb]. rewrite andb_true_r. reflexivity. Qed.
Lemma filtered_app : forall qs rs l m n, filtered qs l m -> filtered rs m n -> filtered (qs ++ rs) l n.
Proof. intros qs rs l m n H. induction H as [l|q qs l m o K _ IH]; intros R; cbn [app]; [exact R|]. econstructor; eauto. Qed.
Lemma kept_same : forall q size p l m, kept (computes q) size p l m -> forall n, kept (computes q) size p l n -> m = n.
Proof.
  induction 1 as [|p x l m v Q Hh K IH|p x l m v Q Hh K IH]; intros n G; inversion G as [|? ? ? ? v' Q'|? ? ? ? v' Q']; subst; auto; unfold computes in Q, Q'; assert (v = v') by congruence; subst; try contradiction; auto. f_equal. auto.
Qed.
Lemma filtered_same : forall qs l m n, filtered (map computes qs) l m -> filtered (map computes qs) l n -> m = n.
Proof.
  induction qs as [|q qs IH]; intros l m n A B; cbn [map] in A, B; inversion A as [|? ? ? m1 ? K1 F1]; inversion B as [|? ? ? m2 ? K2 F2]; subst; [reflexivity|].
  rewrite (kept_same _ _ _ _ _ K1 _ K2) in F1. eauto.
Qed.

(** * One document *)
Section Document.
  Context (k : env) (d : nat).
  Let f := e_forest k.
  Let t := f_tree f d.
  Context (SS : sorts (e_sort k)) (DOC : documents f) (OWN : f_doc f d = d) (WD : whole_document t) (ONE : one_root t).
  Notation ok := (fine f d true).
  Definition truthy (q : mpred) (x : xnode) : bool := match pred_value k q x 1 1 with Got v => as_bool v | _ => false end.
  Definition sure (q : mpred) : Prop := forall x p l, ok x -> exists v, pred_value k q x p l = Got v /\ no_number v /\ as_bool v = truthy q x.
  Definition total (q : expression) : Prop := forall x p l, ok x -> exists v, q x p l = Got v.
  Definition pass (qs : list mpred) (x : xnode) : bool := forallb (fun q => truthy q x) qs.
  Lemma kept_sure : forall q, sure q -> forall size l p, Forall ok l -> kept (computes (pred_value k q)) size p l (filter (truthy q) l).
  Proof.
    intros q S size. induction l as [|x l IH]; intros p F; cbn [filter]; [constructor|]. inversion F as [|? ? X F']; subst. destruct (S x p size X) as (v & E & N & B). rewrite <- B. destruct (as_bool v) eqn:AB.
    - eapply kept_in; [exact E|apply holds_bool; [exact N|exact AB]|apply IH; exact F'].
    - eapply kept_out; [exact E|intros H; apply holds_bool in H; [congruence|exact N]|apply IH; exact F'].
  Qed.
  Lemma filtered_sure : forall qs, Forall sure qs -> forall l, Forall ok l -> filtered (map computes (map (pred_value k) qs)) l (filter (pass qs) l).
  Proof.
    induction 1 as [|q qs S _ IH]; intros l F; cbn [map].
    - replace (filter (pass []) l) with l; [constructor|]. symmetry. induction l as [|x l IHl]; [reflexivity|]. cbn. f_equal. apply IHl. inversion F; auto.
    - eapply filtered_by; [apply kept_sure; assumption|]. replace (filter (pass (q :: qs)) l) with (filter (pass qs) (filter (truthy q) l)) by (rewrite filter_filter; reflexivity). apply IH. rewrite Forall_forall in *. intros x I. apply filter_In in I. apply F, I.
  Qed.
  Lemma kept_total : forall q, total q -> forall size l p, Forall ok l -> exists m, kept (computes q) size p l m.
  Proof.
    intros q T size. induction l as [|x l IH]; intros p F; [exists []; constructor|]. inversion F as [|? ? X F']; subst. destruct (T x p size X) as (v & E). destruct (IH (p + 1) F') as (m & K).
    assert (H : holds v p \/ ~ holds v p). { unfold holds. destruct v as [b|n|s|s]; try (destruct (truth _); [left; reflexivity|right; discriminate]). destruct (SFeqb n (of_Z p)) eqn:Q; [left; apply eqb_ok; exact Q|right; intros H; apply eqb_ok in H; congruence]. }
    destruct H as [H|H]; [exists (x :: m); eapply kept_in; eauto|exists m; eapply kept_out; eauto].
  Qed.

  (** Steps over one node. *)
  Definition passing (n : node_test) (p : path) : bool := match subtree t p with Some u => matches n u | None => false end.
  Lemma enumerated : forall a x, In x (nodes t) -> provided t a x -> exists la, enumerate (tree_size t) t 0 a x = Nodes la /\ axis_list t a x la.
  Proof. intros a x I P. destruct WD as (TK & SH & _). apply axis_lemma; auto; [rewrite TK; discriminate|]. rewrite (size_eq t). apply Nat.le_refl. Qed.
  Lemma all_ok : forall a x la (g : path -> bool), axis_list t a x la -> Forall ok (map (pair d) (filter g la)).
  Proof. intros a x la g A. rewrite Forall_forall. intros y Y. apply in_map_iff in Y. destruct Y as (p & <- & P). apply filter_In in P. destruct P as (P & _). apply (axis_in _ _ _ _ A) in P. split; [reflexivity|]. split; [apply P|discriminate]. Qed.
  Lemma length_ok : forall a x la (g : path -> bool), axis_list t a x la -> Z.of_nat (length (map (pair d) (filter g la))) < 2147483648.
  Proof. intros a x la g A. rewrite map_length. destruct WD as (_ & _ & _ & SZ & _). apply axis_nodup in A. assert (length (filter g la) <= length la)%nat by (clear; induction la as [|y la IH]; cbn; [lia|destruct (g y); cbn; lia]). lia. Qed.
  Lemma over_ok : forall a n qs x la m results, ok x -> provided t a (snd x) -> axis_list t a (snd x) la -> s_sorted results = false ->
    filtered (map computes qs) (map (pair d) (filter (passing n) la)) m -> exists r, enumerate_over f a n qs x results = Got r /\ s_nodes r = s_nodes results ++ m /\ s_sorted r = false.
  Proof.
    intros a n qs x la m results (D & IN & _) PR AL SF F. destruct (enumerated a (snd x) IN PR) as (la' & E & AL'). rewrite (axis_same _ _ _ _ _ AL' AL) in E. clear AL' la'.
    unfold enumerate_over. rewrite D. fold t. rewrite E. change (filter _ la) with (filter (passing n) la). pose proof (length_ok a (snd x) la (passing n) AL) as LEN. set (tested := map (pair d) (filter (passing n) la)) in *. clearbody tested.
    assert (SF' : s_nodes (set_forward (axis_forward a) results) = s_nodes results /\ s_sorted (set_forward (axis_forward a) results) = false) by (unfold set_forward; destruct (Bool.eqb _ _); auto). destruct SF' as (N & S). destruct qs as [|q qs].
    - inversion F; subst m. eexists. split; [reflexivity|]. destruct (push_all_nodes tested (set_forward (axis_forward a) results)) as (A & _ & C). rewrite A, N. auto.
    - destruct (push_all_nodes tested (new_set (axis_forward a))) as (A & _ & _). cbn [new_set s_nodes app] in A. rewrite <- A in F, LEN. apply predicates_complete in F; [|exact LEN]. destruct F as (r & E1 & E2). rewrite E1. cbn [andthen]. eexists. split; [reflexivity|]. unfold insert_nodes. cbn [s_nodes s_sorted]. rewrite !firstn_all, !skipn_all, !app_nil_r, N, E2. auto.
  Qed.

  (** Predicates that pick by position. *)
  Lemma node_above : forall st q, In (st :: q) (nodes t) -> In q (nodes t) /\ kids_only q /\ match st with Ns _ _ _ => False | _ => True end.
  Proof.
    intros st q IN. destruct WD as (TK & SH & _). apply nodes_in in IN. destruct IN as (IN & _). apply in_order in IN. destruct IN as [(K & u & U)|(i & r & E & K & u & U)].
    - cbn [kids_only] in K. destruct st as [i|i|]; try contradiction. split; [|auto]. pose proof (prefix_good t i q u SH K U) as C. cbn [subtree] in U. destruct (subtree t q) as [w|] eqn:W; [|discriminate]. apply nodes_in. split; [apply in_order; left; eauto|exact C].
    - injection E as -> ->. split; [|auto]. cbn [subtree] in U. destruct (subtree t r) as [w|] eqn:W; [|discriminate]. apply nodes_in. split; [apply in_order; left; eauto|]. unfold continues, is_text. rewrite W. pose proof (shape_sub t r w SH K W) as SW. destruct w as [iw aw kw]. destruct SW as (A & _). cbn [t_attrs] in U. assert (EL : i_kind iw = Xelement) by (apply A; destruct aw; [destruct i; discriminate|discriminate]). unfold tree_is_text, t_kind. cbn [t_info]. rewrite EL. reflexivity.
  Qed.
  Lemma kids_no_attribute : forall q, kids_only q -> ~ is_attribute q.
  Proof. intros q K (i & r & ->). exact K. Qed.
  Lemma kid_provided : forall p, ~ is_attribute p -> provided t Child p.
  Proof. intros p N. split; [discriminate|]. split; [auto|]. split; discriminate. Qed.
  Lemma replaced_value : forall n done q p la m (x : xnode) i ps l, Forall sure done -> In p (nodes t) -> ~ is_attribute p -> axis_list t Child p la ->
    kept (computes (eval k q)) (Z.of_nat (length (filter (pass done) (map (pair d) (filter (passing n) la))))) 1 (filter (pass done) (map (pair d) (filter (passing n) la))) m ->
    fst x = d -> snd x = Kid i :: p -> pred_value k (Replaced n (done ++ [Plain q])) x ps l = Got (VBool (member m x)).
  Proof.
    intros n done q p la m x i ps l SD IN NA AL K D SX. cbn [pred_value]. rewrite SX. cbn [parent]. rewrite D. rewrite map_app. cbn [map pred_value].
    destruct (over_ok Child n (map (pred_value k) done ++ [eval k q]) (d, p) la m (new_set true)) as (r & E & EN & _).
    - split; [reflexivity|]. split; [exact IN|discriminate].
    - apply kid_provided. exact NA.
    - exact AL.
    - reflexivity.
    - rewrite map_app. eapply filtered_app; [apply filtered_sure; [exact SD|apply (all_ok Child p); exact AL]|]. cbn [map]. eapply filtered_by; [exact K|constructor].
    - fold f. rewrite E. cbn [andthen]. rewrite EN. cbn [new_set s_nodes app]. unfold member, same_node. rewrite SX, D. reflexivity.
  Qed.
  Lemma replaced_sure : forall n done q, Forall sure done -> total (eval k q) -> sure (Replaced n (done ++ [Plain q])).
  Proof.
    intros n done q SD T x ps l (D & IN & _). assert (V : exists b, forall ps l, pred_value k (Replaced n (done ++ [Plain q])) x ps l = Got (VBool b)).
    { destruct (snd x) as [|st p] eqn:SX; [exists false; intros; cbn [pred_value]; rewrite SX; reflexivity|]. destruct (node_above st p IN) as (IP & KP & ST). destruct st as [i|i|]; [|exists false; intros; cbn [pred_value]; rewrite SX; reflexivity|contradiction].
      destruct (enumerated Child p IP (kid_provided p (kids_no_attribute p KP))) as (la & _ & AL). destruct (kept_total (eval k q) T (Z.of_nat (length (filter (pass done) (map (pair d) (filter (passing n) la))))) (filter (pass done) (map (pair d) (filter (passing n) la))) 1) as (m & K).
      { pose proof (all_ok Child p la (passing n) AL) as F. rewrite Forall_forall in *. intros y I. apply filter_In in I. apply F, I. }
      exists (member m x). intros ps' l'. eapply replaced_value; eauto. apply kids_no_attribute. exact KP. }
    destruct V as (b & V). exists (VBool b). split; [apply V|]. split; [exact Logic.I|]. unfold truthy. rewrite V. reflexivity.
  Qed.
  Lemma truth_sure : forall q, by_truth q -> has_value k d q -> sure (Plain q).
  Proof.
    intros q (N & P & V) H x ps l (D & IN & _). destruct (H x ps l D IN) as (v & E). exists v. split; [exact E|]. split; [exact (by_truth_value k q N V _ _ _ _ E)|]. unfold truthy. cbn [pred_value]. rewrite (positionless_level k q P x 1 1 ps l), E. reflexivity.
  Qed.
  Lemma value_total : forall q, has_value k d q -> total (eval k q).
  Proof. intros q H x ps l (D & IN & _). apply H; assumption. Qed.
  Lemma by_position_ok : forall q, should_rewrite q = true <-> by_position q.
  Proof. intros q. unfold should_rewrite, by_position. rewrite orb_true_iff, numeric_ok, asks_ok. reflexivity. Qed.
  Lemma pass_snoc : forall done q x, pass (done ++ [q]) x = pass done x && truthy q x.
  Proof. intros. unfold pass. rewrite forallb_snoc. reflexivity. Qed.
  Lemma fold_sure : forall n qs done, Forall (has_value k d) qs -> Forall (fun e => by_position e \/ by_truth e) qs -> Forall sure done -> Forall sure (fold_predicates n done qs).
  Proof.
    intros n. induction qs as [|q qs IH]; intros done H B S; cbn [fold_predicates]; [exact S|]. inversion H as [|? ? H1 H2]; inversion B as [|? ? B1 B2]; subst. apply IH; auto. destruct (should_rewrite q) eqn:R.
    - constructor; [|constructor]. apply replaced_sure; [exact S|apply value_total; exact H1].
    - apply Forall_app. split; [exact S|]. constructor; [|constructor]. destruct B1 as [B1|B1]; [apply by_position_ok in B1; congruence|]. apply truth_sure; assumption.
  Qed.
  Lemma fold_filtered : forall n p la qs done, In p (nodes t) -> ~ is_attribute p -> axis_list t Child p la -> Forall (has_value k d) qs -> Forall (fun e => by_position e \/ by_truth e) qs -> Forall sure done ->
    filtered (map (fun e => computes (eval k e)) qs) (filter (pass done) (map (pair d) (filter (passing n) la))) (filter (pass (fold_predicates n done qs)) (map (pair d) (filter (passing n) la))).
  Proof.
    intros n p la qs done IN NA AL. revert done. pose proof (all_ok Child p la (passing n) AL) as OK. assert (KIDS : forall x, In x (map (pair d) (filter (passing n) la)) -> fst x = d /\ exists i, snd x = Kid i :: p).
    { intros x I. apply in_map_iff in I. destruct I as (y & <- & Y). split; [reflexivity|]. apply filter_In in Y. destruct Y as (Y & _). apply (axis_in _ _ _ _ AL) in Y. destruct Y as (Y & NY & st & ->). destruct (node_above st p Y) as (_ & _ & ST). destruct st as [i|i|]; [exists i; reflexivity| |contradiction]. exfalso. apply NY. exists i, p. reflexivity. }
    assert (ND : NoDup (map (pair d) (filter (passing n) la))). { apply FinFun.Injective_map_NoDup; [intros a b E; congruence|]. apply NoDup_filter. exact (axis_list_nodup _ _ _ _ AL). }
    remember (map (pair d) (filter (passing n) la)) as L eqn:EL. induction qs as [|q qs IH]; intros done H B S; cbn [map fold_predicates]; [constructor|]. inversion H as [|? ? H1 H2]; inversion B as [|? ? B1 B2]; subst.
    assert (F : Forall ok (filter (pass done) (map (pair d) (filter (passing n) la)))) by (rewrite Forall_forall in *; intros y I; apply filter_In in I; apply OK, I). destruct (should_rewrite q) eqn:R.
    - destruct (kept_total (eval k q) (value_total q H1) (Z.of_nat (length (filter (pass done) (map (pair d) (filter (passing n) la))))) (filter (pass done) (map (pair d) (filter (passing n) la))) 1 F) as (m & K). eapply filtered_by; [exact K|].
      assert (EM : m = filter (pass [Replaced n (done ++ [Plain q])]) (map (pair d) (filter (passing n) la))).
      { rewrite (kept_member _ _ _ _ _ K) at 1 by (apply NoDup_filter; exact ND). rewrite filter_filter. apply filter_ext_in. intros x I. destruct (KIDS x I) as (D & i & SX). cbn [pass forallb]. rewrite andb_true_r. unfold truthy. erewrite (replaced_value n done q p la m x i 1 1); eauto. cbn [as_bool]. destruct (member m x) eqn:M; [|apply andb_false_r]. rewrite andb_true_r. apply member_ok in M. apply (kept_incl _ _ _ _ _ K) in M. apply filter_In in M. apply M. }
      rewrite EM. apply IH; auto. constructor; [|constructor]. apply replaced_sure; [exact S|apply value_total; exact H1].
    - assert (SQ : sure (Plain q)) by (destruct B1 as [B1|B1]; [apply by_position_ok in B1; congruence|apply truth_sure; assumption]). eapply filtered_by; [apply (kept_sure (Plain q) SQ); exact F|]. rewrite filter_filter. replace (filter _ (map (pair d) (filter (passing n) la))) with (filter (pass (done ++ [Plain q])) (map (pair d) (filter (passing n) la))) by (apply filter_ext; intros x; apply pass_snoc). apply IH; auto. apply Forall_app. split; [exact S|]. constructor; [exact SQ|constructor].
  Qed.

  (** Tests. *)
  Lemma below_kind : forall st q u, In (st :: q) (nodes t) -> subtree t (st :: q) = Some u -> t_kind u <> Xdocument /\ t_kind u <> Xfragment /\ t_kind u <> Xnamespace /\ (t_kind u = Xattribute <-> exists i, st = Att i).
  Proof.
    intros st q u IN U. destruct (node_above st q IN) as (IQ & KQ & ST). destruct WD as (TK & SH & _ & _ & NN & _). apply nodes_in in IN. destruct IN as (IO & _). pose proof (ONE (st :: q) u IO) as FR. specialize (FR ltac:(discriminate) U). pose proof (NN (st :: q) u IO U) as NS. cbn [subtree] in U. destruct (subtree t q) as [w|] eqn:W; [|discriminate]. pose proof (shape_sub t q w SH KQ W) as SW. destruct w as [iw aw kw]. destruct SW as (_ & _ & FA & FK). destruct st as [i|i|]; [| |contradiction]; cbn [t_attrs t_kids] in U.
    - assert (K : t_kind u <> Xattribute /\ t_kind u <> Xdocument). { clear - FK U. revert i U. induction kw as [|k0 kw IH]; intros i U; [destruct i; discriminate|]. destruct FK as (A & _ & B). destruct i as [|i]; [injection U as <-; exact A|]. exact (IH B i U). }
      destruct K as (K1 & K2). repeat split; auto; [contradiction|intros (j & E); discriminate].
    - rewrite Forall_forall in FA. destruct (FA u (nth_error_In _ _ U)) as (A & _). repeat split; auto; [rewrite A; discriminate|eauto].
  Qed.
  Lemma root_fails : forall p u, t_kind u = Xdocument -> matches (pattern_test p) u = false.
  Proof.
    intros [a sp s qs] u K. unfold t_kind in K. unfold pattern_test. cbn [ps_test ps_attribute]. destruct s as [name|prefix uri name| |prefix uri| | | |target]; destruct a; unfold get_test; cbn [is_attribute_axis]; try destruct (str_eqb _ xmlns); unfold matches, tree_is_text, t_kind; rewrite ?K; cbn; rewrite ?andb_false_r; reflexivity.
  Qed.
  Lemma pattern_test_ok : forall p st q u, step_sound k d p -> In (st :: q) (nodes t) -> subtree t (st :: q) = Some u -> (matches (pattern_test p) u = true <-> node_passes (step_axis p) (ps_test p) (t_info u)).
  Proof.
    intros p st q u SO IN U. destruct (below_kind st q u IN U) as (K1 & K2 & K3 & _). assert (E : matches (pattern_test p) u = matches (get_test (step_axis p) (ps_test p)) u).
    { unfold pattern_test, step_axis. destruct (ps_test p), (ps_attribute p); try reflexivity; unfold get_test, matches; unfold t_kind in K1, K2; destruct (i_kind (t_info u)); try reflexivity; contradiction. }
    rewrite E. apply test_ok; [unfold step_axis; destruct (ps_attribute p); discriminate|exact K3|]. intros A. destruct SO as (_ & SO). unfold step_axis in A. destruct (ps_attribute p); [apply SO|discriminate].
  Qed.
  Lemma no_position : forall e, positionless e = true -> asks_position e = false.
  Proof. induction e using expr_ind2; cbn [positionless asks_position]; try reflexivity; rewrite ?andb_true_iff; try (intros (A & B); rewrite IHe1, IHe2; auto); auto. destruct g; auto; discriminate. Qed.
  Lemma fold_truth : forall n qs done, Forall by_truth qs -> fold_predicates n done qs = done ++ map Plain qs.
  Proof.
    intros n. induction qs as [|q qs IH]; intros done B; cbn [fold_predicates map]; [rewrite app_nil_r; reflexivity|]. inversion B as [|? ? (N & P & V) B2]; subst. replace (should_rewrite q) with false; [rewrite IH by exact B2; rewrite <- app_assoc; reflexivity|].
    unfold should_rewrite. rewrite numeric_ok, asks_ok, N, no_position by exact P. reflexivity.
  Qed.
  Definition folded (p : pstep) : list mpred := fold_predicates (pattern_test p) [] (ps_predicates p).
  Lemma sound_either : forall p, step_sound k d p -> Forall (fun e => by_position e \/ by_truth e) (ps_predicates p).
  Proof. intros p (_ & S). destruct (ps_attribute p); [|exact S]. eapply Forall_impl; [|apply S]. intros e B. right. exact B. Qed.
  Lemma folded_sure : forall p, step_sound k d p -> Forall sure (folded p).
  Proof. intros p S. apply fold_sure; [apply S|apply sound_either; exact S|constructor]. Qed.
  Lemma pass_nil : forall l, filter (pass []) l = l.
  Proof. induction l as [|x l IH]; [reflexivity|]. cbn. f_equal. exact IH. Qed.
  Lemma step_exact : forall p z, step_sound k d p -> In z (nodes t) -> ~ is_attribute z -> exists la, axis_list t (step_axis p) z la /\
    forall l, step_list f (step_axis p) (ps_test p) (map (fun e => computes (eval k e)) (ps_predicates p)) (d, z) l <-> l = filter (pass (folded p)) (map (pair d) (filter (passing (pattern_test p)) la)).
  Proof.
    intros p z SO IN NA. destruct (enumerated (step_axis p) z IN) as (la & _ & AL). { unfold step_axis. destruct (ps_attribute p); (split; [discriminate|split; [auto|split; discriminate]]). } exists la. split; [exact AL|].
    assert (PK : picks (fun p0 => exists u, subtree t p0 = Some u /\ node_passes (step_axis p) (ps_test p) (t_info u)) la (filter (passing (pattern_test p)) la)).
    { apply filter_picks. intros y Y. apply (axis_in _ _ _ _ AL) in Y. destruct Y as (Y & ON). assert (SY : exists st, y = st :: z) by (unfold step_axis in ON; destruct (ps_attribute p); [destruct ON as (i & u & E & _); eauto|destruct ON as (_ & st & E); eauto]). destruct SY as (st & ->).
      unfold passing. destruct (subtree t (st :: z)) as [u|] eqn:U; [|split; [discriminate|intros (u & E & _); discriminate]]. rewrite (pattern_test_ok p st z u SO Y U). split; [eauto|]. intros (u' & E & P). injection E as <-. exact P. }
    assert (FI : filtered (map (fun e => computes (eval k e)) (ps_predicates p)) (map (pair d) (filter (passing (pattern_test p)) la)) (filter (pass (folded p)) (map (pair d) (filter (passing (pattern_test p)) la)))).
    { destruct SO as (HV & SO). unfold folded. destruct (ps_attribute p) eqn:EA.
      - destruct SO as (BT & _). rewrite fold_truth by exact BT. cbn [app]. replace (map (fun e => computes (eval k e)) (ps_predicates p)) with (map computes (map (pred_value k) (map Plain (ps_predicates p)))) by (rewrite !map_map; reflexivity). apply filtered_sure; [|apply (all_ok (step_axis p) z); exact AL]. rewrite Forall_forall in *. intros q Q. apply in_map_iff in Q. destruct Q as (e & <- & I). apply truth_sure; auto.
      - unfold step_axis in AL. rewrite EA in AL. pose proof (fold_filtered (pattern_test p) z la (ps_predicates p) [] IN NA AL HV SO (Forall_nil _)) as F. rewrite pass_nil in F. exact F. }
    intros l. split.
    - intros (la' & te & AL' & PK' & FI'). cbn [fst snd] in AL', PK', FI'. fold t in AL', PK'. rewrite (axis_same _ _ _ _ _ AL' AL) in PK'. rewrite (picks_same _ _ _ _ PK' PK) in FI'. rewrite <- (map_map (eval k) computes) in FI, FI'. exact (filtered_same _ _ _ _ FI' FI).
    - intros ->. exists la, (filter (passing (pattern_test p)) la). cbn [fst snd]. fold t. auto.
  Qed.
  (** The node is one that the step could end at. *)
  Definition fit (p : pstep) (y : xnode) : Prop :=
    passing (pattern_test p) (snd y) = true /\ (if ps_attribute p then is_kind t (snd y) Xattribute = true else is_kind t (snd y) Xattribute = false) /\ pass (folded p) y = true.
  Lemma fit_iff : forall p y, step_sound k d p -> fst y = d -> matchable t (snd y) -> (fit p y <-> exists st z, snd y = st :: z /\ exists l, step_list f (step_axis p) (ps_test p) (map (fun e => computes (eval k e)) (ps_predicates p)) (d, z) l /\ In y l).
  Proof.
    intros p (e & y) SO D (IN & MA). cbn [fst snd] in *. subst e. split.
    - intros (PA & KI & PS). cbn [snd] in *. destruct y as [|st z]; [unfold passing in PA; cbn [subtree] in PA; rewrite root_fails in PA; [discriminate|apply WD]|]. exists st, z. split; [reflexivity|]. destruct (node_above st z IN) as (IZ & KZ & ST). destruct (step_exact p z SO IZ (kids_no_attribute z KZ)) as (la & AL & EX). eexists. split; [apply EX; reflexivity|]. apply filter_In. split; [|exact PS]. apply in_map_iff. exists (st :: z). split; [reflexivity|]. apply filter_In. split; [|exact PA]. apply (axis_in _ _ _ _ AL). split; [exact IN|].
      unfold passing in PA. destruct (subtree t (st :: z)) as [u|] eqn:U; [|discriminate]. destruct (below_kind st z u IN U) as (_ & _ & _ & AK). unfold is_kind in KI. rewrite U in KI. unfold step_axis. destruct (ps_attribute p).
      + assert (A : t_kind u = Xattribute) by (destruct (t_kind u); try discriminate; reflexivity). pose proof (proj1 AK A) as (i & ->). exists i, u. split; [reflexivity|]. split; [exact U|]. exact (MA u eq_refl A).
      + split; [|eauto]. intros (i & r & E). injection E as -> ->. assert (A : t_kind u = Xattribute) by (apply AK; eauto). rewrite A in KI. discriminate.
    - intros (st & z & -> & l & SL & I). destruct (node_above st z IN) as (IZ & KZ & ST). destruct (step_exact p z SO IZ (kids_no_attribute z KZ)) as (la & AL & EX). apply EX in SL. subst l. apply filter_In in I. destruct I as (I & PS). apply in_map_iff in I. destruct I as (y & E & I). injection E as ->. apply filter_In in I. destruct I as (I & PA). apply (axis_in _ _ _ _ AL) in I. destruct I as (_ & ON). split; [exact PA|]. split; [|exact PS]. cbn [snd].
      unfold passing in PA. destruct (subtree t (st :: z)) as [u|] eqn:U; [|discriminate]. destruct (below_kind st z u IN U) as (_ & _ & _ & AK). unfold is_kind. rewrite U. unfold step_axis in ON. destruct (ps_attribute p).
      + destruct ON as (i & u' & E & _). injection E as ->. rewrite (proj2 AK) by eauto. reflexivity.
      + destruct ON as (NO & _). destruct (t_kind u) eqn:TU; try reflexivity. exfalso. apply NO. destruct (proj1 AK eq_refl) as (i & ->). exists i, z. reflexivity.
  Qed.

  (** The code's steps, upwards. *)
  Definition hop : Type := axis * node_test * list mpred.
  Definition to_step (h : hop) : step := let '(a, n, qs) := h in TestStep a n (map (pred_value k) qs).
  Definition upward (h : hop) : Prop := let '(a, _, qs) := h in (a = Self \/ a = Parent \/ a = AncestorOrSelf) /\ Forall sure qs.
  Fixpoint chain (hs : list hop) (x y : xnode) : Prop :=
    match hs with
    | [] => x = y
    | (a, n, qs) :: r => exists z, ok z /\ on_axis t a (snd x) (snd z) /\ passing n (snd z) = true /\ pass qs z = true /\ chain r z y
    end.
  Lemma over_all_ok : forall a n qs, upward (a, n, qs) -> forall l results, Forall ok l -> s_sorted results = false -> exists r, over_all f a n (map (pred_value k) qs) l results = Got r /\ s_sorted r = false /\
    forall y, In y (s_nodes r) <-> In y (s_nodes results) \/ exists x, In x l /\ ok y /\ on_axis t a (snd x) (snd y) /\ passing n (snd y) = true /\ pass qs y = true.
  Proof.
    intros a n qs (UA & SQ). assert (PR : forall x, provided t a x) by (intros x; destruct UA as [->|[->| ->]]; (split; [discriminate|split; [discriminate|split; discriminate]])). induction l as [|x l IH]; intros results F SF; cbn [over_all].
    - exists results. split; [reflexivity|]. split; [exact SF|]. intros y. split; [auto|]. intros [I|(x & [] & _)]. exact I.
    - inversion F as [|? ? X F']; subst. destruct (enumerated a (snd x)) as (la & _ & AL); [apply X|apply PR|]. pose proof (filtered_sure qs SQ (map (pair d) (filter (passing n) la)) (all_ok a (snd x) la (passing n) AL)) as FI.
      destruct (over_ok a n (map (pred_value k) qs) x la _ results X (PR _) AL SF FI) as (r1 & E & N & S). rewrite E. cbn [andthen]. destruct (IH r1 F' S) as (r & E2 & S2 & M). exists r. split; [exact E2|]. split; [exact S2|]. intros y. rewrite M, N, in_app_iff.
      assert (ST : In y (filter (pass qs) (map (pair d) (filter (passing n) la))) <-> ok y /\ on_axis t a (snd x) (snd y) /\ passing n (snd y) = true /\ pass qs y = true).
      { rewrite filter_In, in_map_iff. split.
        - intros ((p & <- & I) & P). apply filter_In in I. destruct I as (I & T). apply (axis_in _ _ _ _ AL) in I. destruct I as (I & ON). split; [split; [reflexivity|split; [exact I|discriminate]]|]. auto.
        - intros ((D & I & _) & ON & T & P). split; [|exact P]. exists (snd y). split; [destruct y; cbn [fst snd] in *; congruence|]. apply filter_In. split; [|exact T]. apply (axis_in _ _ _ _ AL). auto. }
      rewrite ST. split.
      + intros [[I|I]|(x' & I & R)]; [left; exact I|right; exists x; split; [left; reflexivity|exact I]|right; exists x'; split; [right; exact I|exact R]].
      + intros [I|(x' & [E'|I] & R)]; [left; left; exact I|subst; left; right; exact R|right; exists x'; auto].
  Qed.
  Lemma chain_steps : forall hs, Forall upward hs -> forall nodes p l, s_sorted nodes = false -> Forall ok (s_nodes nodes) -> exists r, steps_value (e_sort k) f (map to_step hs) nodes p l = Got r /\ s_sorted r = false /\ Forall ok (s_nodes r) /\
    forall y, In y (s_nodes r) <-> exists x, In x (s_nodes nodes) /\ chain hs x y.
  Proof.
    induction 1 as [|((a, n), qs) hs U _ IH]; intros nodes p l SF F; cbn [map steps_value].
    - exists nodes. split; [reflexivity|]. split; [exact SF|]. split; [exact F|]. intros y. split; [intros I; exists y; split; [exact I|reflexivity]|intros (x & I & E); cbn [chain] in E; subst; exact I].
    - cbn [to_step step_value]. destruct (over_all_ok a n qs U (s_nodes nodes) (new_set true) F eq_refl) as (r1 & E & S & M). rewrite E. cbn [andthen as_set]. destruct (IH r1 p l S) as (r & E2 & S2 & F2 & M2).
      { rewrite Forall_forall. intros y I. apply M in I. destruct I as [[]|(x & _ & O & _)]. exact O. }
      exists r. split; [exact E2|]. split; [exact S2|]. split; [exact F2|]. intros y. rewrite M2. split.
      + intros (z & I & C). apply M in I. destruct I as [[]|(x & I & O & ON & T & P)]. exists x. split; [exact I|]. cbn [chain]. exists z. auto.
      + intros (x & I & z & O & ON & T & P & C). exists z. split; [|exact C]. apply M. right. exists x. auto.
  Qed.
  Lemma path_answer : forall hs x, Forall upward hs -> ok x -> exists b, andthen (relative_path (e_sort k) f (map to_step hs) x (-1) (-1)) (fun v => Got (as_bool v)) = Got b /\ (b = true <-> exists y, chain hs x y).
  Proof.
    intros hs x U X. unfold relative_path. destruct (chain_steps hs U (push_node x (new_set true)) (-1) (-1)) as (r & E & S & F & M); [reflexivity|constructor; [exact X|constructor]|]. rewrite E. cbn [andthen]. eexists. split; [reflexivity|].
    destruct (good_sort (e_sort k) f d SS DOC true r (good_unsorted f d OWN WD true r S F)) as (_ & _ & M'). cbn [as_bool]. unfold set_as_bool. destruct (s_nodes (sort (e_sort k) f r)) as [|y l] eqn:EL.
    - split; [discriminate|]. intros (y & C). exfalso. assert (I : In y []) by (apply M', M; exists x; split; [left; reflexivity|exact C]). exact I.
    - split; [intros _|reflexivity]. exists y. assert (I : In y (s_nodes r)) by (apply M'; left; reflexivity). apply M in I. destruct I as (x' & [<-|[]] & C). exact C.
  Qed.
  (** The steps of a pattern as the code has them. *)
  Definition pair_hops (a : axis) (p : pstep) : list hop := [(a, pattern_test p, folded p); (Self, if ps_attribute p then AttributeNodeTest else NotAttributeNodeTest, [])].
  Fixpoint push_hops (p : pstep) (rest : list (link * pstep)) (hs : list hop) : list hop :=
    match rest with [] => pair_hops Self p ++ hs | (l, q) :: r => push_hops q r (pair_hops (axis_of l) p ++ hs) end.
  Lemma push_same : forall rest p hs, map to_step (push_hops p rest hs) = push_steps k p rest (map to_step hs).
  Proof. induction rest as [|(l, q) r IH]; intros p hs; cbn [push_hops push_steps]; [reflexivity|]. rewrite IH. reflexivity. Qed.
  Lemma push_upward : forall rest p hs, step_sound k d p -> Forall (fun lq => step_sound k d (snd lq)) rest -> Forall upward hs -> Forall upward (push_hops p rest hs).
  Proof.
    assert (PA : forall a p hs, step_sound k d p -> (a = Self \/ a = Parent \/ a = AncestorOrSelf) -> Forall upward hs -> Forall upward (pair_hops a p ++ hs)).
    { intros a p hs S A F. constructor; [split; [exact A|apply folded_sure; exact S]|]. constructor; [split; [auto|constructor]|exact F]. }
    induction rest as [|(l, q) r IH]; intros p hs S R F; cbn [push_hops]; [apply PA; auto|]. inversion R; subst. apply IH; auto. apply PA; auto. destruct l; auto.
  Qed.
  Lemma chain_pair : forall a p hs x y, chain (pair_hops a p ++ hs) x y <-> exists z, ok z /\ on_axis t a (snd x) (snd z) /\ fit p z /\ chain hs z y.
  Proof.
    intros a p hs x y. cbn [pair_hops app chain]. assert (KP : forall z, ok z -> (passing (if ps_attribute p then AttributeNodeTest else NotAttributeNodeTest) (snd z) = true <-> if ps_attribute p then is_kind t (snd z) Xattribute = true else is_kind t (snd z) Xattribute = false)).
    { intros z (_ & I & _). apply nodes_in in I. destruct I as (I & _). assert (U : exists u, subtree t (snd z) = Some u) by (apply in_order in I; destruct I as [(_ & U)|(i & q & _ & _ & U)]; exact U). destruct U as (u & U). unfold passing, is_kind. rewrite U. unfold t_kind. destruct (ps_attribute p); unfold matches; destruct (i_kind (t_info u)); cbn; split; congruence. }
    split.
    - intros (z & O & ON & T & P & z' & O' & ON' & T' & _ & C). cbn [on_axis] in ON'. assert (z' = z) by (destruct O as (D & _), O' as (D' & _), z, z'; cbn [fst snd] in *; congruence). subst z'. exists z. split; [exact O|]. split; [exact ON|]. split; [|exact C]. split; [exact T|]. split; [apply KP; assumption|exact P].
    - intros (z & O & ON & (T & KI & P) & C). exists z. split; [exact O|]. split; [exact ON|]. split; [exact T|]. split; [exact P|]. exists z. split; [exact O|]. split; [reflexivity|]. split; [apply KP; assumption|]. split; [reflexivity|exact C].
  Qed.
  Lemma above_ok : forall l q, In (l ++ q) (nodes t) -> In q (nodes t) /\ (l <> [] -> kids_only q).
  Proof. induction l as [|st l IH]; intros q I; [split; [exact I|contradiction]|]. cbn [app] in I. destruct (node_above st (l ++ q) I) as (I2 & K & _). destruct (IH q I2) as (I3 & K3). split; [exact I3|]. intros _. destruct l as [|s' l]; [exact K|apply K3; discriminate]. Qed.
  Lemma matchable_kids : forall q, In q (nodes t) -> kids_only q -> matchable t q.
  Proof.
    intros q I K. split; [exact I|]. intros u U A. exfalso. destruct q as [|st q]; [cbn in U; injection U as <-; destruct WD as (TK & _); congruence|]. destruct (below_kind st q u I U) as (_ & _ & _ & AK). destruct (proj1 AK A) as (i & ->). exact K.
  Qed.
  Lemma depth_step : forall x y, In x (nodes t) -> ((exists l, step_list f DescendantOrSelf OfNode [] (d, x) l /\ In y l) <-> fst y = d /\ In (snd y) (nodes t) /\ on_axis t DescendantOrSelf x (snd y)).
  Proof.
    intros x y I. destruct (enumerated DescendantOrSelf x I) as (la & _ & AL); [split; [discriminate|split; [discriminate|split; discriminate]]|]. split.
    - intros (l & (la' & te & AL' & PK & FI) & IL). cbn [fst snd] in *. inversion FI; subst. apply in_map_iff in IL. destruct IL as (q & <- & Q). apply (picks_incl _ _ _ PK) in Q. destruct Q as (Q & _). apply (axis_in _ _ _ _ AL') in Q. split; [reflexivity|exact Q].
    - intros (D & IY & ON). exists (map (pair d) la). split; [exists la, la; cbn [fst snd]; fold t; split; [exact AL|split; [|constructor]]|].
      + replace la with (filter (fun _ : path => true) la) at 2 by (clear; induction la as [|z la IH]; cbn; congruence). apply filter_picks. intros z Z. split; [intros _|reflexivity]. apply (axis_in _ _ _ _ AL) in Z. destruct Z as (Z & _). apply nodes_in in Z. destruct Z as (Z & _). apply in_order in Z. destruct Z as [(_ & u & U)|(j & r & _ & _ & u & U)]; exists u; (split; [exact U|exact Logic.I]).
      + apply in_map_iff. exists (snd y). split; [destruct y; cbn [fst snd] in *; congruence|]. apply (axis_in _ _ _ _ AL). auto.
  Qed.

  Lemma fit_fits : forall p y, step_sound k d p -> ok y -> fit p y -> exists u, subtree t (snd y) = Some u /\ fits p (t_info u).
  Proof.
    intros p y SO (D & IN & _) (PA & KI & _). unfold passing in PA. destruct (subtree t (snd y)) as [u|] eqn:U; [|discriminate]. exists u. split; [reflexivity|]. destruct (snd y) as [|st z]; [cbn in U; injection U as <-; rewrite root_fails in PA; [discriminate|apply WD]|].
    split; [|apply (pattern_test_ok p st z u SO IN U); exact PA]. unfold is_kind in KI. rewrite U in KI. unfold t_kind in KI. destruct (ps_attribute p); destruct (i_kind (t_info u)); cbn in KI; split; congruence.
  Qed.
  Lemma leads_above : forall ws x y, Forall (fun w : axis * test * list meaning => fst (fst w) = Child \/ fst (fst w) = Attribute \/ fst (fst w) = DescendantOrSelf) ws -> leads f ws x y -> fst x = d ->
    fst y = d /\ exists l, snd y = l ++ snd x.
  Proof.
    intros ws x y F L. induction L as [x|a s qs r x y z l SL I L IH]; intros D; [split; [exact D|exists []; reflexivity]|]. inversion F as [|? ? A F']; subst. cbn [fst] in A. destruct SL as (la & te & AL & PK & FI).
    assert (IN : In y (map (pair (fst x)) te)). { clear - FI I. revert I. induction FI as [l|q qs l m n K _ IH]; intros I; [exact I|]. apply (kept_incl _ _ _ _ _ K). auto. }
    apply in_map_iff in IN. destruct IN as (q & <- & Q). apply (picks_incl _ _ _ PK) in Q. destruct Q as (Q & _). apply (axis_in _ _ _ _ AL) in Q. destruct Q as (_ & ON). specialize (IH F' eq_refl). destruct IH as (D' & l' & E). cbn [snd] in E. split; [exact D'|].
    assert (SQ : exists l0, q = l0 ++ snd x). { destruct A as [->|[->| ->]]; cbn [on_axis] in ON; [destruct ON as (_ & st & ->); exists [st]; reflexivity|destruct ON as (j & u & -> & _); exists [Att j]; reflexivity|destruct ON as [(_ & l0 & _ & ->)| ->]; [exists l0; reflexivity|exists []; reflexivity]]. }
    destruct SQ as (l0 & ->). exists (l' ++ l0). rewrite <- app_assoc. exact E.
  Qed.
  Lemma further_down : forall rest, Forall (fun w : axis * test * list meaning => fst (fst w) = Child \/ fst (fst w) = Attribute \/ fst (fst w) = DescendantOrSelf) (further_steps k rest).
  Proof. assert (S : forall p, fst (fst (as_step k p)) = Child \/ fst (fst (as_step k p)) = Attribute \/ fst (fst (as_step k p)) = DescendantOrSelf) by (intros p; cbn; unfold step_axis; destruct (ps_attribute p); auto). induction rest as [|([] & p) r IH]; cbn [further_steps]; repeat (constructor; auto). Qed.
  (** Every node on the way to a node is a node. *)
  Lemma on_the_way : forall ws x y, Forall (fun w : axis * test * list meaning => fst (fst w) = Child \/ fst (fst w) = Attribute \/ fst (fst w) = DescendantOrSelf) ws -> leads f ws x y -> fst x = d -> matchable t (snd y) -> matchable t (snd x).
  Proof.
    intros ws x y F L D M. destruct (leads_above ws x y F L D) as (_ & l & E). destruct l as [|st l]; [cbn in E; rewrite <- E; exact M|]. destruct M as (I & _). rewrite E in I. destruct (above_ok _ _ I) as (I2 & K). apply matchable_kids; [exact I2|apply K; discriminate].
  Qed.
  Notation preds p := (map (fun e => computes (eval k e)) (ps_predicates p)).
  Lemma push_iff : forall rest p hs x, step_sound k d p -> Forall (fun lq => step_sound k d (snd lq)) rest -> links_sound p rest -> fst x = d -> matchable t (snd x) ->
    ((exists e, chain (push_hops p rest hs) x e) <-> exists y, fst y = d /\ matchable t (snd y) /\ fit p y /\ (exists e, chain hs y e) /\ leads f (further_steps k rest) y x).
  Proof.
    induction rest as [|(l, q) rest IH]; intros p hs x SO SR LS D M; cbn [push_hops].
    - split.
      + intros (e & C). apply chain_pair in C. destruct C as (z & O & ON & F & C). cbn [on_axis] in ON. assert (z = x) by (destruct O as (D' & _), z, x; cbn [fst snd] in *; congruence). subst z. exists x. split; [exact D|]. split; [exact M|]. split; [exact F|]. split; [eauto|constructor].
      + intros (y & Dy & My & F & (e & C) & L). inversion L; subst. exists e. apply chain_pair. exists x. split; [split; [exact Dy|split; [apply My|discriminate]]|]. split; [reflexivity|]. auto.
    - inversion SR as [|? ? SQ SR']; subst. cbn [snd] in SQ. assert (LQ : links_sound q rest) by (destruct l; apply LS). rewrite (IH q _ x SQ SR' LQ D M). split.
      + intros (y2 & D2 & M2 & F2 & (e & C) & L). apply chain_pair in C. destruct C as (y1 & O1 & ON & F1 & C). assert (M1 : y1 <> y2 -> matchable t (snd y1)).
        { intros NE. destruct M2 as (I2 & _). assert (UP : exists l0, l0 <> [] /\ snd y2 = l0 ++ snd y1). { destruct l; cbn [axis_of on_axis] in ON; [destruct ON as (st & ->); exists [st]; split; [discriminate|reflexivity]|]. destruct ON as [(l0 & N & E)|E]; [exists l0; auto|]. exfalso. apply NE. destruct O1 as (D1 & _), y1, y2; cbn [fst snd] in *; congruence. } destruct UP as (l0 & N & E). rewrite E in I2. destruct (above_ok _ _ I2) as (I1 & K). apply matchable_kids; auto. }
        destruct O1 as (D1 & I1 & _). destruct l; cbn [axis_of on_axis] in ON.
        * destruct ON as (st & E2). assert (NE : y1 <> y2) by (intros ->; clear - E2; assert (length (snd y2) = length (st :: snd y2)) by congruence; cbn in *; lia). exists y1. split; [exact D1|]. split; [exact (M1 NE)|]. split; [exact F1|]. split; [eauto|]. cbn [further_steps]. apply (fit_iff q y2 SQ D2 M2) in F2. destruct F2 as (st' & z & E3 & l & SL & I). rewrite E2 in E3. injection E3 as <- <-. eapply leads_on; [|exact I|exact L]. rewrite <- D1 in SL. rewrite <- surjective_pairing in SL. exact SL.
        * destruct LS as (AP & _). destruct ON as [(l0 & N & E2)|E2].
          -- assert (NE : y1 <> y2) by (intros ->; assert (length (snd y2) = length (l0 ++ snd y2)) as LL by congruence; rewrite app_length in LL; destruct l0; [contradiction|cbn in LL; lia]). exists y1. split; [exact D1|]. split; [exact (M1 NE)|]. split; [exact F1|]. split; [eauto|]. cbn [further_steps]. apply (fit_iff q y2 SQ D2 M2) in F2. destruct F2 as (st & z & E3 & l & SL & I).
             destruct M2 as (I2 & _). rewrite E3 in I2. destruct (node_above st z I2) as (IZ & KZ & _). assert (DZ : on_axis t DescendantOrSelf (snd y1) z). { rewrite E2 in E3. destruct l0 as [|s0 l0]; [contradiction|]. cbn [app] in E3. injection E3 as <- EZ. cbn [on_axis]. destruct l0 as [|s1 l0]; [right; symmetry; exact EZ|left]. split; [apply kids_no_attribute; exact KZ|]. exists (s1 :: l0). split; [discriminate|symmetry; exact EZ]. }
             pose proof (proj2 (depth_step (snd y1) (d, z) I1)) as DS. cbn [fst snd] in DS. destruct (DS (conj eq_refl (conj IZ DZ))) as (l1 & SL1 & I1'). eapply leads_on; [|exact I1'|eapply leads_on; [exact SL|exact I|exact L]]. rewrite <- D1 in SL1. rewrite <- surjective_pairing in SL1. exact SL1.
          -- exfalso. assert (y1 = y2) by (destruct y1, y2; cbn [fst snd] in *; congruence). subst y1. assert (O2 : ok y2) by (split; [exact D2|split; [exact I1|discriminate]]). destruct (fit_fits p y2 SO O2 F1) as (u & U & A). destruct (fit_fits q y2 SQ O2 F2) as (u' & U' & A'). assert (u = u') by congruence. subst. exact (AP _ A A').
      + intros (y1 & D1 & M1 & F1 & (e & C) & L). destruct l; cbn [further_steps] in L.
        * inversion L as [|? ? ? ? ? y2 ? l0 SL I L']; subst. destruct (leads_above [as_step k q] y1 y2) as (D2 & _); [constructor; [cbn; unfold step_axis; destruct (ps_attribute q); auto|constructor]|eapply leads_on; [exact SL|exact I|constructor]|exact D1|].
          assert (M2 : matchable t (snd y2)) by (eapply on_the_way; [apply further_down|exact L'|exact D2|exact M]). assert (F2 : exists st, snd y2 = st :: snd y1). { destruct (leads_above [as_step k q] y1 y2) as (_ & l1 & E); [constructor; [cbn; unfold step_axis; destruct (ps_attribute q); auto|constructor]|eapply leads_on; [exact SL|exact I|constructor]|exact D1|]. destruct SL as (la & te & AL & PK & FI). assert (IT : In y2 (map (pair (fst y1)) te)). { clear - FI I. revert I. induction FI as [l|q0 qs l m n K _ IH]; intros I; [exact I|]. apply (kept_incl _ _ _ _ _ K). auto. } apply in_map_iff in IT. destruct IT as (z & <- & Z). apply (picks_incl _ _ _ PK) in Z. destruct Z as (Z & _). apply (axis_in _ _ _ _ AL) in Z. destruct Z as (_ & ON). cbn [snd]. unfold step_axis in ON. destruct (ps_attribute q); [destruct ON as (i & u & E1 & _); eauto|destruct ON as (_ & st & E1); eauto]. }
          destruct F2 as (st & E2). exists y2. split; [exact D2|]. split; [exact M2|]. split; [|split; [|assumption]].
          -- apply (fit_iff q y2 SQ D2 M2). exists st, (snd y1). split; [exact E2|]. exists l0. split; [|exact I]. rewrite <- D1, <- surjective_pairing. exact SL.
          -- exists e. apply chain_pair. exists y1. split; [split; [exact D1|split; [apply M1|discriminate]]|]. split; [exists st; exact E2|]. auto.
        * inversion L as [|? ? ? ? ? z ? l0 SL I L']; subst. assert (DZ : fst z = d /\ In (snd z) (nodes t) /\ on_axis t DescendantOrSelf (snd y1) (snd z)) by (apply (depth_step (snd y1) z (proj1 M1)); exists l0; split; [|exact I]; rewrite <- D1, <- surjective_pairing; exact SL). destruct DZ as (Dz & IZ & ON).
          inversion L' as [|? ? ? ? ? y2 ? l1 SL2 I2 L2]; subst. destruct (leads_above [as_step k q] z y2) as (D2 & _); [constructor; [cbn; unfold step_axis; destruct (ps_attribute q); auto|constructor]|eapply leads_on; [exact SL2|exact I2|constructor]|exact Dz|].
          assert (M2 : matchable t (snd y2)) by (eapply on_the_way; [apply further_down|exact L2|exact D2|exact M]). assert (F2 : exists st, snd y2 = st :: snd z). { pose proof SL2 as SL3. destruct SL3 as (la & te & AL & PK & FI). assert (IT : In y2 (map (pair (fst z)) te)). { clear - FI I2. revert I2. induction FI as [l|q0 qs l m n K _ IH]; intros I; [exact I|]. apply (kept_incl _ _ _ _ _ K). auto. } apply in_map_iff in IT. destruct IT as (w & <- & W). apply (picks_incl _ _ _ PK) in W. destruct W as (W & _). apply (axis_in _ _ _ _ AL) in W. destruct W as (_ & OW). cbn [snd]. unfold step_axis in OW. destruct (ps_attribute q); [destruct OW as (i & u & E1 & _); eauto|destruct OW as (_ & st & E1); eauto]. }
          destruct F2 as (st & E2). exists y2. split; [exact D2|]. split; [exact M2|]. split; [|split; [|assumption]].
          -- apply (fit_iff q y2 SQ D2 M2). exists st, (snd z). split; [exact E2|]. exists l1. split; [|exact I2]. rewrite <- Dz, <- surjective_pairing. exact SL2.
          -- exists e. apply chain_pair. exists y1. split; [split; [exact D1|split; [apply M1|discriminate]]|]. split; [|auto]. cbn [axis_of on_axis]. left. cbn [on_axis] in ON. destruct ON as [(_ & l2 & N & E3)|E3]; [exists (st :: l2)|exists [st]]; (split; [discriminate|]); rewrite E2, E3; reflexivity.
  Qed.

  Lemma step_down : forall q x y l, step_list f (step_axis q) (ps_test q) (preds q) x l -> In y l -> fst y = fst x /\ exists st, snd y = st :: snd x.
  Proof.
    intros q x y l (la & te & AL & PK & FI) I. assert (IT : In y (map (pair (fst x)) te)). { clear - FI I. revert I. induction FI as [l|q0 qs l m n K _ IH]; intros I; [exact I|]. apply (kept_incl _ _ _ _ _ K). auto. } apply in_map_iff in IT. destruct IT as (z & <- & Z). apply (picks_incl _ _ _ PK) in Z. destruct Z as (Z & _). apply (axis_in _ _ _ _ AL) in Z. destruct Z as (_ & ON). cbn [fst snd]. split; [reflexivity|]. unfold step_axis in ON. destruct (ps_attribute q); [destruct ON as (i & u & E1 & _); eauto|destruct ON as (_ & st & E1); eauto].
  Qed.
  Lemma first_step : forall p ws x c, step_sound k d p -> Forall (fun w : axis * test * list meaning => fst (fst w) = Child \/ fst (fst w) = Attribute \/ fst (fst w) = DescendantOrSelf) ws -> fst x = d -> matchable t (snd x) ->
    (leads f (as_step k p :: ws) (d, c) x <-> exists (y : xnode) st, fst y = d /\ snd y = st :: c /\ matchable t (snd y) /\ fit p y /\ leads f ws y x).
  Proof.
    intros p ws x c SO DN D M. split.
    - intros L. inversion L as [|? ? ? ? ? y ? l SL I L']; subst. destruct (step_down p _ y l SL I) as (Dy & st & E). cbn [fst snd] in Dy, E. assert (My : matchable t (snd y)) by (eapply on_the_way; eauto). exists y, st. split; [exact Dy|]. split; [exact E|]. split; [exact My|]. split; [|exact L']. apply (fit_iff p y SO Dy My). exists st, c. split; [exact E|]. exists l. split; [exact SL|exact I].
    - intros (y & st & Dy & E & My & F & L). apply (fit_iff p y SO Dy My) in F. destruct F as (st' & z & E' & l & SL & I). rewrite E in E'. injection E' as <- <-. eapply leads_on; eauto.
  Qed.
  Lemma root_test : forall y, ok y -> (passing RootNodeTest (snd y) = true <-> snd y = []).
  Proof.
    intros y (_ & I & _). destruct (snd y) as [|st z]; [split; [reflexivity|]; intros _; unfold passing; cbn [subtree]; unfold matches; destruct WD as (TK & _); unfold t_kind in TK; rewrite TK; reflexivity|]. split; [|discriminate]. unfold passing. destruct (subtree t (st :: z)) as [u|] eqn:U; [|discriminate]. destruct (below_kind st z u I U) as (K1 & K2 & _). unfold matches. unfold t_kind in *. destruct (i_kind (t_info u)); try discriminate; contradiction.
  Qed.
  Lemma root_node : In [] (nodes t).
  Proof. apply nodes_in. split; [apply in_order; left; split; [exact Logic.I|exists t; reflexivity]|]. unfold continues, is_text. cbn [subtree]. destruct WD as (TK & _). unfold tree_is_text. rewrite TK. reflexivity. Qed.
  Lemma leads_next : forall a s qs r x z, leads f ((a, s, qs) :: r) x z -> exists y l, step_list f a s qs x l /\ In y l /\ leads f r y z.
  Proof. intros a s qs r x z L. inversion L; subst. eauto. Qed.
  (** What the steps amount to. *)
  Definition start_hops (s : start) : list hop := match s with FromRoot => [(Parent, RootNodeTest, [])] | _ => [] end.
  Lemma start_iff : forall s y, fst y = d -> matchable t (snd y) -> snd y <> [] -> ((exists e, chain (start_hops s) y e) <-> match s with FromRoot => exists st, snd y = [st] | _ => True end).
  Proof.
    intros s y D (I & _) NE. destruct s; cbn [start_hops chain]; [split; [auto|intros _; eauto]| |split; [auto|intros _; eauto]]. split.
    - intros (e & z & O & (st & E) & T & _). apply (root_test z O) in T. rewrite T in E. eauto.
    - intros (st & E). exists (d, []), (d, []). assert (O : ok (d, [])) by (split; [reflexivity|split; [exact root_node|discriminate]]). split; [exact O|]. split; [exists st; exact E|]. split; [apply (root_test (d, [])); [exact O|reflexivity]|]. split; reflexivity.
  Qed.
  Lemma fit_below : forall p y, fit p y -> snd y <> [].
  Proof. intros p y (PA & _) E. rewrite E in PA. unfold passing in PA. cbn [subtree] in PA. rewrite root_fails in PA; [discriminate|apply WD]. Qed.
  Lemma start_match : forall s p rest x, step_sound k d p -> fst x = d -> matchable t (snd x) ->
    ((exists y, fst y = d /\ matchable t (snd y) /\ fit p y /\ (exists e, chain (start_hops s) y e) /\ leads f (further_steps k rest) y x) <-> is_match k (Steps s p rest) x).
  Proof.
    intros s p rest x SO D M. pose proof (further_down rest) as DN. cbn [is_match]. fold f. rewrite D. split.
    - intros (y & Dy & My & F & C & L). pose proof (fit_below p y F) as NE. apply (start_iff s y Dy My NE) in C. destruct (snd y) as [|st z] eqn:E; [contradiction|]. assert (L1 : leads f (as_step k p :: further_steps k rest) (d, z) x) by (apply first_step; auto; exists y, st; rewrite E; auto). destruct s.
      + exists z. split; [|exact L1]. left. destruct (leads_above _ _ _ DN L Dy) as (_ & l & EL). exists (l ++ [st]). split; [destruct l; discriminate|]. rewrite EL, E, <- app_assoc. reflexivity.
      + destruct C as (st' & E'). injection E' as -> ->. exact L1.
      + destruct My as (I & _). destruct (node_above st z I) as (IZ & KZ & _). assert (DS : exists l, step_list f DescendantOrSelf OfNode [] (d, []) l /\ In (d, z) l). { apply (depth_step [] (d, z) root_node). split; [reflexivity|]. split; [exact IZ|]. cbn [snd on_axis]. destruct z as [|s0 z]; [right; reflexivity|left]. split; [apply kids_no_attribute; exact KZ|]. exists (s0 :: z). split; [discriminate|rewrite app_nil_r; reflexivity]. }
        destruct DS as (l & SL & IL). eapply leads_on; [exact SL|exact IL|exact L1].
    - intros H. assert (G : exists z, leads f (as_step k p :: further_steps k rest) (d, z) x /\ match s with FromRoot => z = [] | _ => True end).
      { destruct s; [destruct H as (c & _ & H); eauto|eauto|]. apply leads_next in H. destruct H as (y & l & SL & I & L'). exists (snd y). split; [|exact Logic.I]. assert (Dy : fst y = d) by (apply (depth_step [] y root_node); eauto). rewrite <- Dy, <- surjective_pairing. exact L'. }
      destruct G as (z & L & Z). apply first_step in L; auto. destruct L as (y & st & Dy & E & My & F & L). exists y. split; [exact Dy|]. split; [exact My|]. split; [exact F|]. split; [|exact L]. apply (start_iff s y Dy My (fit_below p y F)). destruct s; auto. subst z. eauto.
  Qed.
  Lemma location_lemma : forall p x, location_sound k d p -> fst x = d -> matchable t (snd x) -> exists b, location_matches k p x = Got b /\ (b = true <-> is_match k p x).
  Proof.
    intros p x LS D M. assert (O : ok x) by (split; [exact D|split; [apply M|discriminate]]). unfold location_matches. fold f. destruct p as [|s p rest].
    - destruct (path_answer [(Self, RootNodeTest, [])] x) as (b & E & B); [constructor; [split; [auto|constructor]|constructor]|exact O|]. exists b. split; [exact E|]. rewrite B. cbn [chain is_match]. split.
      + intros (y & z & Oz & ON & T & _). cbn [on_axis] in ON. apply (root_test z Oz) in T. congruence.
      + intros E0. exists x, x. split; [exact O|]. split; [reflexivity|]. split; [apply (root_test x O); exact E0|]. split; reflexivity.
    - destruct LS as (SO & SR & LK). pose proof (start_match s p rest x SO D M) as SM. match type of SM with ?Q <-> _ => cut (exists b, andthen (relative_path (e_sort k) f (location_steps k (Steps s p rest)) x (-1) (-1)) (fun v => Got (as_bool v)) = Got b /\ (b = true <-> Q)); [intros (b & E & B); exists b; split; [exact E|rewrite B; exact SM]|] end. clear SM. assert (GEN : exists b, andthen (relative_path (e_sort k) f (push_steps k p rest (map to_step (start_hops s))) x (-1) (-1)) (fun v => Got (as_bool v)) = Got b /\ (b = true <-> exists y, fst y = d /\ matchable t (snd y) /\ fit p y /\ (exists e, chain (start_hops s) y e) /\ leads f (further_steps k rest) y x)).
      { rewrite <- push_same. destruct (path_answer (push_hops p rest (start_hops s)) x) as (b & E & B); [apply push_upward; auto; destruct s; cbn [start_hops]; try apply Forall_nil; (apply Forall_cons; [split; [right; left; reflexivity|apply Forall_nil]|apply Forall_nil])|exact O|]. exists b. split; [exact E|]. rewrite B. apply push_iff; auto. }
      assert (SAME : map to_step (start_hops s) = match s with FromRoot => [TestStep Parent RootNodeTest []] | _ => [] end) by (destruct s; reflexivity). rewrite SAME in GEN. cbn [location_steps]. destruct s; try exact GEN. destruct (ps_attribute p) eqn:EA; try exact GEN. destruct (ps_spelled p); try exact GEN. destruct (ps_predicates p) as [|q qs] eqn:EP; try exact GEN. destruct rest as [|lq rest]; try exact GEN. clear GEN SAME.
      destruct (path_answer [(Self, NotAttributeNodeTest, []); (Self, pattern_test p, [])] x) as (b & E & B); [repeat (constructor; [split; [auto|constructor]|]); constructor|exact O|]. exists b. split; [exact E|]. rewrite B. assert (FIT : fit p x <-> passing NotAttributeNodeTest (snd x) = true /\ passing (pattern_test p) (snd x) = true).
      { unfold fit, folded. rewrite EA, EP. cbn [fold_predicates]. assert (KP : passing NotAttributeNodeTest (snd x) = true <-> is_kind t (snd x) Xattribute = false). { destruct M as (I & _). apply nodes_in in I. destruct I as (I & _). assert (U : exists u, subtree t (snd x) = Some u) by (apply in_order in I; destruct I as [(_ & U)|(i & q & _ & _ & U)]; exact U). destruct U as (u & U). unfold passing, is_kind. rewrite U. unfold t_kind, matches. destruct (i_kind (t_info u)); cbn; split; congruence. } rewrite KP. split; [intros (A & C & _); auto|intros (A & C); auto]. }
      cbn [chain further_steps start_hops]. split.
      + intros (y & z & Oz & ON & T & _ & z' & Oz' & ON' & T' & _). cbn [on_axis] in ON, ON'. exists x. split; [exact D|]. split; [exact M|]. split; [apply FIT; rewrite ON' , ON in T'; rewrite ON in T; auto|]. split; [eauto|constructor].
      + intros (y & Dy & My & F & _ & L). inversion L; subst. apply FIT in F. destruct F as (F1 & F2). exists x, x. split; [exact O|]. split; [reflexivity|]. split; [exact F1|]. split; [reflexivity|]. exists x. split; [exact O|]. split; [reflexivity|]. split; [exact F2|]. split; reflexivity.
  Qed.
End Document.

Lemma pattern_lemma : forall k d ps x, sorts (e_sort k) -> documents (e_forest k) -> f_doc (e_forest k) d = d -> whole_document (f_tree (e_forest k) d) -> one_root (f_tree (e_forest k) d) ->
  Forall (location_sound k d) ps -> fst x = d -> matchable (f_tree (e_forest k) d) (snd x) ->
  exists b, pattern_matches k ps x = Got b /\ (b = true <-> exists p, In p ps /\ is_match k p x).
Proof.
  intros k d ps x SS DOC OWN WD ONE F D M. induction F as [|p ps L _ IH]; cbn [pattern_matches].
  - exists false. split; [reflexivity|]. split; [discriminate|]. intros (p & [] & _).
  - destruct (location_lemma k d SS DOC OWN WD ONE p x L D M) as (b & E & B). rewrite E. cbn [andthen]. destruct b.
    + exists true. split; [reflexivity|]. split; [intros _; exists p; split; [left; reflexivity|apply B; reflexivity]|reflexivity].
    + destruct IH as (b & E2 & B2). exists b. split; [exact E2|]. rewrite B2. split; [intros (q & I & Q); exists q; split; [right; exact I|exact Q]|]. intros (q & [<-|I] & Q); [apply B in Q; discriminate|exists q; auto].
Qed.
(** A step has one result, the code's. *)
Lemma step_unique : forall f a s qs x l m, step_list f a s (map computes qs) x l -> step_list f a s (map computes qs) x m -> l = m.
Proof.
  intros f a s qs x l m (la & ta & A1 & A2 & A3) (lb & tb & B1 & B2 & B3). rewrite (axis_same _ _ _ _ _ A1 B1) in A2. rewrite (picks_same _ _ _ _ A2 B2) in A3. exact (filtered_same _ _ _ _ A3 B3).
Qed.
Lemma code_gives : forall f d a s qs x r, documents f -> f_doc f d = d -> whole_document (f_tree f d) -> fst x = d -> In (snd x) (nodes (f_tree f d)) -> ~ is_attribute (snd x) -> step_allowed (f_tree f d) false a s ->
  enumerate_over f a (get_test a s) qs x (new_set true) = Got r -> step_list f a s (map computes qs) x (s_nodes r).
Proof.
  intros f d a s qs x r DOC OWN WD D I NA SA E. destruct (step_lemma f d OWN WD a s qs (map computes qs) false x (new_set true) r) as (S & _); auto; [split; [exact D|split; [exact I|auto]]|apply computes_all|].
  unfold from_one in S. rewrite E in S. exact S.
Qed.
