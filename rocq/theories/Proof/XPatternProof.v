(** The texts of patterns: the trees they are parsed to, and what these are compiled to. *)
From Coq Require Import String Floats.SpecFloat.
From Verif.Model Require Import Base XNode XAxis XNodeSet XCompare XStep XSort XEval XMatch XParse XPattern.
From Verif.Spec Require Import XParseSpec XPatternSpec.
From Verif.Proof Require Import XParsePeg XParseToken XParseTree XParseStep XParseProof.
From Verif.Spec Require Import XPatternSpec.
From Coq Require Import Lia Bool List. Import ListNotations. Open Scope Z_scope.

Lemma half_is : quarters 2 = half. Proof. vm_compute. reflexivity. Qed.
Lemma zero_is : quarters 0 = zero. Proof. vm_compute. reflexivity. Qed.
Lemma minus_half_is : quarters (-2) = minus_half. Proof. vm_compute. reflexivity. Qed.
Lemma minus_quarter_is : quarters (-1) = minus_quarter. Proof. vm_compute. reflexivity. Qed.
Global Opaque half zero minus_half minus_quarter.

(** * Compiled steps *)
Definition pair_of (a : axis) (p : pstep) : list mstep :=
  [MStep a (pattern_test p) (ps_predicates p); MStep Self (if ps_attribute p then AttributeNodeTest else NotAttributeNodeTest) []].
Fixpoint push (p : pstep) (rest : list (link * pstep)) (acc : list mstep) : list mstep :=
  match rest with [] => pair_of Self p ++ acc | (l, q) :: r => push q r (pair_of (axis_of l) p ++ acc) end.
Definition root_steps (s : start) : list mstep := match s with FromRoot => [MStep Parent RootNodeTest []] | _ => [] end.
Definition compiled (p : XMatch.location) : list mstep :=
  match p with
  | TheRoot => [MStep Self RootNodeTest []]
  | Steps s first rest =>
      match s, ps_attribute first, ps_spelled first, ps_predicates first, rest with
      | Anywhere, false, false, [], [] => [MStep Self NotAttributeNodeTest []; MStep Self (pattern_test first) []]
      | _, _, _, _, _ => push first rest (root_steps s)
      end
  end.
Lemma run_push k rest : forall p acc, map (run_step k) (push p rest acc) = push_steps k p rest (map (run_step k) acc).
Proof.
  induction rest as [|[l q] r IH]; intros p acc; [|cbn [push push_steps]; rewrite IH]; cbn [push push_steps]; rewrite map_app; reflexivity.
Qed.
Lemma run_compiled k p : map (run_step k) (compiled p) = location_steps k p.
Proof.
  destruct p as [|s f r]; [reflexivity|]. cbn [compiled location_steps].
  assert (map (run_step k) (push f r (root_steps s)) = push_steps k f r (match s with FromRoot => [TestStep Parent RootNodeTest []] | _ => [] end)) as E by (rewrite run_push; destruct s; reflexivity).
  destruct s; try exact E. destruct (ps_attribute f); try exact E. destruct (ps_spelled f); try exact E. destruct (ps_predicates f); try exact E. destruct r; try exact E. reflexivity.
Qed.

(** * What follows a tree *)
Definition follows (l : list tree) : Prop := l = [] \/ exists u r, l = u :: r /\ id_of u = Some UnionOperator_id.
Definition linked (after : list tree) (a : axis) : Prop :=
  after = [] /\ a = Self \/ exists u r, after = u :: r /\ (id_of u = Some Slash_id /\ a = Parent \/ id_of u = Some SlashSlash_id /\ a = AncestorOrSelf).
Lemma linked_open after a : linked after a -> open_after after.
Proof. intros [[-> _]|[u [r [-> [[E _]|[E _]]]]]]; [exact Logic.I|cbn; rewrite E; split; discriminate..]. Qed.
Lemma linked_axis after a : linked after a -> a = Self \/ a = Parent \/ a = AncestorOrSelf.
Proof. intros [[_ ->]|[u [r [_ [[_ ->]|[_ ->]]]]]]; tauto. Qed.
Lemma skip_all ps after : (forall p, In p ps -> id_of p = Some Predicate_id) -> open_after after -> skip_predicates (ps ++ after) = after.
Proof.
  intros A O. induction ps as [|p ps IH]; cbn [app].
  - destruct after as [|u r]; [reflexivity|]. destruct O as [_ N]. cbn [skip_predicates]. destruct (id_of u) as [[]|]; try reflexivity. elim N. reflexivity.
  - cbn [skip_predicates]. rewrite (A p (or_introl eq_refl)). apply IH. intros q I. apply A. right. exact I.
Qed.
Lemma axis_linked t ps after a : (forall p, In p ps -> id_of p = Some Predicate_id) -> linked after a -> get_pattern_axis (t :: ps ++ after) = Some a.
Proof.
  intros A L. unfold get_pattern_axis. cbn [tl]. rewrite skip_all by (try exact A; eapply linked_open, L). destruct L as [[-> ->]|[u [r [-> [[E ->]|[E ->]]]]]]; [reflexivity|rewrite E; reflexivity..].
Qed.
Definition lone (i : rid) : bool :=
  match i with
  | NameTest_id | QName_id | NCName_id | NodeMatchPattern_id | AnyName_id | Text_id | Comment_id | ProcessingInstruction_id | NodeTest_id => true
  | _ => false
  end.
Definition with_axis (a : axis) (s : test) : node_test := match s with OfNode => NodeNodeTest | s => get_test a s end.
Definition alone_right (s : test) (tight : Prop) : Prop := match s with Named _ | NamedIn _ _ _ | AnyIn _ _ | OfPi [] => tight | _ => True end.
Definition before_right (s : test) (tight : Prop) : Prop := match s with NamedIn _ _ _ | AnyIn _ _ | OfPi (_ :: _) => False | OfPi [] => tight | _ => True end.
Lemma rid_eq_dec (i j : rid) : {i = j} + {i <> j}.
Proof. decide equality. Defined.
Section with_lexicon.
Context (x : lexicon).
Definition test_at (tt : tree) (s : test) (tight : Prop) : Prop :=
  exists i, id_of tt = Some i /\ lone i = true /\
    (forall a l, (i = ProcessingInstruction_id -> is_literal l = None) -> read_pattern_test x a (tt :: l) = Got (Some (with_axis a s), l)) /\
    (forall l, follows l -> exists pr, ev (fun n => default_priority n (tt :: l) = Got pr) /\ (alone_right s tight -> pr = test_priority s)) /\
    (forall q l, id_of q = Some Predicate_id -> exists pr, ev (fun n => default_priority n (tt :: q :: l) = Got pr) /\ (before_right s tight -> pr = quarters 2)).
Lemma node_at tight : test_at (Tree (Some NodeMatchPattern_id) (ascii_str "node()") []) OfNode tight.
Proof.
  exists NodeMatchPattern_id. split; [reflexivity|]. split; [reflexivity|]. split; [intros; reflexivity|]. split.
  - intros l F. exists minus_half. split; [|intros _; symmetry; exact minus_half_is]. apply ev_S, ev_all. intro n. destruct F as [->|[u [r [-> E]]]]; [reflexivity|].
    cbn [default_priority skip_white id_of]. repeat (rewrite E; cbn [skip_white]). reflexivity.
  - intros q l E. exists half. split; [|intros _; symmetry; exact half_is]. apply ev_S, ev_all. intro n. cbn [default_priority skip_white id_of]. repeat (rewrite E; cbn [skip_white]). reflexivity.
Qed.
Lemma read_other a i t l s : id_of t = Some i -> tests i = true -> i <> SelfSelect_id -> i <> ParentSelect_id -> i <> Node_id -> s <> OfNode -> read_test x (t :: l) = Got (Some s, l) ->
  read_pattern_test x a (t :: l) = Got (Some (with_axis a s), l).
Proof.
  intros E T A B C N R. unfold read_pattern_test. rewrite (skip_test t i l E T). rewrite E. rewrite R. destruct i; try discriminate T; cbn [andthen option_map]; destruct s; try reflexivity; elim N; reflexivity.
Qed.
(** The tests that are trees of their own. *)
Ltac core_shape C := lazymatch type of C with ex _ => let k := fresh "k" in destruct C as [k C] | _ => idtac end.
Lemma core_at u s (tight : Prop) : s <> OfNode -> core s u -> plain_test x u s -> (forall t, s = OfPi t -> t = []) -> test_at u s tight.
Proof.
  intros NN C P EP. pose proof (plain_test_tree x u s P) as [i [E [T [A [B R]]]]].
  assert (i <> Node_id) as NI.
  { destruct s; cbn [core] in C; core_shape C; subst u; cbn in E; injection E as <-; try discriminate. elim NN. reflexivity. }
  assert (lone i = true) as LO.
  { destruct s; cbn [core] in C; core_shape C; subst u; cbn in E; injection E as <-; try reflexivity. elim NN. reflexivity. }
  exists i. split; [exact E|]. split; [exact LO|]. split; [intros a l L; apply (read_other a i); try assumption; apply R, L|].
  destruct s as [n|p uri n| |p uri| | | |t]; cbn [core] in C; core_shape C; subst u; [| | | |elim NN; reflexivity| | |]; split.
  - intros l F. exists zero. split; [|intros _; symmetry; exact zero_is]. apply ev_S, ev_all. intro m. destruct F as [->|[v [r [-> F]]]]; [reflexivity|]. cbn [default_priority skip_white id_of name_leaf]. repeat (rewrite F; cbn [skip_white]). reflexivity.
  - intros q l F. exists half. split; [|intros _; symmetry; exact half_is]. apply ev_S, ev_all. intro m. cbn [default_priority skip_white id_of name_leaf]. repeat (rewrite F; cbn [skip_white]). reflexivity.
  - intros l F. exists zero. split; [|intros _; symmetry; exact zero_is]. apply ev_S, ev_all. reflexivity.
  - intros q l F. exists zero. split; [|intros []]. apply ev_S, ev_all. reflexivity.
  - intros l F. exists minus_half. split; [|intros _; symmetry; exact minus_half_is]. apply ev_S, ev_all. intro m. destruct F as [->|[v [r [-> F]]]]; [reflexivity|]. cbn [default_priority skip_white id_of]. repeat (rewrite F; cbn [skip_white]). reflexivity.
  - intros q l F. exists half. split; [|intros _; symmetry; exact half_is]. apply ev_S, ev_all. intro m. cbn [default_priority skip_white id_of]. repeat (rewrite F; cbn [skip_white]). reflexivity.
  - intros l F. exists minus_quarter. split; [|intros _; symmetry; exact minus_quarter_is]. apply ev_S, ev_S, ev_all. reflexivity.
  - intros q l F. exists minus_quarter. split; [|intros []]. apply ev_S, ev_S, ev_all. reflexivity.
  - intros l F. exists minus_half. split; [|intros _; symmetry; exact minus_half_is]. apply ev_S, ev_all. intro m. destruct F as [->|[v [r [-> F]]]]; [reflexivity|]. cbn [default_priority skip_white id_of kind_id]. repeat (rewrite F; cbn [skip_white]). reflexivity.
  - intros q l F. exists half. split; [|intros _; symmetry; exact half_is]. apply ev_S, ev_all. intro m. cbn [default_priority skip_white id_of kind_id]. repeat (rewrite F; cbn [skip_white]). reflexivity.
  - intros l F. exists minus_half. split; [|intros _; symmetry; exact minus_half_is]. apply ev_S, ev_all. intro m. destruct F as [->|[v [r [-> F]]]]; [reflexivity|]. cbn [default_priority skip_white id_of kind_id]. repeat (rewrite F; cbn [skip_white]). reflexivity.
  - intros q l F. exists half. split; [|intros _; symmetry; exact half_is]. apply ev_S, ev_all. intro m. cbn [default_priority skip_white id_of kind_id]. repeat (rewrite F; cbn [skip_white]). reflexivity.
  - intros l F. exists minus_half. split; [|intros _; rewrite (EP t eq_refl); symmetry; exact minus_half_is]. apply ev_S, ev_all. intro m. destruct F as [->|[v [r [-> F]]]]; [reflexivity|]. cbn [default_priority skip_white id_of kind_id]. repeat (rewrite F; cbn [skip_white]). reflexivity.
  - intros q l F. exists half. split; [|intros _; symmetry; exact half_is]. apply ev_S, ev_all. intro m. cbn [default_priority skip_white id_of kind_id]. repeat (rewrite F; cbn [skip_white]). reflexivity.
Qed.
(** The tests that have blanks next to them, and those of processing instructions with a target. *)
Lemma in_node_test ks c r s (tight : Prop) : s <> OfNode -> skip_white ks = c :: r -> (exists r', leaf_test x (c :: r) = Got (Some s, r')) ->
  (id_of c = Some ProcessingInstruction_id <-> exists t, s = OfPi t) -> (s = OfPi [] -> ~ tight) -> (match s with Named _ | NamedIn _ _ _ | AnyIn _ _ => ~ tight | _ => True end) ->
  test_at (Tree (Some NodeTest_id) [] ks) s tight.
Proof.
  intros NN SW [r' LT] PI NP NT. exists NodeTest_id. split; [reflexivity|]. split; [reflexivity|]. split; [|split].
  - intros a l _. apply (read_other a NodeTest_id); try discriminate; try reflexivity; [exact NN|].
    assert (read_test x (Tree (Some NodeTest_id) [] ks :: l) = andthen (leaf_test x (skip_white ks)) (fun '(o, _) => Got (o, l))) as -> by reflexivity. rewrite SW, LT. reflexivity.
  - intros l F. assert (forall n, default_priority (S n) (Tree (Some NodeTest_id) [] ks :: l) = match id_of c with Some ProcessingInstruction_id => Got zero | _ => Got minus_half end) as D.
    { intro n. cbn [default_priority skip_white id_of kids_of]. rewrite SW. destruct F as [->|[u [rr [-> E]]]]; [reflexivity|]. repeat (cbn [skip_white]; rewrite E). reflexivity. }
    destruct (id_of c) as [i|] eqn:IC; [destruct (rid_eq_dec i ProcessingInstruction_id) as [->|NI]|].
    + exists zero. split; [apply ev_S, ev_all; exact D|]. destruct (proj1 PI eq_refl) as [t ->]. destruct t; [cbn; intro TI; elim (NP eq_refl TI)|intros _; symmetry; exact zero_is].
    + exists minus_half. split; [apply ev_S, ev_all; intro n; rewrite D; destruct i; first [reflexivity|elim NI; reflexivity]|].
      intro AR. destruct s; cbn [alone_right test_priority] in *; try tauto; try (symmetry; exact minus_half_is). assert (Some i = Some ProcessingInstruction_id) as Q by (apply PI; eauto). injection Q as ->. elim NI. reflexivity.
    + exists minus_half. split; [apply ev_S, ev_all; intro n; rewrite D; reflexivity|].
      intro AR. destruct s; cbn [alone_right test_priority] in *; try tauto; try (symmetry; exact minus_half_is). assert (None = Some ProcessingInstruction_id) as Q by (apply PI; eauto). discriminate Q.
  - intros q l E. assert (forall n, default_priority (S n) (Tree (Some NodeTest_id) [] ks :: q :: l) = match id_of c with Some ProcessingInstruction_id => Got zero | _ => Got half end) as D.
    { intro n. cbn [default_priority skip_white id_of kids_of]. rewrite SW. repeat (cbn [skip_white]; rewrite E). reflexivity. }
    destruct (id_of c) as [i|] eqn:IC; [destruct (rid_eq_dec i ProcessingInstruction_id) as [->|NI]|].
    + exists zero. split; [apply ev_S, ev_all; exact D|]. destruct (proj1 PI eq_refl) as [t ->]. destruct t; [cbn; intro TI; elim (NP eq_refl TI)|intros []].
    + exists half. split; [apply ev_S, ev_all; intro n; rewrite D; destruct i; first [reflexivity|elim NI; reflexivity]|]. intros _. symmetry. exact half_is.
    + exists half. split; [apply ev_S, ev_all; intro n; rewrite D; reflexivity|]. intros _. symmetry. exact half_is.
Qed.
Lemma skip_blanks ws l : (forall t, In t ws -> id_of t = Some S_id) -> skip_white (ws ++ l) = skip_white l.
Proof. intro W. induction ws as [|w ws IH]; [reflexivity|]. cbn [app skip_white]. rewrite (W w (or_introl eq_refl)). apply IH. intros t I. apply W. right. exact I. Qed.
Lemma blanks_literal ws : (forall t, In t ws -> id_of t = Some S_id) -> is_literal ws = None.
Proof. intro W. destruct ws as [|w ws]; [reflexivity|]. cbn. rewrite (W w (or_introl eq_refl)). reflexivity. Qed.
Lemma core_pi s u : s <> OfNode -> core s u -> (id_of u = Some ProcessingInstruction_id <-> exists t, s = OfPi t).
Proof. intros NN C. destruct s; cbn [core] in C; core_shape C; subst u; cbn; split; intro H; try discriminate H; try (destruct H as [? H]; discriminate H); try (eexists; reflexivity); try reflexivity. Qed.
Lemma parts_at v w s bare ts : s <> OfNode -> test_parts x s bare ts -> exists tt, group NodeTest_id (white v ++ ts ++ white w) = [tt] /\ test_at tt s (v = [] /\ bare /\ w = []).
Proof.
  intros NN [[u [ws [-> [C [P [W [BA EP]]]]]]]|[t [ws [-> [NT [-> W]]]]]].
  - pose proof P as [i [E [T [_ [_ [_ L]]]]]]. assert (forall y, In y (white v ++ (u :: ws) ++ white w) -> exists j, id_of y = Some j) as IDS.
    { intros y I. apply in_app_or in I. destruct I as [I|[<-|I]]; [eexists; exact (white_ids _ _ I)|exists i; exact E|]. apply in_app_or in I. destruct I as [I|I]; eexists; [exact (W _ I)|exact (white_ids _ _ I)]. }
    assert ((white v = [] /\ ws ++ white w = []) \/ (~ (v = [] /\ bare /\ w = []) /\ group NodeTest_id (white v ++ (u :: ws) ++ white w) = [Tree (Some NodeTest_id) [] (white v ++ (u :: ws) ++ white w)])) as [[EV EW]|[NT GR]].
    { assert (length (white v ++ (u :: ws) ++ white w) <> 1%nat -> group NodeTest_id (white v ++ (u :: ws) ++ white w) = [Tree (Some NodeTest_id) [] (white v ++ (u :: ws) ++ white w)]) as GG.
      { pose proof (map_claim NodeTest_id _ IDS) as M. intro L1. unfold group. rewrite M. destruct (white v ++ (u :: ws) ++ white w) as [|y [|y' l]] eqn:EL; try reflexivity. elim L1. reflexivity. }
      destruct (white_shape v) as [EV|[y [EV _]]]; rewrite EV in *; cbn [app].
      - destruct ws as [|y ws].
        + destruct (white_shape w) as [EW|[y [EW _]]]; rewrite EW in *; [left; split; reflexivity|right]. split; [|apply GG; discriminate]. intros [_ [_ ->]]. discriminate EW.
        + right. split; [intros [_ [B _]]; discriminate (BA B)|]. apply GG. discriminate.
      - right. split; [|apply GG; discriminate]. intros [-> _]. discriminate EV. }
    + exists u. rewrite EV. cbn [app]. rewrite EW. split; [cbn; rewrite (claim_id _ _ i E); reflexivity|]. apply core_at; assumption.
    + eexists. split; [exact GR|]. eapply (in_node_test _ u (ws ++ white w)).
      * exact NN.
      * rewrite skip_blanks by (intros y I; exact (white_ids _ _ I)). cbn [app]. apply (skip_test _ i); assumption.
      * eexists. apply L. intros _. apply blanks_literal. intros y I. apply in_app_or in I. destruct I as [I|I]; [exact (W _ I)|exact (white_ids _ _ I)].
      * apply core_pi; assumption.
      * intros _. exact NT.
      * destruct s; first [exact NT|exact Logic.I].
  - exists (Tree (Some NodeTest_id) [] (white v ++ (pi_leaf :: literal_leaf t :: ws) ++ white w)). split.
    + assert (forall y, In y (white v ++ (pi_leaf :: literal_leaf t :: ws) ++ white w) -> exists j, id_of y = Some j) as IDS.
      { intros y I. apply in_app_or in I. destruct I as [I|[<-|[<-|I]]]; [eexists; exact (white_ids _ _ I)|eexists; reflexivity|eexists; reflexivity|]. apply in_app_or in I. destruct I as [I|I]; eexists; [exact (W _ I)|exact (white_ids _ _ I)]. }
      pose proof (map_claim NodeTest_id _ IDS) as M. unfold group. rewrite M. destruct (white v) as [|y [|y' l]]; reflexivity.
    + eapply (in_node_test _ pi_leaf (literal_leaf t :: ws ++ white w)).
      * exact NN.
      * rewrite skip_blanks by (intros y I; exact (white_ids _ _ I)). reflexivity.
      * eexists. reflexivity.
      * split; [eauto|reflexivity].
      * intro D. injection D as ->. elim NT. reflexivity.
      * exact Logic.I.
Qed.

(** * Steps *)
Inductive axis_tree : list tree -> bool -> bool -> Prop :=
  | no_axis : axis_tree [] false false
  | sign_axis s : axis_tree [Tree (Some AbbreviatedAxisSpecifier_id) s []] true false
  | child_axis s : axis_tree [Tree (Some Child_id) s []] false true
  | attribute_axis s : axis_tree [Tree (Some Attribute_id) s []] true true.
(** The tree of a step: [p] has the predicates as they are compiled. *)
Definition step_at (t : tree) (p : pstep) (tight : Prop) : Prop :=
  exists ax tt ps, axis_tree ax (ps_attribute p) (ps_spelled p) /\ test_at tt (ps_test p) tight /\ (forall q, In q ps -> id_of q = Some Predicate_id) /\
    (forall after, open_after after -> ev (fun n => predicates n x (ps ++ after) = Got (ps_predicates p, after))) /\
    (ax = [] /\ ps = [] /\ t = tt \/ (ax <> [] \/ ps <> []) /\ t = Tree (Some StepPattern_id) [] (ax ++ tt :: ps)).
Lemma linked_nil : linked [] Self. Proof. left. split; reflexivity. Qed.
Lemma get_test_axis a s : a = Self \/ a = Parent \/ a = AncestorOrSelf -> with_axis a s = with_axis Self s.
Proof. intros [->|[->| ->]]; destruct s; reflexivity. Qed.
Lemma loop_test n o attribute t i r acc a : id_of t = Some i -> lone i = true -> match o with Some b => Some b | None => get_pattern_axis (t :: r) end = Some a ->
  pattern_loop (S n) x o attribute (t :: r) acc = andthen (create_pattern_step n x a attribute (t :: r)) (fun '(s, after) => pattern_loop n x o attribute after (s :: MStep Self (if attribute then AttributeNodeTest else NotAttributeNodeTest) [] :: acc)).
Proof. intros E L A. cbn [pattern_loop]. rewrite E. destruct i; try discriminate L; rewrite A; reflexivity. Qed.
Lemma predicates_literal ps after : (forall q, In q ps -> id_of q = Some Predicate_id) -> open_after after -> is_literal (ps ++ after) = None.
Proof. intros A O. destruct ps as [|p ps]; [apply open_literal, O|]. cbn. rewrite (A p (or_introl eq_refl)). reflexivity. Qed.
Lemma test_loop tt s tight o attribute ps qs after acc a (p : pstep) R : test_at tt s tight -> (forall q, In q ps -> id_of q = Some Predicate_id) ->
  (forall after, open_after after -> ev (fun n => predicates n x (ps ++ after) = Got (qs, after))) -> open_after after ->
  match o with Some b => Some b | None => get_pattern_axis (tt :: ps ++ after) end = Some a ->
  ev (fun n => pattern_loop n x o attribute after (MStep a (with_axis (if attribute then Attribute else a) s) qs :: MStep Self (if attribute then AttributeNodeTest else NotAttributeNodeTest) [] :: acc) = Got R) ->
  ev (fun n => pattern_loop n x o attribute (tt :: ps ++ after) acc = Got R).
Proof.
  intros [i [E [L [RD _]]]] AP P O A H. apply ev_S. refine (ev_map2 _ _ _ _ (P after O) H). intros n HP HL.
  rewrite (loop_test n o attribute tt i _ acc a E L A). unfold create_pattern_step. rewrite RD by (intros _; apply predicates_literal; assumption). cbn [andthen]. rewrite HP. cbn [andthen]. exact HL.
Qed.
Lemma loop_nil o attribute acc : ev (fun n => pattern_loop n x o attribute [] acc = Got acc).
Proof. apply ev_S, ev_all. reflexivity. Qed.
Lemma start_lone t r acc i : id_of t = Some i -> lone i = true -> pattern_start (t :: r) acc = Got (t :: r, acc).
Proof. intros E L. cbn [pattern_start]. rewrite E. destruct i; try discriminate L; reflexivity. Qed.
(** The kids of a step, under an axis that what follows says. *)
Lemma step_inside t p tight a acc : a = Self \/ a = Parent \/ a = AncestorOrSelf -> step_at t p tight -> id_of t = Some StepPattern_id ->
  pattern_start (kids_of t) acc = Got (kids_of t, acc) /\ ev (fun n => pattern_loop n x (Some a) false (kids_of t) acc = Got (pair_of a p ++ acc)).
Proof.
  intros AA [ax [tt [ps [AX [TT [AP [P [[_ [_ ->]]|[_ ->]]]]]]]]] ID.
  - destruct TT as [i [E [L _]]]. rewrite ID in E. injection E as <-. discriminate L.
  - cbn [kids_of].
    assert (forall attribute, ps_attribute p = attribute -> ev (fun n => pattern_loop n x (Some a) attribute (tt :: ps) acc = Got (pair_of a p ++ acc))) as LL.
    { intros attribute EA. rewrite <- (app_nil_r ps). eapply (test_loop tt (ps_test p) tight _ _ ps (ps_predicates p) [] acc a p); try eassumption; [exact Logic.I|reflexivity|].
      assert (with_axis (if attribute then Attribute else a) (ps_test p) = pattern_test p) as ->; [|unfold pair_of; rewrite EA; apply loop_nil].
      unfold pattern_test. rewrite EA. destruct attribute; [destruct (ps_test p); reflexivity|]. rewrite (get_test_axis a _ AA). destruct (ps_test p); reflexivity. }
    destruct TT as [i [E [L _]]].
    inversion AX as [Q1 Q2 Q3|s Q1 Q2 Q3|s Q1 Q2 Q3|s Q1 Q2 Q3]; cbn [app]; (split; [first [apply (start_lone _ _ _ i); assumption|reflexivity]|]); try (apply LL; congruence);
      apply ev_S; (refine (ev_map _ _ _ (LL _ (eq_sym Q2)))); intros n HL; exact HL.
Qed.
Lemma step_loop t p tight after a acc R : step_at t p tight -> linked after a -> ev (fun n => pattern_loop n x None false after (pair_of a p ++ acc) = Got R) ->
  ev (fun n => pattern_loop n x None false (t :: after) acc = Got R).
Proof.
  intros SA L H. pose proof SA as [ax [tt [ps [AX [TT [AP [P [[-> [-> ->]]|[NE ->]]]]]]]]].
  - eapply (test_loop tt (ps_test p) tight None false [] (ps_predicates p) after acc a p); try eassumption; [eapply linked_open, L|apply (axis_linked tt [] after a); [intros q []|exact L]|].
    inversion AX as [Q1 Q2 Q3| | |]. refine (ev_map _ _ _ H). intros n HL. rewrite <- HL. f_equal. unfold pair_of, pattern_test. rewrite <- Q2. rewrite (get_test_axis a _ (linked_axis _ _ L)). destruct (ps_test p); reflexivity.
  - destruct (step_inside _ p tight a acc (linked_axis _ _ L) SA eq_refl) as [ST IN]. apply ev_S. refine (ev_map2 _ _ _ _ IN H). intros n HI HL.
    cbn [pattern_loop id_of]. rewrite ST. cbn [andthen]. rewrite (axis_linked _ [] after a (fun q F => match F with end) L). rewrite HI. cbn [andthen]. exact HL.
Qed.
Lemma predicates_length ps : (forall q, In q ps -> id_of q = Some Predicate_id) -> forall n qs, predicates n x ps = Got (qs, []) -> length qs = length ps.
Proof.
  induction ps as [|p ps IH]; intros A [|n] qs H; try discriminate H.
  - injection H as <-. reflexivity.
  - cbn [predicates] in H. rewrite (A p (or_introl eq_refl)) in H. destruct (compile n x (tl (kids_of p))) as [e| | |]; try discriminate H. cbn [andthen] in H.
    destruct (predicates n x ps) as [[qs' l]| | |] eqn:E; try discriminate H. cbn [andthen] in H. injection H as <- ->. cbn. rewrite (IH (fun q I => A q (or_intror I)) n qs' E). reflexivity.
Qed.
(** The priority of a step alone. *)
Definition step_priority (p : pstep) : spec_float := match ps_predicates p with [] => test_priority (ps_test p) | _ => quarters 2 end.
Definition step_right (p : pstep) (tight : Prop) : Prop :=
  match ps_predicates p with
  | [] => alone_right (ps_test p) tight
  | [_] => ps_attribute p = true \/ ps_spelled p = true \/ before_right (ps_test p) tight
  | _ => True
  end.
Lemma step_priority_at t p tight l : step_at t p tight -> follows l -> exists pr, ev (fun n => default_priority n (t :: l) = Got pr) /\ (step_right p tight -> pr = step_priority p).
Proof.
  intros [ax [tt [ps [AX [TT [AP [P C]]]]]]] F. assert (length (ps_predicates p) = length ps) as LE.
  { pose proof (P [] Logic.I) as P0. rewrite app_nil_r in P0. destruct (ev_here _ P0) as [n H]. exact (predicates_length ps AP n _ H). }
  destruct TT as [i [E [LO [_ [D1 D2]]]]]. destruct C as [[-> [-> ->]]|[NE ->]].
  - destruct (D1 l F) as [pr [H1 H2]]. exists pr. split; [exact H1|]. unfold step_right, step_priority. destruct (ps_predicates p); [exact H2|discriminate LE].
  - assert (filter not_white (ax ++ tt :: ps) = ax ++ tt :: ps) as FI.
    { assert (filter not_white ps = ps) as FP by (clear - AP; induction ps as [|q ps IH]; [reflexivity|]; cbn [filter]; unfold not_white at 1; rewrite (AP q (or_introl eq_refl)), IH; [reflexivity|intros r I; apply AP; right; exact I]).
      assert (not_white tt = true) as NW by (unfold not_white; rewrite E; destruct i; try discriminate LO; reflexivity).
      inversion AX; cbn [app filter not_white id_of]; rewrite NW, FP; reflexivity. }
    assert (forall n, default_priority (S n) (Tree (Some StepPattern_id) [] (ax ++ tt :: ps) :: l) = if (length (ax ++ tt :: ps) <=? 2)%nat then default_priority n (ax ++ tt :: ps) else Got half) as DP.
    { intro n. cbn [default_priority skip_white id_of kids_of]. rewrite FI. reflexivity. }
    assert ((2 < length (ax ++ tt :: ps))%nat -> ps <> [] -> exists pr, ev (fun n => default_priority n (Tree (Some StepPattern_id) [] (ax ++ tt :: ps) :: l) = Got pr) /\ (step_right p tight -> pr = step_priority p)) as LONG.
    { intros G NP. exists half. split; [apply ev_S, ev_all; intro n; rewrite DP; apply Nat.leb_gt in G; rewrite G; reflexivity|]. intros _. unfold step_priority. destruct (ps_predicates p); [destruct ps; [elim NP; reflexivity|discriminate LE]|]. symmetry. exact half_is. }
    inversion AX as [Q1 Q2 Q3|s Q1 Q2 Q3|s Q1 Q2 Q3|s Q1 Q2 Q3]; subst ax.
    + destruct ps as [|q [|q' ps]]; [destruct NE as [NE|NE]; elim NE; reflexivity| |apply LONG; [cbn; lia|discriminate]].
      destruct (D2 q [] (AP q (or_introl eq_refl))) as [pr [H1 H2]]. exists pr. split; [apply ev_S; refine (ev_map _ _ _ H1); intros n H; rewrite DP; exact H|].
      unfold step_right, step_priority. destruct (ps_predicates p) as [|e [|e' es]]; try discriminate LE. intros [D|[D|D]]; [congruence|congruence|exact (H2 D)].
    + destruct ps as [|q ps]; [|apply LONG; [cbn; lia|discriminate]]. destruct (D1 [] (or_introl eq_refl)) as [pr [H1 H2]]. exists pr. split; [apply ev_S, ev_S; refine (ev_map _ _ _ H1); intros n H; rewrite DP; exact H|].
      unfold step_right, step_priority. destruct (ps_predicates p); [exact H2|discriminate LE].
    + destruct ps as [|q ps]; [|apply LONG; [cbn; lia|discriminate]]. destruct (D1 [] (or_introl eq_refl)) as [pr [H1 H2]]. exists pr. split; [apply ev_S, ev_S; refine (ev_map _ _ _ H1); intros n H; rewrite DP; exact H|].
      unfold step_right, step_priority. destruct (ps_predicates p); [exact H2|discriminate LE].
    + destruct ps as [|q ps]; [|apply LONG; [cbn; lia|discriminate]]. destruct (D1 [] (or_introl eq_refl)) as [pr [H1 H2]]. exists pr. split; [apply ev_S, ev_S; refine (ev_map _ _ _ H1); intros n H; rewrite DP; exact H|].
      unfold step_right, step_priority. destruct (ps_predicates p); [exact H2|discriminate LE].
Qed.
(** * Paths *)
Definition link_tree (t : tree) (l : link) : Prop := id_of t = Some (match l with OneSlash => Slash_id | TwoSlashes => SlashSlash_id end).
Inductive rel_trees : list tree -> pstep -> list (link * pstep) -> Prop :=
  | one_tree t p tight : step_at t p tight -> rel_trees [t] p []
  | more_trees t p tight sep l ts q r : step_at t p tight -> link_tree sep l -> rel_trees ts q r -> rel_trees (t :: sep :: ts) p ((l, q) :: r).
Lemma link_linked sep l ts : link_tree sep l -> linked (sep :: ts) (axis_of l).
Proof. intro E. right. exists sep, ts. split; [reflexivity|]. destruct l; [left|right]; split; try exact E; reflexivity. Qed.
Lemma rel_loop ts p r : rel_trees ts p r -> forall acc, ev (fun n => pattern_loop n x None false ts acc = Got (push p r acc)).
Proof.
  induction 1 as [t p tight S|t p tight sep l ts q r S L R IH]; intro acc.
  - eapply step_loop; [exact S|exact linked_nil|]. cbn [push]. apply loop_nil.
  - eapply step_loop; [exact S|exact (link_linked sep l ts L)|]. cbn [push]. apply ev_S. refine (ev_map _ _ _ (IH (pair_of (axis_of l) p ++ acc))). intros n H.
    cbn [pattern_loop]. rewrite L. destruct l; exact H.
Qed.
Definition stepish (i : rid) : bool := match i with StepPattern_id => true | i => lone i end.
Lemma step_id t p tight : step_at t p tight -> exists i, id_of t = Some i /\ stepish i = true.
Proof. intros [ax [tt [ps [_ [[i [E [L _]]] [_ [_ [[_ [_ ->]]|[_ ->]]]]]]]]]; [exists i; split; [exact E|destruct i; first [exact L|reflexivity]]|exists StepPattern_id; split; reflexivity]. Qed.
Lemma start_step t r acc i : id_of t = Some i -> stepish i = true -> pattern_start (t :: r) acc = Got (t :: r, acc).
Proof. intros E L. cbn [pattern_start]. rewrite E. destruct i; try discriminate L; reflexivity. Qed.
Lemma rel_start ts p r acc : rel_trees ts p r -> pattern_start ts acc = Got (ts, acc).
Proof. intros [t q tight S|t q tight sep l us w k S _ _]; destruct (step_id _ _ _ S) as [i [E L]]; exact (start_step _ _ _ i E L). Qed.
(** The tree of a path: a step, or a node over the steps. *)
Definition path_at (t : tree) (p : pstep) (r : list (link * pstep)) (tight : Prop) : Prop :=
  r = [] /\ step_at t p tight \/ r <> [] /\ exists ts, rel_trees ts p r /\ t = Tree (Some RelativePathPattern_id) [] ts.
Lemma path_loop t p r tight acc : path_at t p r tight -> pattern_start [t] acc = Got ([t], acc) /\ ev (fun n => pattern_loop n x None false [t] acc = Got (push p r acc)).
Proof.
  intros [[-> S]|[_ [ts [T ->]]]].
  - split; [destruct (step_id _ _ _ S) as [i [E L]]; exact (start_step _ _ _ i E L)|]. apply (rel_loop [t] p []). exact (one_tree t p tight S).
  - split; [reflexivity|]. apply ev_S. refine (ev_map2 _ _ _ _ (rel_loop ts p r T acc) (loop_nil None false (push p r acc))). intros n H1 H2. cbn [pattern_loop id_of kids_of]. rewrite (rel_start _ _ _ acc T). cbn [andthen]. rewrite H1. cbn [andthen]. exact H2.
Qed.
(** * Patterns *)
Definition loc_right (p : XMatch.location) (tight : Prop) : Prop := match p with Steps Anywhere q [] => step_right q tight | _ => True end.
Definition loc_at (t : tree) (p : XMatch.location) (tight : Prop) : Prop :=
  (exists i, id_of t = Some i /\ i <> Pattern_id) /\
  forall l, follows l -> exists pr, ev (fun n => match_one n x (t :: l) = Got (Path (compiled p), pr)) /\ (loc_right p tight -> pr = priority_of p).
Lemma match_one_of t l m pr : ev (fun n => match_steps n x (t :: l) = Got m) -> ev (fun n => default_priority n (t :: l) = Got pr) -> ev (fun n => match_one n x (t :: l) = Got (m, pr)).
Proof. intros A B. refine (ev_map2 _ _ _ _ A B). intros n H1 H2. unfold match_one. rewrite H1. cbn [andthen]. rewrite H2. reflexivity. Qed.
Lemma root_at k tight : loc_at (Tree (Some Slash_id) k []) TheRoot tight.
Proof.
  split; [exists Slash_id; split; [reflexivity|discriminate]|]. intros l F. exists half. split; [|intros _; symmetry; exact half_is]. apply match_one_of; [apply ev_all; reflexivity|apply ev_S, ev_all; reflexivity].
Qed.
Lemma start_at t p r tight u s : path_at t p r tight -> s <> Anywhere -> u = (match s with FromRoot => Slash_id | _ => SlashSlash_id end) -> forall k,
  loc_at (Tree (Some LocationPathPattern_id) [] [Tree (Some u) k []; t]) (Steps s p r) tight.
Proof.
  intros P NA -> k. split; [exists LocationPathPattern_id; split; [reflexivity|discriminate]|]. intros l F. exists half.
  split; [|intros _; destruct s; [elim NA; reflexivity|symmetry; exact half_is..]]. apply match_one_of; [|apply ev_S, ev_all; reflexivity].
  assert (compiled (Steps s p r) = push p r (root_steps s)) as -> by (destruct s; [elim NA; reflexivity|reflexivity..]).
  destruct (path_loop t p r tight (root_steps s) P) as [ST LO]. refine (ev_map _ _ _ LO). intros n H. cbn [match_steps id_of kids_of]. unfold pattern_list, steps_from_pattern.
  assert (pattern_start [Tree (Some (match s with FromRoot => Slash_id | _ => SlashSlash_id end)) k []; t] [] = Got ([t], root_steps s)) as -> by (destruct s; [elim NA; reflexivity|reflexivity..]).
  cbn [andthen]. rewrite ST. cbn [andthen]. rewrite H. reflexivity.
Qed.
Lemma follows_literal l : follows l -> is_literal l = None.
Proof. intros [->|[u [r [-> E]]]]; [reflexivity|]. cbn. rewrite E. reflexivity. Qed.
Lemma rel_white ts p r : rel_trees ts p r -> filter not_white ts = ts /\ (r <> [] -> (3 <= length ts)%nat).
Proof.
  assert (forall t p tight, step_at t p tight -> not_white t = true) as NW.
  { intros t q tight SA. destruct (step_id _ _ _ SA) as [i [E L]]. unfold not_white. rewrite E. destruct i; try discriminate L; reflexivity. }
  induction 1 as [t p tight SA|t p tight sep l ts q r SA L R [IH _]].
  - split; [cbn; rewrite (NW _ _ _ SA); reflexivity|]. intro N. elim N. reflexivity.
  - split; [|intros _; destruct R; cbn; lia]. cbn [filter]. rewrite (NW _ _ _ SA). assert (not_white sep = true) as -> by (unfold not_white; rewrite L; destruct l; reflexivity). rewrite IH. reflexivity.
Qed.
Lemma anywhere_at t p r tight : path_at t p r tight -> loc_at t (Steps Anywhere p r) tight.
Proof.
  intros [[-> SA]|[NR [ts [T ->]]]].
  - destruct (step_id _ _ _ SA) as [i [E L]]. split; [exists i; split; [exact E|intros ->; discriminate L]|]. intros l F.
    destruct (step_priority_at t p tight l SA F) as [pr [DP PR]]. exists pr. split; [|cbn [loc_right]; intro RI; rewrite (PR RI); unfold step_priority; destruct p as [a sp s [|q qs]]; reflexivity].
    apply match_one_of; [|exact DP]. pose proof SA as [ax [tt [ps [AX [TT [AP [P [[-> [-> ->]]|[NE ->]]]]]]]]].
    + apply ev_all. intro n. destruct TT as [j [E' [L' [RD _]]]]. specialize (RD Self l (fun _ => follows_literal l F)).
      assert (match_steps n x (tt :: l) = andthen (read_pattern_test x Self (tt :: l)) (fun '(o, _) => match o with Some s => Got (Path [MStep Self NotAttributeNodeTest []; MStep Self s []]) | None => Broken end)) as ->
        by (cbn [match_steps]; rewrite E'; destruct j; try discriminate L'; reflexivity).
      rewrite RD. cbn [andthen]. destruct p as [a sp s qs]. cbn [ps_attribute ps_spelled ps_test ps_predicates] in *. inversion AX; subst. destruct (ev_here _ (P [] Logic.I)) as [m H]. destruct m; [discriminate H|]. injection H as <-. cbn. destruct s; reflexivity.
    + assert (compiled (Steps Anywhere p []) = pair_of Self p) as ->.
      { cbn [compiled]. unfold pair_of. inversion AX as [Q1 Q2 Q3|s Q1 Q2 Q3|s Q1 Q2 Q3|s Q1 Q2 Q3]; subst ax; cbn [push]; unfold pair_of; rewrite <- ?Q2; try reflexivity.
        destruct (ps_predicates p) eqn:EP; [|reflexivity]. exfalso. pose proof (P [] Logic.I) as P0. rewrite app_nil_r in P0. destruct (ev_here _ P0) as [n H]. pose proof (predicates_length ps AP n _ H) as LE.
        destruct ps; [destruct NE as [NE|NE]; elim NE; reflexivity|discriminate LE]. }
      destruct (step_inside _ p tight Self [] (or_introl eq_refl) SA eq_refl) as [ST _]. cbn [kids_of] in ST.
      assert (forall attribute, ps_attribute p = attribute -> ev (fun n => pattern_loop n x None attribute (tt :: ps) [] = Got (pair_of Self p))) as LL.
      { intros attribute EA. rewrite <- (app_nil_r ps). eapply (test_loop tt (ps_test p) tight _ _ ps (ps_predicates p) [] [] Self p); try eassumption; [exact Logic.I|apply axis_linked; [exact AP|exact linked_nil]|].
        assert (with_axis (if attribute then Attribute else Self) (ps_test p) = pattern_test p) as ->; [|unfold pair_of; rewrite EA; apply loop_nil].
        unfold pattern_test. rewrite EA. destruct attribute; destruct (ps_test p); reflexivity. }
      assert (ev (fun n => pattern_loop n x None false (ax ++ tt :: ps) [] = Got (pair_of Self p))) as LO.
      { inversion AX as [Q1 Q2 Q3|s Q1 Q2 Q3|s Q1 Q2 Q3|s Q1 Q2 Q3]; cbn [app]; try (apply LL; congruence); apply ev_S; (refine (ev_map _ _ _ (LL _ (eq_sym Q2)))); intros n HL; exact HL. }
      refine (ev_map _ _ _ LO). intros n H. cbn [match_steps id_of kids_of]. unfold pattern_list, steps_from_pattern. rewrite ST. cbn [andthen]. rewrite ST. cbn [andthen]. rewrite H. reflexivity.
  - split; [exists RelativePathPattern_id; split; [reflexivity|discriminate]|]. intros l F. exists half. destruct (rel_white _ _ _ T) as [FI LE]. specialize (LE NR). split.
    + apply match_one_of.
      * assert (compiled (Steps Anywhere p r) = push p r []) as -> by (cbn [compiled]; destruct (ps_attribute p), (ps_spelled p), (ps_predicates p), r; try reflexivity; elim NR; reflexivity).
        refine (ev_map _ _ _ (rel_loop ts p r T [])). intros n H. cbn [match_steps id_of kids_of]. unfold pattern_list, steps_from_pattern. rewrite (rel_start _ _ _ [] T). cbn [andthen]. rewrite (rel_start _ _ _ [] T). cbn [andthen]. rewrite H. reflexivity.
      * apply ev_S, ev_all. intro n. cbn [default_priority skip_white id_of kids_of]. rewrite FI. assert ((length ts <=? 2)%nat = false) as -> by (apply Nat.leb_gt; lia). reflexivity.
    + intros _. destruct p as [a sp s [|q qs]], r; try (elim NR; reflexivity); symmetry; exact half_is.
Qed.
(** One pattern, or more with the operators between them. *)
Inductive alternative_trees : list tree -> list (XMatch.location * Prop) -> Prop :=
  | last_tree t p tight : loc_at t p tight -> alternative_trees [t] [(p, tight)]
  | next_tree t p tight u ts ps : loc_at t p tight -> id_of u = Some UnionOperator_id -> alternative_trees ts ps -> alternative_trees (t :: u :: ts) ((p, tight) :: ps).
Definition answers (p : XMatch.location * Prop) (m : matcher * spec_float) : Prop := fst m = Path (compiled (fst p)) /\ (loc_right (fst p) (snd p) -> snd m = priority_of (fst p)).
Lemma alternatives_got ts ps : alternative_trees ts ps -> exists ms, ev (fun n => match_alternatives n x ts = Got ms) /\ Forall2 answers ps ms.
Proof.
  induction 1 as [t p tight [_ L]|t p tight u ts ps [_ L] U R IH].
  - destruct (L [] (or_introl eq_refl)) as [pr [E C]]. exists [(Path (compiled p), pr)]. split; [|constructor; [split; [reflexivity|exact C]|constructor]].
    apply ev_S. refine (ev_map _ _ _ E). intros n H. cbn [match_alternatives]. rewrite H. reflexivity.
  - destruct (L (u :: ts) (or_intror (ex_intro _ u (ex_intro _ ts (conj eq_refl U))))) as [pr [E C]]. destruct IH as [ms [EM FM]]. exists ((Path (compiled p), pr) :: ms). split; [|constructor; [split; [reflexivity|exact C]|exact FM]].
    apply ev_S. refine (ev_map2 _ _ _ _ E EM). intros n H1 H2. cbn [match_alternatives]. rewrite H1. cbn [andthen tl]. rewrite H2. reflexivity.
Qed.
End with_lexicon.

(** * Parsing steps *)
Lemma word_then0 p q n t2 : wordy p -> forallb name_p n = true -> clear name_p t2 -> fails q t2 -> (forall c r, name_p c = true -> fails q (c :: r)) -> fails (Seq p q) (n ++ t2).
Proof.
  intros P K D F N. destruct (P (n ++ t2)) as [X|[u [i [z [E [NU [KU G]]]]]]]; [apply F_first, X|].
  destruct (word_in_name u n t2 z KU D E) as [m [-> ->]]. rewrite <- app_assoc. eapply f_second; [exact G|]. destruct m as [|c m]; [exact F|]. cbn [app]. apply N.
  rewrite forallb_app in K. apply andb_true_iff in K. destruct K as [_ K]. cbn in K. apply andb_true_iff in K. apply K.
Qed.
Lemma txt_then w q n t2 : w <> [] -> forallb name_p w = true -> forallb name_p n = true -> clear name_p t2 -> (n = w -> fails q t2) -> (forall c r, name_p c = true -> fails q (c :: r)) -> fails (Seq (Txt w) q) (n ++ t2).
Proof.
  intros NW KW K D F N. destruct (strip_prefix w (n ++ t2)) as [z|] eqn:E; [|apply F_first, F_txt, E].
  apply strip_some in E. destruct (word_in_name w n t2 z KW D E) as [m [-> ->]]. rewrite <- app_assoc. eapply f_second; [apply g_txt, NW|]. destruct m as [|c m]; [apply F; apply app_nil_r|]. cbn [app]. apply N.
  rewrite forallb_app in K. apply andb_true_iff in K. destruct K as [_ K]. cbn in K. apply andb_true_iff in K. apply K.
Qed.
(** What a node test begins with: a name, that is not that of an axis nor of a function. *)
Definition kinds : list str := [ascii_str "comment"; ascii_str "text"; ascii_str "processing-instruction"].
Definition shaped (s : str) : Prop :=
  (exists r, s = 42 :: r) \/ exists n tail, s = n ++ tail /\ n <> [] /\ forallb name_p n = true /\ clear name_p tail /\ strip_prefix [58; 58] tail = None /\ (clear (is 40) tail \/ In n kinds).
Lemma strip_clear c d t : clear (is c) t -> strip_prefix [c; d] t = None.
Proof. intro C. apply (strip_none_clear _ c); [reflexivity|exact C]. Qed.
Lemma test_shaped uri t s z : test_written uri t s -> s <> OfNode -> clear (is 40) z -> clear (is 58) z -> (ends_in_name t -> clear name_p z) -> shaped (t ++ z).
Proof.
  intros H NN C D N. destruct H as [n H|p u n P H U| |p u P U|s k v v2 K V V2|l t' v L NE V].
  - right. exists n, z. split; [reflexivity|]. split; [apply ncname_not_nil, H|]. split; [apply ncname_chars, H|]. split; [apply N, (ends_name n H [])|]. split; [apply strip_clear, D|left; exact C].
  - right. exists p, (58 :: n ++ z). split; [rewrite <- app_assoc; reflexivity|]. split; [apply ncname_not_nil, P|]. split; [apply ncname_chars, P|]. split; [reflexivity|]. split; [|left; reflexivity].
    apply strip2. destruct (ncname_head n H) as [c [r [-> S1]]]. cbn. apply start_is; [exact S1|reflexivity].
  - left. eexists. reflexivity.
  - right. exists p, (58 :: 42 :: z). split; [rewrite <- app_assoc; reflexivity|]. split; [apply ncname_not_nil, P|]. split; [apply ncname_chars, P|]. split; [reflexivity|]. split; [reflexivity|left; reflexivity].
  - right. exists k, (v ++ 40 :: v2 ++ 41 :: z). split; [rewrite <- !app_assoc; cbn [app]; rewrite <- app_assoc; reflexivity|].
    split; [apply ncname_not_nil, (kind_names s k K)|]. split; [apply ncname_chars, (kind_names s k K)|]. split; [apply clear_blank; [repeat split|exact V|reflexivity]|].
    split; [apply strip_clear, blank_clear; first [reflexivity|exact V]|]. right. destruct s as [| | | | | | |[|]]; try discriminate K; try (injection K as <-); cbn; tauto.
  - right. exists (ascii_str "processing-instruction"), (40 :: l ++ v ++ 41 :: z). split; [rewrite <- !app_assoc; cbn [app]; rewrite <- !app_assoc; reflexivity|].
    split; [discriminate|]. split; [reflexivity|]. split; [reflexivity|]. split; [reflexivity|right; cbn; tauto].
Qed.
Local Notation axis_full := (Seq (Alt (Rule Child_id) (Rule Attribute_id)) (Discard (Txt (ascii_str "::")))).
Lemma wordy_axis_full : wordy (Alt (Rule Child_id) (Rule Attribute_id)).
Proof. apply wordy_alt; (eapply wordy_word; [reflexivity|discriminate|reflexivity]). Qed.
Lemma f_colons c r : name_p c = true -> fails (Discard (Txt (ascii_str "::"))) (c :: r).
Proof. intro N. apply F_discard, F_txt. change (ascii_str "::") with [58; 58]. apply strip_clear. cbn. apply name_not; [exact N|reflexivity]. Qed.
Lemma f_axis_full v s : blank v -> shaped s -> fails axis_full (v ++ s).
Proof.
  intros V H. destruct v as [|c v].
  - cbn [app]. destruct H as [[r ->]|[n [tail [-> [_ [K [C [ST _]]]]]]]].
    + apply F_first, wordy_fails; [exact wordy_axis_full|reflexivity].
    + apply word_then0; [exact wordy_axis_full|exact K|exact C|apply F_discard, F_txt, ST|apply f_colons].
  - apply F_first, wordy_fails; [exact wordy_axis_full|]. apply blank_not_name; [exact V|discriminate].
Qed.
Lemma f_node_match v s : blank v -> shaped s -> fails (Rule NodeMatchPattern_id) (v ++ s).
Proof.
  intros V H. eapply f_word; [reflexivity|]. change (ascii_str "node()") with (ascii_str "node" ++ [40; 41]). destruct v as [|c v].
  - cbn [app]. destruct H as [[r ->]|[n [tail [-> [_ [K [C [_ E]]]]]]]]; [reflexivity|].
    destruct (strip_prefix (ascii_str "node" ++ [40; 41]) (n ++ tail)) as [z|] eqn:S1; [|reflexivity]. exfalso. apply strip_some in S1. rewrite <- app_assoc in S1.
    destruct (word_in_name (ascii_str "node") n tail ([40; 41] ++ z) eq_refl C S1) as [m [-> E2]]. destruct m as [|c m].
    + cbn [app] in E2. subst tail. destruct E as [E|E]; [discriminate E|]. cbn in E. repeat (destruct E as [E|E]; [discriminate E|]). exact E.
    + injection E2 as <- _. rewrite forallb_app in K. apply andb_true_iff in K. destruct K as [_ K]. discriminate K.
  - apply blank_cons in V. destruct V as [I _]. cbn. cbn in I. destruct I as [<-|[<-|[<-|[<-|[]]]]]; reflexivity.
Qed.
Lemma f_id_key s : shaped s -> fails (Rule IdKeyPattern_id) s.
Proof.
  intros H. apply F_rule. cbn [rule]. assert (forall c r, name_p c = true -> fails (Rule LeftBracket_id) (c :: r)) as NB by (intros c r N; eapply f_sign; [reflexivity|]; cbn; apply name_not; [exact N|reflexivity]).
  destruct H as [[r ->]|[n [tail [-> [_ [K [C [_ E]]]]]]]]; [apply F_alt; repeat apply F_first; apply F_txt; reflexivity|].
  apply F_alt; [do 4 apply F_first; change (ascii_str "id") with [105; 100]|do 8 apply F_first; change (ascii_str "key") with [107; 101; 121]]; (apply txt_then; [discriminate|reflexivity|exact K|exact C| |exact NB]); intros ->;
    (destruct E as [E|E]; [eapply f_sign; [reflexivity|exact E]|]); exfalso; cbn in E; repeat (destruct E as [E|E]; [discriminate E|]); exact E.
Qed.
Lemma f_id_key_first c r : c <> 105 -> c <> 107 -> fails (Rule IdKeyPattern_id) (c :: r).
Proof.
  intros A B. apply F_rule. cbn [rule]. apply F_alt; repeat apply F_first; apply F_txt; [change (ascii_str "id") with [105; 100]; apply (strip_none_clear _ 105)|change (ascii_str "key") with [107; 101; 121]; apply (strip_none_clear _ 107)]; try reflexivity; apply clear_is, Z.eqb_neq; assumption.
Qed.
Lemma shaped_first s : shaped s -> exists c r, s = c :: r /\ name_p c || (c =? 42) = true.
Proof.
  intros [[r ->]|[[|c n] [tail [-> [NE [K _]]]]]]; [exists 42, r; split; reflexivity|elim NE; reflexivity|]. exists c, (n ++ tail). split; [reflexivity|]. cbn in K. apply andb_true_iff in K. destruct K as [-> _]. reflexivity.
Qed.
Lemma shaped_not s k : shaped s -> name_p k = false -> k <> 42 -> clear (is k) s.
Proof.
  intros H N D. destruct (shaped_first s H) as [c [r [-> E]]]. cbn. unfold is. destruct (k =? c) eqn:Q; [|reflexivity]. apply Z.eqb_eq in Q. subst c. rewrite N in E. apply Z.eqb_eq in E. contradiction.
Qed.
(** The axis of a step. *)
Lemma g_pattern_axis a attribute spelled v s : pattern_axis a attribute spelled -> blank v -> shaped s \/ (exists r, s = ascii_str "node()" ++ r) /\ v = [] ->
  exists ax, gets (Rule ChildOrAttributeAxisSpecifier_id) a (v ++ s) ax /\ axis_tree ax attribute spelled.
Proof.
  intros [] V H; eexists; (split; [|constructor]).
  - eapply g_rule_nil. cbn [rule]. apply g_right.
    + destruct H as [H|[[r ->] ->]]; [exact (f_axis_full v s V H)|]. apply (word_then0 _ _ (ascii_str "node")); [exact wordy_axis_full|reflexivity|reflexivity|apply F_discard, F_txt; reflexivity|apply f_colons].
    + eapply g_rule_nil. cbn [rule]. apply g_none, f_chr. destruct H as [H|[[r ->] ->]]; [|reflexivity]. apply blank_clear; try reflexivity; [exact V|]. apply shaped_not; [exact H|reflexivity|discriminate].
  - apply (g_node _ _ _ [Tree (Some AbbreviatedAxisSpecifier_id) [64] []]); [discriminate|cbn [rule]; apply g_right; [apply F_first, wordy_fails; [exact wordy_axis_full|reflexivity]|]|reflexivity]. apply (g_node _ _ _ [Tree None [64] []]); [discriminate|cbn [rule]; apply g_some, g_chr|reflexivity].
  - apply (g_node _ _ _ [Tree (Some Child_id) (ascii_str "child") []]); [discriminate|cbn [rule]; apply g_left|].
    + eapply (g_join _ _ (ascii_str "child") (ascii_str "::") _ [_] []); [apply g_left, g_word; [reflexivity|discriminate]|eapply g_discard, g_txt; discriminate|reflexivity|reflexivity].
    + reflexivity.
  - apply (g_node _ _ _ [Tree (Some Attribute_id) (ascii_str "attribute") []]); [discriminate|cbn [rule]; apply g_left|].
    + eapply (g_join _ _ (ascii_str "attribute") (ascii_str "::") _ [_] []); [apply g_right; [eapply f_word; reflexivity|apply g_word; [reflexivity|discriminate]]|eapply g_discard, g_txt; discriminate|reflexivity|reflexivity].
    + reflexivity.
Qed.
(** What comes after a step. *)
Definition sep_p (c : Z) : bool := (c =? 124) || (c =? 47).
Definition ending (z : str) : Prop := z = [] \/ exists c r, z = c :: r /\ sep_p c = true.
Lemma ending_clear f z : f 124 = false -> f 47 = false -> ending z -> clear f z.
Proof. intros A B [->|[c [r [-> E]]]]; [exact Logic.I|]. cbn. apply orb_true_iff in E. destruct E as [E|E]; apply Z.eqb_eq in E; subst c; assumption. Qed.
Lemma f_predicate_blank v z : blank v -> clear space_p z -> clear (is 91) z -> fails (Rule Predicate_id) (v ++ z).
Proof. intros V C D. apply F_rule. cbn [rule]. do 3 apply F_first. eapply f_second; [apply g_white; [exact V|exact C]|]. eapply f_sign; [reflexivity|exact D]. Qed.
Lemma f_step_pattern v z : blank v -> ending z -> fails (Rule StepPattern_id) (v ++ z).
Proof.
  intros V E. apply F_rule. cbn [rule]. apply F_first. change (v ++ z) with ([] ++ v ++ z). eapply f_second.
  - eapply g_rule_nil. cbn [rule]. apply g_right; [apply F_first, wordy_fails; [exact wordy_axis_full|]|eapply g_rule_nil; cbn [rule]; apply g_none, f_chr].
    + apply (blank_not_name v z); [exact V|]. intros _. apply ending_clear; [reflexivity|reflexivity|exact E].
    + apply (blank_clear 64 v z); try reflexivity; [exact V|]. apply ending_clear; [reflexivity|reflexivity|exact E].
  - apply F_alt.
    + eapply f_word; [reflexivity|]. change (ascii_str "node()") with [110; 111; 100; 101; 40; 41]. apply (strip_none_clear _ 110); [reflexivity|]. apply (blank_clear 110 v z); try reflexivity; [exact V|]. apply ending_clear; [reflexivity|reflexivity|exact E].
    + assert (clear start_p z) as D by (apply ending_clear; [reflexivity|reflexivity|exact E]). assert (clear (is 42) z) as A by (apply ending_clear; [reflexivity|reflexivity|exact E]).
      assert (clear space_p z) as C by (apply ending_clear; [reflexivity|reflexivity|exact E]).
      apply F_rule. cbn [rule]. apply F_first. eapply f_second; [apply g_white; [exact V|exact C]|]. repeat apply F_alt.
      * repeat apply F_first. no_word D.
      * repeat apply F_first. apply f_kind_start, D.
      * apply F_rule. cbn [rule]. repeat apply F_alt; [eapply f_sign; [reflexivity|exact A]|repeat apply F_first; apply f_ncname, D|apply f_qname, D].
Qed.
Section parsing.
Context (x : lexicon).
Local Notation uri := (l_uri x).
Local Notation number := (l_double x).
Lemma predicates_read u qs : predicates_written uri number u qs -> predicates_parsed x u qs.
Proof. induction 1 as [|s e w t qs W B _ IH]; [apply no_predicate_parsed|]. apply predicate_parsed; [apply read_parsed, written_read, W|exact B|exact IH]. Qed.
Lemma predicates_absorb u qs v : predicates_written uri number u qs -> u <> [] -> blank v -> predicates_written uri number (u ++ v) qs.
Proof.
  induction 1 as [|s e w t qs W B P IH]; intros NE V; [elim NE; reflexivity|]. destruct t as [|c t].
  - rewrite app_nil_r. cbn [app]. rewrite <- app_assoc. cbn [app]. rewrite <- (app_nil_r (w ++ v)). apply a_predicate; [exact W|apply blank_app; assumption|]. exact P.
  - cbn [app]. rewrite <- app_assoc. cbn [app]. rewrite <- app_assoc. apply (a_predicate _ _ s e w ((c :: t) ++ v)); [exact W|exact B|apply IH; [discriminate|exact V]].
Qed.
Lemma test_at_weaken tt s (tight tight' : Prop) : (tight -> tight') -> test_at x tt s tight' -> test_at x tt s tight.
Proof.
  intros W [i [E [L [R [D1 D2]]]]]. exists i. split; [exact E|]. split; [exact L|]. split; [exact R|]. split.
  - intros l F. destruct (D1 l F) as [pr [A B]]. exists pr. split; [exact A|]. intro AR. apply B. destruct s as [| | | | | | |[|]]; cbn in *; auto.
  - intros q l F. destruct (D2 q l F) as [pr [A B]]. exists pr. split; [exact A|]. intro AR. apply B. destruct s as [| | | | | | |[|]]; cbn in *; auto.
Qed.
Lemma step_grouped ax attribute spelled tt n ps qs tight : axis_tree ax attribute spelled -> test_at x tt n tight -> predicate_trees x ps qs ->
  exists t p, group StepPattern_id (ax ++ tt :: ps) = [t] /\ step_at x t p tight /\ step_alike (PStep attribute spelled n qs) p.
Proof.
  intros AX TT [_ [_ [_ [AP [qs' [M P]]]]]]. assert (forall y, In y (ax ++ tt :: ps) -> exists i, id_of y = Some i) as IDS.
  { intros y I. apply in_app_or in I. destruct I as [I|[<-|I]]; [|destruct TT as [i [E _]]; exists i; exact E|exists Predicate_id; exact (AP y I)].
    destruct AX; (destruct I as [<-|[]] || destruct I); eexists; reflexivity. }
  pose proof (map_claim StepPattern_id _ IDS) as MC.
  assert ((ax = [] /\ ps = []) \/ (ax <> [] \/ ps <> [])) as [[-> ->]|NE] by (destruct ax; [destruct ps; [left; split; reflexivity|right; right; discriminate]|right; left; discriminate]).
  - exists tt, (PStep attribute spelled n qs'). split; [cbn [app map] in *; cbn [group]; injection MC as MC; rewrite MC; reflexivity|]. split; [|repeat split; cbn; symmetry; exact M].
    exists [], tt, []. split; [exact AX|]. split; [exact TT|]. split; [exact AP|]. split; [exact P|]. left. repeat split.
  - exists (Tree (Some StepPattern_id) [] (ax ++ tt :: ps)), (PStep attribute spelled n qs'). split; [|split; [|repeat split; cbn; symmetry; exact M]].
    + unfold group. rewrite MC. destruct ax as [|y [|y' ax]]; [destruct ps; [destruct NE as [NE|NE]; elim NE; reflexivity|reflexivity]|reflexivity..].
    + exists ax, tt, ps. split; [exact AX|]. split; [exact TT|]. split; [exact AP|]. split; [exact P|]. right. split; [exact NE|reflexivity].
Qed.
Lemma step_joined a attribute spelled m u z ax tt n ps qs tight : gets (Rule ChildOrAttributeAxisSpecifier_id) a (m ++ u ++ z) ax -> axis_tree ax attribute spelled ->
  m <> [] -> gets (Alt (Rule NodeMatchPattern_id) (Rule NodeTest_id)) m (u ++ z) [tt] -> test_at x tt n tight -> gets (Star (Rule Predicate_id)) u z ps -> predicate_trees x ps qs ->
  exists t p, gets (Rule StepPattern_id) (a ++ m ++ u) z [t] /\ step_at x t p tight /\ step_alike (PStep attribute spelled n qs) p.
Proof.
  intros GA AX NM GT TT GP PT. destruct (step_grouped ax attribute spelled tt n ps qs tight AX TT PT) as [t [p [G [SA AL]]]]. exists t, p. split; [|split; assumption].
  apply (g_node _ _ _ (ax ++ tt :: ps)); [destruct a; [destruct m; [elim NM; reflexivity|discriminate]|discriminate]| |exact G]. cbn [rule].
  eapply (g_join _ _ (a ++ m) u z (ax ++ [tt]) ps); [|exact GP|rewrite app_assoc; reflexivity|rewrite <- app_assoc; reflexivity].
  eapply (g_join _ _ a m (u ++ z) ax [tt]); [exact GA|exact GT|reflexivity|reflexivity].
Qed.
Lemma g_node_match z : gets (Rule NodeMatchPattern_id) (ascii_str "node()") z [Tree (Some NodeMatchPattern_id) (ascii_str "node()") []].
Proof. apply g_word; [reflexivity|discriminate]. Qed.
Lemma step_parse s p tight : step_pattern uri number s p tight -> forall v z, blank v -> ending z ->
  exists v1 v2 t p', v = v1 ++ v2 /\ gets (Rule StepPattern_id) (s ++ v1) (v2 ++ z) [t] /\ step_at x t p' (tight = true /\ v = []) /\ step_alike p p'.
Proof.
  intros H v z V E. assert (forall f, f 124 = false -> f 47 = false -> clear f z) as CZ by (intros f A B; apply ending_clear; assumption).
  destruct H as [a attribute spelled u qs A PW|a attribute spelled v0 t n w u qs tight A V0 T NN W PW TI].
  - destruct (list_eq_dec Z.eq_dec u []) as [->|NU].
    + assert (qs = []) as -> by (inversion PW; reflexivity). exists [], v.
      destruct (g_pattern_axis a attribute spelled [] (ascii_str "node()" ++ [] ++ v ++ z) A (Forall_nil _)) as [ax [GA AX]]; [right; split; [eexists|]; reflexivity|].
      destruct (step_joined a attribute spelled (ascii_str "node()") [] (v ++ z) ax (Tree (Some NodeMatchPattern_id) (ascii_str "node()") []) OfNode [] [] (true = true /\ v = []) GA AX) as [t [p [G [SA AL]]]]; [discriminate|apply g_left, g_node_match|apply node_at|apply g_stop, f_predicate_blank; [exact V|apply CZ; reflexivity|apply CZ; reflexivity]|apply no_predicates|].
      exists t, p. split; [reflexivity|]. split; [|split; assumption]. rewrite app_nil_r. exact G.
    + exists v, []. pose proof (predicates_read _ _ (predicates_absorb u qs v PW NU V)) as [_ PP]. destruct (PP z) as [ps [GP PT]]; [apply CZ; reflexivity|apply CZ; reflexivity|].
      destruct (g_pattern_axis a attribute spelled [] (ascii_str "node()" ++ (u ++ v) ++ z) A (Forall_nil _)) as [ax [GA AX]]; [right; split; [eexists|]; reflexivity|].
      destruct (step_joined a attribute spelled (ascii_str "node()") (u ++ v) z ax (Tree (Some NodeMatchPattern_id) (ascii_str "node()") []) OfNode ps qs (true = true /\ v = []) GA AX) as [t [p [G [SA AL]]]]; [discriminate|apply g_left, g_node_match|apply node_at|exact GP|exact PT|].
      exists t, p. split; [rewrite app_nil_r; reflexivity|]. split; [|split; assumption]. eapply g_eq; [exact G|texts|reflexivity].
  - assert (exists w' u', w ++ u ++ v = w' ++ u' /\ blank w' /\ predicates_written uri number u' qs /\ (tight = true /\ v = [] -> v0 = [] /\ unblank t /\ w' = [])) as [w' [u' [EQ [W' [PW' TI']]]]].
    { destruct (list_eq_dec Z.eq_dec u []) as [->|NU].
      - exists (w ++ v), []. split; [rewrite app_nil_r; reflexivity|]. split; [apply blank_app; assumption|]. split; [exact PW|]. intros [TT ->]. destruct (TI TT) as [B1 [B2 B3]]. split; [exact B1|]. split; [exact B2|]. rewrite B3. reflexivity.
      - exists w, (u ++ v). split; [reflexivity|]. split; [exact W|]. split; [apply predicates_absorb; assumption|]. intros [TT _]. exact (TI TT). }
    exists v, []. pose proof (predicates_read _ _ PW') as PP. pose proof PP as [_ PP2]. destruct (PP2 z) as [ps [GP PT]]; [apply CZ; reflexivity|apply CZ; reflexivity|].
    assert (forall f, f 124 = false -> f 47 = false -> f 91 = false -> clear f (u' ++ z)) as CU by (intros f F1 F2 F3; apply (pred_clear x f u' qs z PP F3), CZ; assumption).
    destruct (g_test_parts x v0 t n w' (u' ++ z) T V0 W') as [ts [GT TP]]; [apply CU; reflexivity..|intros _ _; apply CU; reflexivity|].
    destruct (parts_at x v0 w' n (unblank t) ts NN TP) as [tt [GR TT]]. rewrite GR in GT.
    assert (shaped (t ++ w' ++ u' ++ z)) as SH.
    { apply (test_shaped uri t n); [exact T|exact NN|apply blank_clear; try reflexivity; [exact W'|apply CU; reflexivity]|apply blank_clear; try reflexivity; [exact W'|apply CU; reflexivity]|].
      intros _. apply blank_not_name; [exact W'|intros _; apply CU; reflexivity]. }
    assert (v0 ++ t ++ w' <> []) as NM by (destruct (test_head x t n T) as [c [r [-> _]]]; destruct v0; discriminate).
    destruct (g_pattern_axis a attribute spelled v0 (t ++ w' ++ u' ++ z) A V0 (or_introl SH)) as [ax [GA AX]].
    destruct (step_joined a attribute spelled (v0 ++ t ++ w') u' z ax tt n ps qs (tight = true /\ v = [])) as [t' [p [G [SA AL]]]].
    + eapply g_eq; [|reflexivity|reflexivity]. replace ((v0 ++ t ++ w') ++ u' ++ z) with (v0 ++ t ++ w' ++ u' ++ z) by texts. exact GA.
    + exact AX.
    + exact NM.
    + apply g_right; [|exact GT]. replace ((v0 ++ t ++ w') ++ u' ++ z) with (v0 ++ t ++ w' ++ u' ++ z) by texts. apply f_node_match; assumption.
    + apply (test_at_weaken _ _ _ _ TI' TT).
    + exact GP.
    + exact PT.
    + exists t', p. split; [rewrite app_nil_r; reflexivity|]. split; [|split; assumption]. eapply g_eq; [exact G| |reflexivity].
      replace ((a ++ v0 ++ t ++ w ++ u) ++ v) with (a ++ v0 ++ t ++ (w ++ u ++ v)) by texts. rewrite EQ. texts.
Qed.
(** * Parsing paths *)
Lemma seq_split p q s r ts : gets (Seq p q) s r ts -> exists a b ta tb, s = a ++ b /\ gets p a (b ++ r) ta /\ gets q b r tb /\ ts = ta ++ tb.
Proof. intros [us [T E]]. inversion T as [| | |p' q' a b r' ta tb A B| | | | | | | | | | | |]; subst. exists a, b, (norm a ta), (norm b tb). split; [reflexivity|]. split; [exists ta; split; [exact A|reflexivity]|]. split; [exists tb; split; [exact B|reflexivity]|]. apply norm_glue. Qed.
Lemma g_link sep l z : link_written sep l -> clear (is 47) z -> exists u, gets (Alt (Rule SlashSlash_id) (Rule Slash_id)) sep z [u] /\ link_tree u l.
Proof.
  intros [] C; eexists.
  - split; [apply g_right; [eapply f_word; [reflexivity|apply strip2, C]|apply g_sign; reflexivity]|reflexivity].
  - split; [apply g_left, g_word; [reflexivity|discriminate]|reflexivity].
Qed.
Lemma step_pattern_start s p tight : step_pattern uri number s p tight -> exists c r, s = c :: r /\ c <> 47 /\ (space_p c = true -> In c [32; 9; 10; 13]).
Proof.
  intros [a attribute spelled u qs A PW|a attribute spelled v0 t n w u qs ti A V0 T NN W PW TI].
  - destruct A; eexists; eexists; (split; [reflexivity|split; discriminate]).
  - destruct A; try (eexists; eexists; (split; [reflexivity|split; discriminate])). cbn [app]. destruct v0 as [|c v0].
    + destruct (test_head x t n T) as [c [r [-> F]]]. exists c, (r ++ w ++ u). split; [reflexivity|]. split; [intros ->; discriminate F|]. intro D. exfalso. unfold test_first in F. apply orb_true_iff in F. destruct F as [F|F].
      * rewrite (name_not_space c (start_name c F)) in D. discriminate D.
      * apply Z.eqb_eq in F. subst c. discriminate D.
    + apply blank_cons in V0. destruct V0 as [I _]. eexists. eexists. split; [reflexivity|]. split; [|intros _; exact I]. cbn in I. intros ->. destruct I as [D|[D|[D|[D|[]]]]]; discriminate D.
Qed.
Lemma relative_start s p r tight : relative_pattern uri number s p r tight -> exists c k, s = c :: k /\ c <> 47 /\ (space_p c = true -> In c [32; 9; 10; 13]).
Proof. intros [s' p' t H|s' p' t sep l k q m t' H _ _]; destruct (step_pattern_start _ _ _ H) as [c [j [-> N]]]; eexists; eexists; (split; [reflexivity|exact N]). Qed.
Lemma relative_first s p r tight : relative_pattern uri number s p r tight -> exists c k, s = c :: k /\ c <> 47.
Proof. intro H. destruct (relative_start _ _ _ _ H) as [c [k [E [N _]]]]. exists c, k. split; assumption. Qed.
Definition final (z : str) : Prop := z = [] \/ exists r, z = 124 :: r.
Lemma final_ending z : final z -> ending z.
Proof. intros [->|[r ->]]; [left; reflexivity|right; exists 124, r; split; reflexivity]. Qed.
Local Notation more_steps_p := (Star (Seq (Alt (Rule SlashSlash_id) (Rule Slash_id)) (Rule StepPattern_id))).
Definition path_alike (p p' : pstep) (r r' : list (link * pstep)) : Prop := step_alike p p' /\ Forall2 (fun a b => fst a = fst b /\ step_alike (snd a) (snd b)) r r'.
Lemma relative_steps s p r tight : relative_pattern uri number s p r tight -> forall v z, blank v -> final z ->
  exists v1 v2 ts p' r', v = v1 ++ v2 /\ gets (Seq (Rule StepPattern_id) more_steps_p) (s ++ v1) (v2 ++ z) ts /\ rel_trees x ts p' r' /\ path_alike p p' r r' /\
    (r = [] -> exists t, ts = [t] /\ step_at x t p' (tight = true /\ v = [])).
Proof.
  intros H v z V F. assert (forall v2, blank v2 -> gets more_steps_p [] (v2 ++ z) []) as STOP.
  { intros v2 V2. apply g_stop, F_first. assert (clear (is 47) (v2 ++ z)) as C by (apply blank_clear; try reflexivity; [exact V2|]; destruct F as [->|[r' ->]]; [exact Logic.I|reflexivity]).
    apply F_alt; [eapply f_word; [reflexivity|]; apply (strip_none_clear _ 47); [reflexivity|exact C]|eapply f_sign; [reflexivity|exact C]]. }
  induction H as [s p tight SP|s p tight sep l t q r tight' SP L R IH].
  - destruct (step_parse s p tight SP v z V (final_ending z F)) as [v1 [v2 [t [p' [EV [G [SA AL]]]]]]]. exists v1, v2, [t], p', []. split; [exact EV|].
    split; [|split; [exact (one_tree x t p' _ SA)|split; [split; [exact AL|constructor]|intros _; exists t; split; [reflexivity|exact SA]]]].
    eapply (g_join _ _ (s ++ v1) [] _ [t] []); [exact G|apply STOP|rewrite app_nil_r; reflexivity|reflexivity]. subst v. unfold blank in V. rewrite Forall_app in V. apply V.
  - destruct IH as [v1 [v2 [ts [p' [r' [EV [G' [RT [AL _]]]]]]]]].
    assert (exists c k, t = c :: k /\ c <> 47) as [c [k [ET NC]]] by exact (relative_first _ _ _ _ R).
    assert (clear (is 47) (t ++ v1 ++ v2 ++ z)) as CT by (rewrite ET; cbn; unfold is; apply Z.eqb_neq; congruence).
    destruct (g_link sep l (t ++ v1 ++ v2 ++ z) L CT) as [w [GL LT]].
    destruct (step_parse s p tight SP [] (sep ++ t ++ v1 ++ v2 ++ z) (Forall_nil _)) as [e1 [e2 [t1 [p1 [EE [G1 [SA AL1]]]]]]].
    { right. destruct L; eexists; eexists; split; reflexivity. }
    symmetry in EE. apply app_eq_nil in EE. destruct EE as [-> ->]. cbn [app] in G1. rewrite app_nil_r in G1.
    exists v1, v2, (t1 :: w :: ts), p1, ((l, p') :: r'). split; [exact EV|]. split; [|split; [exact (more_trees x t1 p1 _ w l ts p' r' SA LT RT)|split; [|discriminate]]].
    + destruct (seq_split _ _ _ _ _ G') as [b1 [b2 [tb1 [tb2 [EB [GB1 [GB2 ETS]]]]]]].
      eapply (g_join _ _ s (sep ++ t ++ v1) _ [t1] (w :: ts)); [|rewrite EB, ETS|texts|reflexivity].
      * replace ((sep ++ t ++ v1) ++ v2 ++ z) with (sep ++ t ++ v1 ++ v2 ++ z) by texts. exact G1.
      * eapply g_eq; [eapply (g_star _ (sep ++ b1) b2 _ (w :: tb1) tb2); [|exact GB2]|texts|reflexivity].
        eapply (g_join _ _ sep b1 _ [w] tb1); [|exact GB1|reflexivity|reflexivity]. replace (b1 ++ b2 ++ v2 ++ z) with (t ++ v1 ++ v2 ++ z) by (rewrite (app_assoc b1), <- EB; texts). exact GL.
    + destruct AL as [AL2 FA]. split; [exact AL1|]. constructor; [split; [reflexivity|exact AL2]|exact FA].
Qed.
Lemma rel_ids ts p r : rel_trees x ts p r -> forall t, In t ts -> exists i, id_of t = Some i.
Proof.
  induction 1 as [t p tight SA|t p tight sep l ts q r SA L R IH]; intros y I.
  - destruct I as [<-|[]]. destruct (step_id _ _ _ _ SA) as [i [E _]]. exists i. exact E.
  - destruct I as [<-|[<-|I]]; [destruct (step_id _ _ _ _ SA) as [i [E _]]; exists i; exact E|eexists; exact L|exact (IH y I)].
Qed.
Lemma relative_parse s p r tight : relative_pattern uri number s p r tight -> forall v z, blank v -> final z ->
  exists v1 v2 t p' r', v = v1 ++ v2 /\ gets (Rule RelativePathPattern_id) (s ++ v1) (v2 ++ z) [t] /\ path_at x t p' r' (tight = true /\ v = []) /\ path_alike p p' r r'.
Proof.
  intros H v z V F. destruct (relative_first _ _ _ _ H) as [c [k [ES _]]]. destruct (relative_steps s p r tight H v z V F) as [v1 [v2 [ts [p' [r' [EV [G [RT [AL ONE]]]]]]]]].
  assert (s ++ v1 <> []) as NE by (rewrite ES; discriminate). exists v1, v2. destruct r as [|y r].
  - destruct (ONE eq_refl) as [t [-> SA]]. exists t, p', r'. split; [exact EV|]. split; [|split; [|exact AL]].
    + apply (g_node _ _ _ [t]); [exact NE|exact G|]. destruct (step_id _ _ _ _ SA) as [i [E _]]. cbn. rewrite (claim_id _ _ i E). reflexivity.
    + left. destruct AL as [_ FA]. inversion FA. split; [reflexivity|exact SA].
  - assert (r' <> []) as NR by (destruct AL as [_ FA]; inversion FA; discriminate). exists (Tree (Some RelativePathPattern_id) [] ts), p', r'. split; [exact EV|]. split; [|split; [|exact AL]].
    + apply (g_node _ _ _ ts); [exact NE|exact G|]. destruct (rel_white _ _ _ _ RT) as [_ LE]. specialize (LE NR). unfold group. rewrite (map_claim _ _ (rel_ids _ _ _ RT)). destruct ts as [|t1 [|t2 ts]]; [cbn in LE; lia..|reflexivity].
    + right. split; [exact NR|]. exists ts. split; [exact RT|reflexivity].
Qed.
Lemma f_relative_pattern s : fails (Rule StepPattern_id) s -> fails (Rule RelativePathPattern_id) s.
Proof. intro F. apply F_rule. cbn [rule]. apply F_first, F. Qed.
Lemma path_id t p r tight : path_at x t p r tight -> exists i, id_of t = Some i.
Proof. intros [[_ SA]|[_ [ts [_ ->]]]]; [destruct (step_id _ _ _ _ SA) as [i [E _]]; exists i; exact E|eexists; reflexivity]. Qed.
(** A pattern that begins with a step does not begin with an id or key function. *)
Lemma step_no_key s p tight : step_pattern uri number s p tight -> ~ begins (fun c => In c [32; 9; 10; 13]) s -> forall v z, blank v -> ending z -> fails (Rule IdKeyPattern_id) (s ++ v ++ z).
Proof.
  intros H NB v z V E. assert (forall f, f 124 = false -> f 47 = false -> clear f z) as CZ by (intros f A B; apply ending_clear; assumption).
  destruct H as [a attribute spelled u qs A PW|a attribute spelled v0 t n w u qs tight A V0 T NN W PW TI].
  - destruct A; apply f_id_key_first; discriminate.
  - destruct A; try (apply f_id_key_first; discriminate). destruct v0 as [|c v0]; [|elim NB; apply blank_cons in V0; exists c, (v0 ++ t ++ w ++ u); split; [reflexivity|apply V0]].
    cbn [app]. apply f_id_key. replace ((t ++ w ++ u) ++ v ++ z) with (t ++ w ++ u ++ v ++ z) by texts.
    assert (forall f, not_blank f -> f 124 = false -> f 47 = false -> f 91 = false -> clear f (w ++ u ++ v ++ z)) as CC.
    { intros f N F1 F2 F3. apply clear_blank; [exact N|exact W|]. intros _. apply (pred_clear x f u qs); [apply predicates_read, PW|exact F3|]. apply clear_blank; [exact N|exact V|]. intros _. apply CZ; assumption. }
    apply (test_shaped uri t n); [exact T|exact NN|apply CC; [repeat split|reflexivity..]|apply CC; [repeat split|reflexivity..]|]. intros _. apply CC; [repeat split|reflexivity..].
Qed.
Lemma relative_no_key s p r tight : relative_pattern uri number s p r tight -> ~ begins (fun c => In c [32; 9; 10; 13]) s -> forall v z, blank v -> final z -> fails (Rule IdKeyPattern_id) (s ++ v ++ z).
Proof.
  intros [s' p' ti H|s' p' ti sep l t q r' ti' H L R] NB v z V F.
  - apply (step_no_key s' p' ti H NB v z V (final_ending z F)).
  - replace ((s' ++ sep ++ t) ++ v ++ z) with (s' ++ [] ++ sep ++ t ++ v ++ z) by texts. apply (step_no_key s' p' ti H); [|constructor|right; destruct L; eexists; eexists; split; reflexivity].
    intros [c [k [-> I]]]. apply NB. exists c, (k ++ sep ++ t). split; [reflexivity|exact I].
Qed.
Lemma path_alike_of s p p' r r' : path_alike p p' r r' -> alike (Steps s p r) (Steps s p' r').
Proof. intros [A B]. split; [reflexivity|]. split; assumption. Qed.
Lemma f_double_slash s : clear (is 47) s -> fails (Rule SlashSlash_id) s.
Proof. intro C. eapply f_word; [reflexivity|]. change (ascii_str "//") with [47; 47]. apply (strip_none_clear _ 47); [reflexivity|exact C]. Qed.
Lemma location_parse s p tight : location_pattern uri number s p tight -> forall v z, blank v -> final z ->
  exists v1 v2 t p', v = v1 ++ v2 /\ gets (Rule LocationPathPattern_id) (s ++ v1) (v2 ++ z) [t] /\ loc_at x t p' (tight = true /\ v = []) /\ alike p p'.
Proof.
  intros H v z V F. assert (forall y, fails (Seq (Rule IdKeyPattern_id) y) (47 :: v ++ z)) as K by (intro y; apply F_first, f_id_key_first; discriminate).
  destruct H as [|s p r tight R NB|s p r tight R|s p r tight R].
  - exists [], v, (Tree (Some Slash_id) [47] []), TheRoot. split; [reflexivity|]. split; [|split; [apply root_at|exact Logic.I]].
    apply (g_node _ _ _ [Tree (Some Slash_id) [47] []]); [discriminate|cbn [rule]|reflexivity]. apply g_right.
    + apply F_alt; [apply F_first, f_id_key_first; discriminate|]. change ([47] ++ v ++ z) with ([] ++ 47 :: v ++ z). cbn [app]. change (47 :: v ++ z) with ([] ++ 47 :: v ++ z). eapply f_second.
      * apply g_none. eapply f_word; [reflexivity|]. apply strip2. apply blank_clear; try reflexivity; [exact V|]. destruct F as [->|[r' ->]]; [exact Logic.I|reflexivity].
      * apply f_relative_pattern. apply (f_step_pattern []); [constructor|right; exists 47, (v ++ z); split; reflexivity].
    + eapply (g_join _ _ [47] [] _ [_] []); [apply g_sign; reflexivity|apply g_none, f_relative_pattern, f_step_pattern; [exact V|apply final_ending, F]|reflexivity|reflexivity].
  - destruct (relative_parse s p r tight R v z V F) as [v1 [v2 [t [p' [r' [EV [G [PA AL]]]]]]]]. destruct (relative_first _ _ _ _ R) as [c [k [ES NC]]].
    exists v1, v2, t, (Steps Anywhere p' r'). split; [exact EV|]. split; [|split; [apply anywhere_at, PA|apply path_alike_of, AL]].
    destruct (path_id _ _ _ _ PA) as [i EI].
    apply (g_node _ _ _ [t]); [rewrite ES; discriminate|cbn [rule]|cbn; rewrite (claim_id _ _ i EI); reflexivity]. apply g_left, g_right.
    + apply F_first. replace ((s ++ v1) ++ v2 ++ z) with (s ++ v ++ z) by (rewrite EV; texts). apply (relative_no_key s p r tight R NB v z V F).
    + eapply (g_join _ _ [] (s ++ v1) _ [] [t]); [apply g_none, f_double_slash|exact G|reflexivity|reflexivity]. rewrite ES. cbn. unfold is. apply Z.eqb_neq. congruence.
  - destruct (relative_parse s p r tight R v z V F) as [v1 [v2 [t [p' [r' [EV [G [PA AL]]]]]]]]. destruct (relative_first _ _ _ _ R) as [c [k [ES NC]]].
    exists v1, v2, (Tree (Some LocationPathPattern_id) [] [Tree (Some Slash_id) [47] []; t]), (Steps FromRoot p' r'). split; [exact EV|].
    split; [|split; [apply (start_at x t p' r' _ _ FromRoot); [exact PA|discriminate|reflexivity]|apply path_alike_of, AL]].
    destruct (path_id _ _ _ _ PA) as [i EI].
    apply (g_node _ _ _ [Tree (Some Slash_id) [47] []; t]); [discriminate|cbn [rule]|unfold group; cbn [map]; rewrite (claim_id _ _ i EI); reflexivity]. apply g_right.
    + apply F_alt; [apply F_first, f_id_key_first; discriminate|]. change (((47 :: s) ++ v1) ++ v2 ++ z) with ([] ++ 47 :: (s ++ v1) ++ v2 ++ z). eapply f_second.
      * apply g_none. eapply f_word; [reflexivity|]. apply (strip2 47 47). rewrite ES. cbn. unfold is. apply Z.eqb_neq. congruence.
      * apply f_relative_pattern. apply (f_step_pattern []); [constructor|right; eexists; eexists; split; reflexivity].
    + eapply (g_join _ _ [47] (s ++ v1) _ [_] [t]); [apply g_sign; reflexivity|apply g_some, G|reflexivity|reflexivity].
  - destruct (relative_parse s p r tight R v z V F) as [v1 [v2 [t [p' [r' [EV [G [PA AL]]]]]]]]. destruct (relative_first _ _ _ _ R) as [c [k [ES NC]]].
    exists v1, v2, (Tree (Some LocationPathPattern_id) [] [Tree (Some SlashSlash_id) [47; 47] []; t]), (Steps Below p' r'). split; [exact EV|].
    split; [|split; [apply (start_at x t p' r' _ _ Below); [exact PA|discriminate|reflexivity]|apply path_alike_of, AL]].
    destruct (path_id _ _ _ _ PA) as [i EI].
    apply (g_node _ _ _ [Tree (Some SlashSlash_id) [47; 47] []; t]); [discriminate|cbn [rule]|unfold group; cbn [map]; rewrite (claim_id _ _ i EI); reflexivity]. apply g_left, g_right.
    + apply F_first, f_id_key_first; discriminate.
    + eapply (g_join _ _ [47; 47] (s ++ v1) _ [_] [t]); [apply g_some, g_word; [reflexivity|discriminate]|exact G|reflexivity|reflexivity].
Qed.
(** * Whole patterns *)
Lemma location_first s p tight z : location_pattern uri number s p tight -> s <> [] /\ clear space_p (s ++ z).
Proof.
  intros [|s' p' r ti R NB|s' p' r ti R|s' p' r ti R]; try (split; [discriminate|reflexivity]). destruct (relative_start _ _ _ _ R) as [c [k [-> [_ B]]]]. split; [discriminate|]. cbn.
  destruct (space_p c) eqn:E; [|reflexivity]. elim NB. exists c, k. split; [reflexivity|exact (B eq_refl)].
Qed.
Definition reads (p : XMatch.location * bool) (q : XMatch.location * Prop) : Prop := alike (fst p) (fst q) /\ (snd p = true -> snd q).
Local Notation one_p := (Seq (Seq (Discard (Rule S_id)) (Rule LocationPathPattern_id)) (Discard (Rule S_id))).
Local Notation next_p := (Seq (Seq (Seq (Rule UnionOperator_id) (Discard (Rule S_id))) (Rule LocationPathPattern_id)) (Discard (Rule S_id))).
Lemma one_parsed w s p v tight' (tight : bool) z : blank w -> location_pattern uri number s p tight' -> blank v -> (tight = true -> tight' = true /\ v = []) -> final z ->
  exists t q, gets one_p (w ++ s ++ v) z [t] /\ loc_at x t (fst q) (snd q) /\ reads (p, tight) q.
Proof.
  intros W L V TI F. destruct (location_parse s p tight' L v z V F) as [v1 [v2 [t [p' [EV [G [LA AL]]]]]]]. exists t, (p', tight' = true /\ v = []). split; [|split; [exact LA|split; [exact AL|exact TI]]].
  assert (blank v2) as V2 by (rewrite EV in V; unfold blank in *; rewrite Forall_app in V; apply V).
  eapply (g_join _ _ (w ++ s ++ v1) v2 z [t] []); [|eapply d_white; [exact V2|]|rewrite EV; texts|reflexivity].
  - eapply (g_join _ _ w (s ++ v1) _ [] [t]); [eapply d_white; [exact W|]|exact G|reflexivity|reflexivity]. rewrite <- app_assoc. apply (location_first s p tight'), L.
  - destruct F as [->|[r ->]]; [exact Logic.I|reflexivity].
Qed.
Lemma next_parsed s ps : pattern_written uri number s ps -> exists ts qs, gets (Seq one_p (Star next_p)) s [] ts /\ alternative_trees x ts qs /\ Forall2 reads ps qs.
Proof.
  induction 1 as [w s p v tight tight' W L V TI|w s p v tight tight' t ps W L V TI R IH].
  - destruct (one_parsed w s p v tight' tight [] W L V TI (or_introl eq_refl)) as [u [[q ti] [G [LA RE]]]]. exists [u], [(q, ti)]. split; [|split; [constructor; exact LA|constructor; [exact RE|constructor]]].
    eapply (g_join _ _ (w ++ s ++ v) [] [] [u] []); [exact G|apply g_stop; repeat apply F_first; eapply f_sign; [reflexivity|exact Logic.I]|rewrite app_nil_r; reflexivity|reflexivity].
  - destruct IH as [ts [qs [G [AT FR]]]]. destruct (one_parsed w s p v tight' tight (124 :: t) W L V TI (or_intror (ex_intro _ t eq_refl))) as [u [[q ti] [G1 [LA RE]]]].
    pose (o := Tree (Some UnionOperator_id) [124] []). exists (u :: o :: ts), ((q, ti) :: qs). split; [|split; [constructor; [exact LA|reflexivity|exact AT]|constructor; assumption]].
    destruct (seq_split _ _ _ _ _ G) as [a [b [ta [tb [E1 [GA [GB E2]]]]]]]. destruct (seq_split _ _ _ _ _ GA) as [a1 [a2 [ta1 [ta2 [E3 [GA1 [GA2 E4]]]]]]]. destruct (seq_split _ _ _ _ _ GA1) as [a3 [a4 [ta3 [ta4 [E5 [GA3 [GA4 E6]]]]]]].
    eapply (g_join _ _ (w ++ s ++ v) (124 :: t) [] [u] (o :: ts)); [rewrite app_nil_r; exact G1| |texts|reflexivity].
    eapply g_eq; [eapply (g_star _ (124 :: a) b [] (o :: ta) tb); [|exact GB]|rewrite E1; reflexivity|rewrite E2; reflexivity].
    rewrite E3, E4. eapply (g_join _ _ (124 :: a1) a2 _ (o :: ta1) ta2); [|exact GA2|reflexivity|reflexivity].
    rewrite E5, E6. eapply (g_join _ _ (124 :: a3) a4 _ (o :: ta3) ta4); [|exact GA4|reflexivity|reflexivity].
    eapply (g_join _ _ [124] a3 _ [o] ta3); [apply g_sign; reflexivity|exact GA3|reflexivity|reflexivity].
Qed.
Lemma alike_flat_length a b : map flat a = map flat b -> length a = length b.
Proof. intro E. rewrite <- (map_length flat a), E. apply map_length. Qed.
Lemma right_reads p tight q ti : reads (p, tight) (q, ti) -> priority_right p tight -> loc_right q ti.
Proof.
  intros [A T]. cbn [fst snd] in *. destruct p as [|[] [a sp n l] r], q as [|[] [a' sp' n' l'] r']; cbn [alike] in A; try contradiction; try (destruct A as [D _]; discriminate D); try (intros; exact Logic.I).
  destruct A as [_ [[E1 [E2 [E3 E4]]] FA]]. cbn [ps_attribute ps_spelled ps_test ps_predicates] in *. subst a' sp' n'. apply alike_flat_length in E4. destruct FA as [|y y' r r' _ FA]; [|intros; exact Logic.I].
  cbn [priority_right loc_right]. unfold step_right. cbn [ps_attribute ps_spelled ps_test ps_predicates]. destruct l as [|e [|e2 l]], l' as [|e' [|e2' l']]; try discriminate E4; [| |intros; exact Logic.I].
  - destruct n as [| | | | | | |[|]]; cbn; auto.
  - intros [H|[H|H]]; [left; exact H|right; left; exact H|right; right]. destruct n as [| | | | | | |[|]]; cbn; auto.
Qed.
Lemma priority_alike p q : alike p q -> priority_of q = priority_of p.
Proof.
  destruct p as [|[] [a sp n l] r], q as [|[] [a' sp' n' l'] r']; cbn [alike]; try contradiction; try (intros [D _]; discriminate D); try reflexivity.
  intros [_ [[E1 [E2 [E3 E4]]] FA]]. cbn [ps_attribute ps_spelled ps_test ps_predicates] in *. subst n'. apply alike_flat_length in E4. destruct FA; destruct l, l'; try discriminate E4; reflexivity.
Qed.
Definition compiles_to (p : XMatch.location * bool) (m : matcher * spec_float) : Prop :=
  exists p', alike (fst p) p' /\ fst m = Path (compiled p') /\ (priority_right (fst p) (snd p) -> snd m = priority_of (fst p)).
Lemma reads_compiles ps qs : Forall2 reads ps qs -> forall ms, Forall2 answers qs ms -> Forall2 compiles_to ps ms.
Proof.
  induction 1 as [|[p tight] [q ti] ps qs R _ IH]; intros ms M; inversion M as [|? [m pr] ? ? [A B] MM]; subst; constructor; [|apply IH, MM].
  exists q. cbn [fst snd] in *. split; [apply R|]. split; [exact A|]. intro PR. rewrite B by (apply (right_reads p tight q ti R PR)). apply priority_alike, R.
Qed.
Lemma alternative_ids ts qs : alternative_trees x ts qs -> forall t, In t ts -> exists i, id_of t = Some i.
Proof.
  induction 1 as [t p tight [[i [E _]] _]|t p tight u ts ps [[i [E _]] _] U _ IH]; intros y I.
  - destruct I as [<-|[]]. exists i. exact E.
  - destruct I as [<-|[<-|I]]; [exists i; exact E|eexists; exact U|exact (IH y I)].
Qed.
Lemma compile_lemma s ps : pattern_written uri number s ps -> exists ms, ev (fun n => compile_pattern n x s = Got ms) /\ Forall2 compiles_to ps ms.
Proof.
  intro H. assert (s <> []) as NE by (destruct H as [w s p v tight tight' W L V TI|w s p v tight tight' t ps W L V TI R]; destruct (location_first s p tight' [] L) as [N _]; (destruct w; [destruct s; [elim N; reflexivity|discriminate]|discriminate])).
  destruct (next_parsed s ps H) as [ts [qs [G [AT FR]]]]. destruct (alternatives_got x ts qs AT) as [ms [EM FM]]. pose proof (reads_compiles ps qs FR ms FM) as FC.
  assert (gets (Rule Pattern_id) s [] (group Pattern_id ts)) as GP by (apply g_rule; [exact NE|exact G]).
  pose proof (gets_parse _ _ _ _ NE GP) as EP. rewrite app_nil_r in EP. pose proof (map_claim Pattern_id ts (alternative_ids ts qs AT)) as MC.
  destruct AT as [t p tight LA|t p tight u ts qs LA U AT].
  - destruct LA as [[i [EI NI]] LA]. destruct (LA [] (or_introl eq_refl)) as [pr [EO PR]]. exists [(Path (compiled p), pr)]. split.
    + refine (ev_map2 _ _ _ _ EP EO). intros n H1 H2. unfold compile_pattern. rewrite H1. cbn [group] in *. cbn [map] in MC. injection MC as MC. rewrite MC. rewrite EI. rewrite H2. destruct i; try reflexivity. elim NI. reflexivity.
    + assert (Forall2 answers [(p, tight)] [(Path (compiled p), pr)]) as FA by (constructor; [split; [reflexivity|exact PR]|constructor]). exact (reads_compiles _ _ FR _ FA).
  - exists ms. split; [|exact FC]. refine (ev_map2 _ _ _ _ EP EM). intros n H1 H2. unfold compile_pattern. rewrite H1. unfold group. rewrite MC. cbn [id_of kids_of]. exact H2.
Qed.
End parsing.
Lemma step_plain p q : step_alike p q -> ps_predicates p = [] -> q = p.
Proof. destruct p as [a s n l], q as [a' s' n' l']. intros [A [B [C D]]] E. cbn in *. subst. destruct l'; [reflexivity|discriminate D]. Qed.
Lemma alike_plain p q : alike p q -> plain p -> q = p.
Proof.
  destruct p as [|s a l], q as [|s' a' l']; cbn [alike]; try contradiction; [reflexivity|]. intros [<- [A F]] [P FP]. rewrite (step_plain a a' A P). f_equal. clear A P. induction F as [|[k x] [k' x'] l l' [E A] F IH]; [reflexivity|].
  inversion FP as [|? ? P1 P2]. cbn [fst snd] in *. subst. rewrite (step_plain x x' A P1), (IH P2). reflexivity.
Qed.
