(** What the compiler makes of the trees of expressions, paths and steps. *)
From Verif.Model Require Import Base XNode XAxis XCompare XStep XSort XEval XParse.
From Verif.Spec Require Import XParseSpec.
From Verif.Proof Require Import XParsePeg XParseToken.
From Coq Require Import Lia Bool List. Import ListNotations. Open Scope Z_scope.

(** * Parentheses left out *)
Definition keep (s : step_of expr) : step_of expr :=
  match s with AxisStep a s qs => AxisStep a s (map flat qs) | FilterStep e qs => FilterStep (flat e) (map flat qs) end.
Definition flat_start (e : expr) : list (step_of expr) := match flat e with EPath false (s :: l) => s :: l | e => [FilterStep e []] end.
Definition flat_first (l : list (step_of expr)) : list (step_of expr) := match l with FilterStep e [] :: r => flat_start e ++ map keep r | l => map keep l end.
Lemma flat_path b l : flat (EPath b l) = EPath b (if b then map keep l else flat_first l).
Proof. destruct b; [reflexivity|]. destruct l as [|[a s qs|e [|q qs]] l]; reflexivity. Qed.
Lemma flat_start_some e : flat_start e <> [].
Proof. unfold flat_start. destruct (flat e) as [| | | | | | | | | |[] [|s l]]; discriminate. Qed.
Lemma flat_first_some l : l <> [] -> flat_first l <> [].
Proof.
  intro N. destruct l as [|[a s qs|e [|q qs]] l]; [elim N; reflexivity|discriminate| |discriminate]. cbn [flat_first]. pose proof (flat_start_some e) as H. destruct (flat_start e); [elim H; reflexivity|discriminate].
Qed.
Lemma flat_first_app l m : l <> [] -> flat_first (l ++ m) = flat_first l ++ map keep m.
Proof. intro N. destruct l as [|[a s qs|e [|q qs]] l]; [elim N; reflexivity|..]; cbn; rewrite map_app; [reflexivity|apply app_assoc|reflexivity]. Qed.
Lemma start_path e l : l <> [] -> flat e = EPath false (flat_first l) -> flat_start e = flat_first l.
Proof. intros N E. unfold flat_start. rewrite E. pose proof (flat_first_some l N) as H. destruct (flat_first l); [elim H; reflexivity|reflexivity]. Qed.
Lemma start_same e e' : flat e' = flat e -> flat_start e' = flat_start e.
Proof. intro E. unfold flat_start. rewrite E. reflexivity. Qed.
Lemma keep_first l m : map keep l = map keep m -> flat_first l = flat_first m.
Proof.
  destruct l as [|s l], m as [|s' m]; try discriminate; [reflexivity|]. intro E. injection E as K M. destruct s as [a s qs|e qs], s' as [a' s' qs'|e' qs']; cbn in K; try discriminate K.
  - cbn. rewrite M. injection K as -> -> ->. reflexivity.
  - injection K as E1 E2. destruct qs as [|q qs], qs' as [|q' qs']; try discriminate E2; cbn [flat_first].
    + rewrite (start_same _ _ E1), M. reflexivity.
    + cbn [map keep]. rewrite E1, M. cbn [map] in E2. rewrite E2. reflexivity.
Qed.
Lemma keep_flat b l m : map keep l = map keep m -> flat (EPath b l) = flat (EPath b m).
Proof. intro E. rewrite !flat_path. destruct b; [rewrite E; reflexivity|]. rewrite (keep_first l m E). reflexivity. Qed.

(** * Expressions *)
Section with_lexicon.
Context (x : lexicon).
Definition good (t : tree) (e : expr) : Prop :=
  exists e', flat e' = flat e /\
    (forall after, (id_of t = Some ProcessingInstruction_id -> is_literal after = None) -> ev (fun n => compile n x (t :: after) = Got e')) /\
    (id_of t = Some Step_id -> exists st, e' = EPath false [st] /\ ev (fun n => create_step n x (kids_of t) = Got (st, []))) /\
    (id_of t = Some RelativeLocationPath_id -> e' <> EPath false []).
Lemma ev_same {A} (f : nat -> answer A) u v : ev (fun n => f n = Got u) -> ev (fun n => f n = Got v) -> u = v.
Proof. intros A1 B. destruct (ev_here _ (ev_and _ _ A1 B)) as [n [E F]]. congruence. Qed.
Lemma ev_S_inv (P : nat -> Prop) : ev P -> ev (fun n => P (S n)).
Proof. intros [k H]. exists k. intros n L. apply H. lia. Qed.
(** What follows a step in a list of steps. *)
Definition open_after (l : list tree) : Prop := match l with [] => True | t :: _ => id_of t <> Some Literal_id /\ id_of t <> Some Predicate_id end.
Lemma open_literal l : open_after l -> is_literal l = None.
Proof. destruct l as [|t l]; [reflexivity|]. intros [A _]. cbn. destruct (id_of t) as [[]|]; congruence. Qed.
Lemma open_predicates n l : open_after l -> predicates (S n) x l = Got ([], l).
Proof. destruct l as [|t l]; [reflexivity|]. intros [_ A]. cbn. destruct (id_of t) as [[]|]; congruence. Qed.

Definition testish : list rid := [NodeTest_id; NameTest_id; QName_id; NCName_id; AnyName_id; Text_id; Comment_id; ProcessingInstruction_id; Node_id; SelfSelect_id; ParentSelect_id].
Lemma single_inv i t after s : id_of t = Some i -> In i testish -> (i = ProcessingInstruction_id -> is_literal after = None) ->
  single_step x (t :: after) = Got s -> exists a o, get_axis (t :: after) = Got (a, t :: after) /\ read_test x (t :: after) = Got (Some o, after) /\ s = AxisStep a o [].
Proof.
  intros E I P H. unfold single_step in H. assert (exists a, get_axis (t :: after) = Got (a, t :: after)) as [a GA].
  { unfold get_axis. rewrite E. cbn in I. repeat (destruct I as [<-|I]; [eexists; reflexivity|]). destruct I. }
  rewrite GA in H. cbn [andthen] in H. exists a.
  assert (forall o l, read_test x (t :: after) = Got (o, l) -> o <> None -> l = after) as R.
  { intros o l. unfold read_test. cbn [skip_white]. rewrite E. cbn in I.
    destruct I as [<-|I]; [rewrite E; intros H2 _; destruct (leaf_test x (skip_white (kids_of t))) as [[o' l']| | |]; [|discriminate..]; injection H2 as _ <-; reflexivity|].
    repeat (destruct I as [<-|I]; [rewrite E; unfold leaf_test; rewrite E; intros H2 _|]).
    - destruct (kids_of t) as [|p k]; [discriminate|]. destruct (l_uri x (text_of p)); [injection H2 as _ <-; reflexivity|discriminate].
    - destruct (qualified x (kids_of t)) as [[[p u] m]| | |]; [|discriminate..]. injection H2 as _ <-. reflexivity.
    - injection H2 as _ <-; reflexivity.
    - injection H2 as _ <-; reflexivity.
    - injection H2 as _ <-; reflexivity.
    - injection H2 as _ <-; reflexivity.
    - rewrite (P eq_refl) in H2. injection H2 as _ <-; reflexivity.
    - injection H2 as _ <-; reflexivity.
    - injection H2 as _ <-; reflexivity.
    - injection H2 as _ <-; reflexivity.
    - destruct I. }
  destruct (read_test x (t :: after)) as [[[o|] l]| | |] eqn:Y; [|discriminate..]. cbn [andthen] in H. exists o. split; [exact GA|]. split.
  - rewrite (R (Some o) l eq_refl) by discriminate. reflexivity.
  - injection H as <-. reflexivity.
Qed.

(** A tree of an expression as the beginning of a path. *)
Definition ordinary (i : rid) : bool :=
  match i with
  | AbsoluteLocationPath_id | AbbreviatedAbsoluteLocationPath_id | PathExpr_id | PrimaryExpr_id | FunctionCall_id
  | AdditiveExpr_id | MultiplicativeExpr_id | EqualityExpr_id | RelationalExpr_id | OrExpr_id | AndExpr_id | UnionExpr_id
  | Literal_id | Number_id | Digits_id | VariableReference_id | UnaryExpr_id => true
  | _ => false
  end.
Definition tests (i : rid) : bool :=
  match i with
  | NodeTest_id | NameTest_id | QName_id | NCName_id | AnyName_id | Text_id | Comment_id | ProcessingInstruction_id | Node_id | SelfSelect_id | ParentSelect_id => true
  | _ => false
  end.
Lemma tests_in i : tests i = true -> In i testish.
Proof. destruct i; intro H; try discriminate H; cbn; auto 20. Qed.
Lemma step_list_other n i t r : id_of t = Some i -> ordinary i || tests i = true ->
  step_list (S n) x (t :: r) = andthen (create_step n x (t :: r)) (fun '(s, after) => andthen (step_list n x after) (fun l => Got (s :: l))).
Proof. intros E D. cbn [step_list]. rewrite E. destruct i; first [discriminate D|reflexivity]. Qed.
Lemma get_axis_ordinary i t r : id_of t = Some i -> ordinary i = true -> get_axis (t :: r) = Got (Child, t :: r).
Proof. intros E D. unfold get_axis. rewrite E. destruct i; first [discriminate D|reflexivity]. Qed.
Lemma read_test_ordinary i t r : id_of t = Some i -> ordinary i = true -> read_test x (t :: r) = Got (None, t :: r).
Proof.
  intros E D. assert (skip_white (t :: r) = t :: r) as W by (cbn [skip_white]; rewrite E; destruct i; first [discriminate D|reflexivity]).
  unfold read_test. rewrite W, E. assert (leaf_test x (t :: r) = Got (None, t :: r)) as L by (unfold leaf_test; rewrite E; destruct i; first [discriminate D|reflexivity]).
  destruct i; first [discriminate D|exact L].
Qed.
Lemma default_step i t after e' rest : id_of t = Some i -> ordinary i = true ->
  open_after after -> ev (fun n => compile n x (t :: after) = Got e') -> ev (fun n => step_list n x after = Got rest) ->
  ev (fun n => step_list n x (t :: after) = Got (FilterStep e' [] :: rest)).
Proof.
  intros E NI O C L. apply ev_S, ev_S, ev_S. generalize (ev_S_inv _ C). clear C. intro C. refine (ev_map2 _ _ _ _ C (ev_S_inv _ (ev_S_inv _ L))).
  intros n C1 L1.
  rewrite (step_list_other _ i) by (try exact E; rewrite NI; reflexivity).
  assert (create_step (S (S n)) x (t :: after) = Got (FilterStep e' [], after)) as CS.
  { cbn [create_step]. rewrite (get_axis_ordinary i) by assumption. cbn [andthen]. rewrite (read_test_ordinary i) by assumption. cbn [andthen]. rewrite C1. cbn [andthen tl]. rewrite (open_predicates n after O). reflexivity. }
  rewrite CS; cbn [andthen]; rewrite L1; reflexivity.
Qed.
Lemma compile_test n i t r : id_of t = Some i -> tests i = true -> compile (S n) x (t :: r) = andthen (single_step x (t :: r)) (fun s => Got (EPath false [s])).
Proof. intros E D. cbn [compile]. rewrite E. destruct i; first [discriminate D|reflexivity]. Qed.
Inductive start_of : rid -> Prop :=
| starts_ordinary i : ordinary i = true -> start_of i
| starts_test i : tests i = true -> start_of i
| starts_relative : start_of RelativeLocationPath_id
| starts_step : start_of Step_id
| starts_filter : start_of FilterExpr_id
| starts_slash : start_of Slash_id.
Lemma compile_start n t e : compile (S n) x [t] = Got e -> exists i, id_of t = Some i /\ start_of i.
Proof.
  cbn [compile]. destruct (id_of t) as [i|]; [|discriminate]. intro H. exists i. split; [reflexivity|].
  destruct i; first [discriminate H|exact starts_relative|exact starts_step|exact starts_filter|exact starts_slash|apply starts_ordinary; reflexivity|apply starts_test; reflexivity|idtac].
  destruct n; discriminate H.
Qed.
Definition slashed (l : list tree) : Prop := exists t r, l = t :: r /\ (id_of t = Some Slash_id \/ id_of t = Some SlashSlash_id).
Lemma slashed_open l : slashed l -> open_after l.
Proof. intros [t [r [-> [E|E]]]]; cbn; rewrite E; split; discriminate. Qed.
Lemma good_start t e : good t e -> flat e <> EPath true [] -> exists l, l <> [] /\ flat_first l = flat_start e /\
  forall after rest, slashed after -> ev (fun n => step_list n x after = Got rest) -> ev (fun n => step_list n x (t :: after) = Got (l ++ rest)).
Proof.
  intros [e' [F [C [ST RT]]]] NR. assert (forall after, slashed after -> ev (fun n => compile n x (t :: after) = Got e')) as CA.
  { intros after SL. apply C. intros _. apply open_literal, slashed_open, SL. }
  pose proof (C [] (fun _ => eq_refl)) as C0. destruct (ev_here _ (ev_S_inv _ C0)) as [n0 H0]. destruct (compile_start _ _ _ H0) as [i [E SO]].
  destruct SO as [i O|i T| | | |].
  - exists [FilterStep e' []]. split; [discriminate|]. split; [cbn [flat_first map]; rewrite app_nil_r; apply start_same, F|].
    intros after rest SL L. eapply default_step; [exact E|exact O|apply slashed_open, SL|apply CA, SL|exact L].
  - assert (forall after, slashed after -> exists a o, get_axis (t :: after) = Got (a, t :: after) /\ read_test x (t :: after) = Got (Some o, after) /\ e' = EPath false [AxisStep a o []]) as TA.
    { intros after SL. destruct (ev_here _ (ev_S_inv _ (CA after SL))) as [n H]. rewrite (compile_test n i) in H by assumption.
      destruct (single_step x (t :: after)) as [s| | |] eqn:SS; [|discriminate..]. injection H as <-.
      destruct (single_inv i t after s E (tests_in i T) (fun _ => open_literal _ (slashed_open _ SL)) SS) as [a [o [A1 [B1 ->]]]]. exists a, o. repeat split; assumption. }
    pose (sl := [Tree (Some Slash_id) [] []]). assert (slashed sl) as SS0 by (eexists; eexists; split; [reflexivity|left; reflexivity]).
    destruct (TA sl SS0) as [a0 [o0 [_ [_ E0]]]]. exists [AxisStep a0 o0 []]. split; [discriminate|]. split.
    + unfold flat_start. rewrite <- F, E0. reflexivity.
    + intros after rest SL L. destruct (TA after SL) as [a [o [A1 [B1 E1]]]]. rewrite E0 in E1. injection E1 as <- <-.
      apply ev_S, ev_S, ev_S. refine (ev_map _ _ _ (ev_S_inv _ (ev_S_inv _ L))). intros n L1.
      assert (create_step (S (S n)) x (t :: after) = Got (AxisStep a0 o0 [], after)) as CS.
      { cbn [create_step]. rewrite A1. cbn [andthen]. rewrite B1. cbn [andthen]. rewrite (open_predicates n after (slashed_open _ SL)). reflexivity. }
      rewrite (step_list_other _ i) by (try exact E; rewrite T; apply orb_true_r). rewrite CS; cbn [andthen]; rewrite L1; reflexivity.
  - (* RelativeLocationPath *)
    cbn [compile] in H0. rewrite E in H0. destruct (step_list n0 x (kids_of t)) as [l| | |] eqn:L0; [|discriminate..]. injection H0 as E0. assert (l <> []) as NE by (intros ->; apply (RT E); symmetry; exact E0). exists l. split; [exact NE|]. split.
    + symmetry. apply start_path; [exact NE|]. rewrite <- F, <- E0. apply flat_path.
    + intros after rest SL L. apply ev_S. generalize (ev_S_inv _ C0). intro C1. refine (ev_map2 _ _ _ _ C1 L). intros n H1 L1. cbn [compile] in H1. rewrite E in H1.
      cbn [step_list]. rewrite E. destruct (step_list n x (kids_of t)) as [l'| | |]; [|discriminate..]. injection H1 as H1. rewrite <- E0 in H1. injection H1 as ->. cbn [andthen]. rewrite L1. reflexivity.
  - (* Step *)
    destruct (ST E) as [st [E0 CS]]. exists [st]. split; [discriminate|]. split; [symmetry; apply start_path; [discriminate|]; rewrite <- F, E0; apply flat_path|]. intros after rest SL L. apply ev_S. refine (ev_map2 _ _ _ _ CS L).
    intros n H1 L1. cbn [step_list]. rewrite E, H1. cbn [andthen]. rewrite L1. reflexivity.
  - (* FilterExpr *)
    cbn [compile] in H0. rewrite E in H0. destruct (filter_step n0 x t) as [s| | |] eqn:L0; [|discriminate..]. injection H0 as E0. exists [s]. split; [discriminate|]. split.
    + symmetry. apply start_path; [discriminate|]. rewrite <- F, <- E0. apply flat_path.
    + intros after rest SL L. apply ev_S. generalize (ev_S_inv _ C0). intro C1. refine (ev_map2 _ _ _ _ C1 L). intros n H1 L1. cbn [compile] in H1. rewrite E in H1.
      cbn [step_list]. rewrite E. destruct (filter_step n x t) as [s'| | |]; [|discriminate..]. injection H1 as H1. rewrite <- E0 in H1. injection H1 as ->. cbn [andthen]. rewrite L1. reflexivity.
  - (* Slash *)
    exfalso. cbn [compile] in H0. rewrite E in H0. injection H0 as <-. apply NR. rewrite <- F. reflexivity.
Qed.

(** * Steps *)
Definition axis_trees (ax : list tree) (a : axis) : Prop :=
  ax = [] /\ a = Child \/
  exists t, ax = [t] /\
    (id_of t = Some S_id /\ a = Child \/ id_of t = Some AbbreviatedAxisSpecifier_id /\ a = Attribute \/
     id_of t = Some AxisSpecifier_id /\ exists u r, skip_white (kids_of t) = u :: r /\ own_axis (id_of u) = a).
Definition test_tree (t : tree) (s : test) : Prop :=
  exists i, id_of t = Some i /\ tests i = true /\ i <> SelfSelect_id /\ i <> ParentSelect_id /\
    forall l, (i = ProcessingInstruction_id -> is_literal l = None) -> read_test x (t :: l) = Got (Some s, l).
Definition predicate_trees (ps : list tree) (qs : list expr) : Prop :=
  (forall after, open_after after -> open_after (ps ++ after) \/ ps <> []) /\ (forall after, is_literal after = None -> is_literal (ps ++ after) = None) /\
  (ps = [] <-> qs = []) /\ (forall p, In p ps -> id_of p = Some Predicate_id) /\
  exists qs', map flat qs' = map flat qs /\ forall after, open_after after -> ev (fun n => predicates n x (ps ++ after) = Got (qs', after)).
Lemma no_predicates : predicate_trees [] [].
Proof.
  split; [auto|]. split; [auto|]. split; [tauto|]. split; [intros p []|]. exists []. split; [reflexivity|]. intros after O. apply ev_S, ev_all. intro n. apply open_predicates, O.
Qed.
Lemma more_predicates p t more ps e qs : id_of p = Some Predicate_id -> (exists l, kids_of p = l :: t :: more) -> is_literal more = None -> good t e -> predicate_trees ps qs ->
  predicate_trees (p :: ps) (e :: qs).
Proof.
  intros E [l K] NL [e' [F [C _]]] [_ [_ [_ [AP [qs' [M P]]]]]]. split; [intros after _; right; discriminate|]. split; [intros after _; cbn; rewrite E; reflexivity|].
  split; [split; discriminate|]. split; [intros q [<-|I]; [exact E|exact (AP q I)]|]. exists (e' :: qs'). split; [cbn; rewrite F, M; reflexivity|]. intros after O. apply ev_S.
  refine (ev_map2 _ _ _ _ (C more (fun _ => NL)) (P after O)). intros n H1 H2. cbn [app predicates]. rewrite E, K. cbn [tl]. rewrite H1. cbn [andthen]. rewrite H2. reflexivity.
Qed.
Definition step_good (u : tree) (st : step_of expr) : Prop :=
  good u (EPath false [st]) /\ id_of u <> Some Predicate_id /\ id_of u <> Some Literal_id /\
  exists st', keep st' = keep st /\ forall after rest, open_after after -> ev (fun n => step_list n x after = Got rest) -> ev (fun n => step_list n x (u :: after) = Got (st' :: rest)).
Lemma skip_test t i l : id_of t = Some i -> tests i = true -> skip_white (t :: l) = t :: l.
Proof. intros E T. cbn [skip_white]. rewrite E. destruct i; first [discriminate T|reflexivity]. Qed.
Lemma get_axis_test i t r : id_of t = Some i -> tests i = true -> i <> SelfSelect_id -> i <> ParentSelect_id -> get_axis (t :: r) = Got (Child, t :: r).
Proof. intros E T A B. unfold get_axis. rewrite E. destruct i; first [discriminate T|reflexivity|idtac]; congruence. Qed.
Lemma step_kids ax a tt s ps qs : axis_trees ax a -> test_tree tt s -> is_literal ps = None -> ev (fun n => predicates n x ps = Got (qs, [])) ->
  ev (fun n => create_step n x (ax ++ tt :: ps) = Got (AxisStep a s qs, [])).
Proof.
  intros AX [i [E [T [N1 [N2 RT]]]]] NL P. apply ev_S. refine (ev_map _ _ _ P). intros n H. cbn [create_step].
  assert (exists l, get_axis (ax ++ tt :: ps) = Got (a, l) /\ skip_white l = tt :: ps) as [l [GA SW]].
  { destruct AX as [[-> ->]|[t [-> [[I1 ->]|[[I1 ->]|[I1 [u [r [K O]]]]]]]]].
    - exists (tt :: ps). split; [|apply (skip_test _ i); assumption]. apply (get_axis_test i); assumption.
    - exists (t :: tt :: ps). cbn [app]. unfold get_axis. rewrite I1. split; [reflexivity|]. cbn [skip_white]. rewrite I1. apply (skip_test _ i); assumption.
    - exists (tt :: ps). cbn [app]. unfold get_axis. rewrite I1. split; [reflexivity|]. apply (skip_test _ i); assumption.
    - exists (tt :: ps). cbn [app]. unfold get_axis. rewrite I1, K, O. split; [reflexivity|]. apply (skip_test _ i); assumption. }
  rewrite GA. cbn [andthen]. assert (read_test x l = read_test x (tt :: ps)) as -> by (unfold read_test; rewrite SW, (skip_test _ i) by assumption; reflexivity).
  rewrite RT by (intros _; exact NL). cbn [andthen]. rewrite H. reflexivity.
Qed.
Lemma flat_axis_step a s qs qs' : map flat qs' = map flat qs -> keep (AxisStep a s qs') = keep (AxisStep a s qs).
Proof. intro M. cbn. rewrite M. reflexivity. Qed.
Lemma flat_one st st' : keep st' = keep st -> flat (EPath false [st']) = flat (EPath false [st]).
Proof. intro M. apply keep_flat. cbn [map]. rewrite M. reflexivity. Qed.
Lemma step_list_nil : ev (fun n => step_list n x [] = Got []).
Proof. apply ev_S, ev_all. intro n. reflexivity. Qed.
Lemma step_kids_list ax a tt s ps qs : axis_trees ax a -> test_tree tt s -> is_literal ps = None -> ev (fun n => predicates n x ps = Got (qs, [])) ->
  ev (fun n => step_list n x (ax ++ tt :: ps) = Got [AxisStep a s qs]).
Proof.
  intros AX TT NL P. pose proof (step_kids [] Child tt s ps qs (or_introl (conj eq_refl eq_refl)) TT NL P) as C0. cbn [app] in C0.
  assert (ev (fun n => step_list n x (tt :: ps) = Got [AxisStep Child s qs])) as L0.
  { destruct TT as [i [E [T _]]]. apply ev_S. refine (ev_map _ _ _ (ev_and _ _ C0 step_list_nil)). intros n [H1 H2].
    rewrite (step_list_other _ i) by (try exact E; rewrite T; apply orb_true_r). rewrite H1. cbn [andthen]. rewrite H2. reflexivity. }
  destruct AX as [[-> ->]|[t [-> D]]]; [exact L0|]. pose proof (step_kids [t] a tt s ps qs (or_intror (ex_intro _ t (conj eq_refl D))) TT NL P) as C1. cbn [app] in *.
  destruct D as [[I1 ->]|D].
  - apply ev_S. refine (ev_map _ _ _ L0). intros n H. cbn [step_list]. rewrite I1. exact H.
  - apply ev_S. refine (ev_map _ _ _ (ev_and _ _ C1 step_list_nil)). intros n [H1 H2]. cbn [step_list].
    destruct D as [[I1 _]|[I1 _]]; rewrite I1, H1; cbn [andthen]; rewrite H2; reflexivity.
Qed.
Lemma step_node ax a tt s ps qs : axis_trees ax a -> test_tree tt s -> predicate_trees ps qs -> step_good (Tree (Some Step_id) [] (ax ++ tt :: ps)) (AxisStep a s qs).
Proof.
  intros AX T [_ [NL [_ [_ [qs' [M P]]]]]]. specialize (NL [] eq_refl). specialize (P [] Logic.I). rewrite app_nil_r in *.
  pose proof (step_kids _ _ _ _ _ _ AX T NL P) as C. pose proof (step_kids_list _ _ _ _ _ _ AX T NL P) as L0.
  pose proof (flat_axis_step a s _ _ M) as FS.
  split; [|split; [discriminate|split; [discriminate|]]].
  - exists (EPath false [AxisStep a s qs']). split; [apply flat_one, FS|]. split.
    + intros after _. apply ev_S. refine (ev_map _ _ _ L0). intros n H. cbn [compile id_of kids_of]. rewrite H. reflexivity.
    + split; [|discriminate]. intros _. eexists. split; [reflexivity|exact C].
  - exists (AxisStep a s qs'). split; [exact FS|]. intros after rest O L. apply ev_S. refine (ev_map2 _ _ _ _ C L). intros n H1 H2. cbn [step_list id_of kids_of]. rewrite H1. cbn [andthen]. rewrite H2. reflexivity.
Qed.
(** A step that is a node test alone, or an abbreviated one. *)
Lemma step_leaf i u a s : id_of u = Some i -> tests i = true -> (forall l, get_axis (u :: l) = Got (a, u :: l)) ->
  (forall l, (i = ProcessingInstruction_id -> is_literal l = None) -> read_test x (u :: l) = Got (Some s, l)) -> step_good u (AxisStep a s []).
Proof.
  intros E T GA RT. split; [|split; [rewrite E; destruct i; discriminate|split; [rewrite E; destruct i; discriminate|]]].
  - exists (EPath false [AxisStep a s []]). split; [reflexivity|]. split.
    + intros after PI. apply ev_S, ev_all. intro n. rewrite (compile_test n i) by assumption. unfold single_step. rewrite GA. cbn [andthen]. rewrite RT; [reflexivity|]. intros ->. exact (PI E).
    + split; intro S1; rewrite E in S1; injection S1 as ->; discriminate.
  - exists (AxisStep a s []). split; [reflexivity|]. intros after rest O L. apply ev_S, ev_S, ev_S. refine (ev_map _ _ _ (ev_S_inv _ (ev_S_inv _ L))). intros n H.
    rewrite (step_list_other _ i) by (try exact E; rewrite T; apply orb_true_r). cbn [create_step]. rewrite GA. cbn [andthen]. rewrite RT by (intros _; apply open_literal, O). cbn [andthen].
    rewrite (open_predicates n after O). cbn [andthen]. rewrite H. reflexivity.
Qed.
Lemma test_step tt s : test_tree tt s -> step_good tt (AxisStep Child s []).
Proof. intros [i [E [T [N1 [N2 RT]]]]]. apply (step_leaf i); [exact E|exact T|intro l; apply (get_axis_test i); assumption|exact RT]. Qed.
Lemma self_leaf t : step_good (Tree (Some SelfSelect_id) t []) self_step.
Proof. apply (step_leaf SelfSelect_id); intros; reflexivity. Qed.
Lemma parent_leaf t : step_good (Tree (Some ParentSelect_id) t []) parent_step.
Proof. apply (step_leaf ParentSelect_id); intros; reflexivity. Qed.
Lemma good_id t e : good t e -> exists i, id_of t = Some i /\ start_of i.
Proof. intros [e' [_ [C _]]]. destruct (ev_here _ (ev_S_inv _ (C [] (fun _ => eq_refl)))) as [n H]. exact (compile_start _ _ _ H). Qed.
Lemma claim_id r t i : id_of t = Some i -> claim r t = t.
Proof. destruct t as [[j|] k l]; [reflexivity|discriminate]. Qed.
Lemma good_claim r t e : good t e -> claim r t = t.
Proof. intro G. destruct (good_id _ _ G) as [i [E _]]. exact (claim_id r t i E). Qed.
Lemma good_group r t e : good t e -> group r [t] = [t].
Proof. intro G. cbn. rewrite (good_claim r t e G). reflexivity. Qed.
Lemma step_group ax a tt s ps qs : axis_trees ax a -> test_tree tt s -> predicate_trees ps qs -> exists u, group Step_id (ax ++ tt :: ps) = [u] /\ step_good u (AxisStep a s qs).
Proof.
  intros AX T P. assert (map (claim Step_id) (ax ++ tt :: ps) = ax ++ tt :: ps) as M.
  { rewrite <- (map_id (ax ++ tt :: ps)) at 2. apply map_ext_in. intros t I. apply in_app_or in I.
    assert (exists i, id_of t = Some i) as [i E]; [|exact (claim_id _ _ i E)]. destruct I as [I|[<-|I]].
    - destruct AX as [[-> _]|[t' [-> D]]]; [destruct I|]. destruct I as [<-|[]]. destruct D as [[D _]|[[D _]|[D _]]]; eexists; exact D.
    - destruct T as [i [E _]]. exists i. exact E.
    - destruct P as [_ [_ [_ [P _]]]]. eexists. exact (P t I). }
  pose proof (step_node _ _ _ _ _ _ AX T P) as G.
  destruct ax as [|t1 [|t2 ax]].
  - destruct ps as [|p ps].
    + destruct AX as [[_ ->]|[t [D _]]]; [|discriminate]. assert (qs = []) as -> by (apply P; reflexivity). exists tt. split; [cbn in *; rewrite (f_equal (@hd tree tt) M : claim Step_id tt = tt); reflexivity|apply test_step, T].
    + eexists. split; [|exact G]. unfold group. cbn [app] in *. rewrite M. reflexivity.
  - eexists. split; [|exact G]. unfold group. cbn [app] in *. rewrite M. reflexivity.
  - destruct AX as [[D _]|[t [D _]]]; discriminate.
Qed.

(** * Paths *)
(** The tree of a relative location path. *)
Definition path_tree (t : tree) (steps : list (step_of expr)) : Prop :=
  good t (EPath false steps) /\ id_of t <> Some Predicate_id /\ id_of t <> Some Literal_id /\
  steps <> [] /\ exists l, map keep l = map keep steps /\ ev (fun n => step_list n x [t] = Got l).
Definition steps_trees (ts : list tree) (steps : list (step_of expr)) : Prop :=
  ts <> [] /\ open_after ts /\ (forall t, In t ts -> exists i, id_of t = Some i) /\
  steps <> [] /\ exists l, map keep l = map keep steps /\ ev (fun n => step_list n x ts = Got l).
Lemma one_step_path u st : step_good u st -> path_tree u [st].
Proof.
  intros [G [N1 [N2 [st' [F L]]]]]. split; [exact G|]. split; [exact N1|]. split; [exact N2|]. split; [discriminate|]. exists [st']. split; [cbn [map]; rewrite F; reflexivity|]. apply L; [exact Logic.I|exact step_list_nil].
Qed.
Lemma one_steps u st : step_good u st -> steps_trees [u] [st].
Proof.
  intro G. destruct (one_step_path _ _ G) as [G1 [N1 [N2 L]]]. split; [discriminate|]. split; [split; assumption|]. split; [|exact L].
  intros t [<-|[]]. destruct (good_id _ _ G1) as [i [E _]]. exists i. exact E.
Qed.
(** Between two steps: nothing for a slash, a tree for the double one. *)
Definition between (ss : list tree) (more : list (step_of expr)) : Prop :=
  ss = [] /\ more = [] \/ exists s, ss = [Tree (Some SlashSlash_id) s []] /\ more = [any_depth].
Lemma between_steps ss more ts steps : between ss more -> steps_trees ts steps ->
  open_after (ss ++ ts) /\ (forall t, In t (ss ++ ts) -> exists i, id_of t = Some i) /\ exists l, map keep l = map keep (more ++ steps) /\ ev (fun n => step_list n x (ss ++ ts) = Got l).
Proof.
  intros B [_ [O [A [_ [l [F L]]]]]]. destruct B as [[-> ->]|[s [-> ->]]]; [split; [exact O|split; [exact A|]]; exists l; split; [exact F|exact L]|]. split; [split; discriminate|].
  split; [intros t [<-|I]; [eexists; reflexivity|exact (A t I)]|]. exists (any_depth :: l). split; [cbn [app map]; rewrite F; reflexivity|].
  apply ev_S, ev_S, ev_S. refine (ev_map _ _ _ (ev_S_inv _ (ev_S_inv _ L))). intros n H. cbn [app]. pose (t := Tree (Some SlashSlash_id) s []). change (Tree (Some SlashSlash_id) s []) with t.
  assert (step_list (S (S (S n))) x (t :: ts) = andthen (create_step (S (S n)) x (t :: ts)) (fun '(s, after) => andthen (step_list (S (S n)) x after) (fun l => Got (s :: l)))) as -> by reflexivity.
  assert (create_step (S (S n)) x (t :: ts) = andthen (predicates (S n) x ts) (fun '(qs, after) => Got (AxisStep DescendantOrSelf OfNode qs, after))) as -> by reflexivity.
  rewrite (open_predicates n ts O). cbn [andthen]. rewrite H. reflexivity.
Qed.
Lemma more_steps_trees u st ss more ts steps : step_good u st -> between ss more -> steps_trees ts steps -> steps_trees (u :: ss ++ ts) (st :: more ++ steps).
Proof.
  intros [G [N1 [N2 [st' [F L]]]]] B T. destruct (between_steps _ _ _ _ B T) as [O [A [l [FL LL]]]]. split; [discriminate|]. split; [split; assumption|]. split.
  - intros t [<-|I]; [|exact (A t I)]. destruct (good_id _ _ G) as [i [E _]]. exists i. exact E.
  - split; [discriminate|]. exists (st' :: l). split; [cbn [map]; rewrite F, FL; reflexivity|]. apply L; assumption.
Qed.
Lemma map_claim r ts : (forall t, In t ts -> exists i, id_of t = Some i) -> map (claim r) ts = ts.
Proof. intro H. rewrite <- (map_id ts) at 2. apply map_ext_in. intros t I. destruct (H t I) as [i E]. exact (claim_id _ _ i E). Qed.
Lemma relative_node ts steps s : steps_trees ts steps -> path_tree (Tree (Some RelativeLocationPath_id) s ts) steps.
Proof.
  intros [_ [O [A [NS [l [F L]]]]]]. split; [|split; [discriminate|split; [discriminate|split; [exact NS|]]]].
  - exists (EPath false l). split; [apply keep_flat, F|]. split; [|split; [discriminate|intros _ D; injection D as ->; destruct steps; [elim NS; reflexivity|discriminate F]]]. intros after _. apply ev_S. refine (ev_map _ _ _ L). intros n H. cbn [compile id_of kids_of]. rewrite H. reflexivity.
  - exists l. split; [exact F|]. apply ev_S. refine (ev_map2 _ _ _ _ L step_list_nil). intros n H H0. cbn [step_list id_of kids_of]. rewrite H. cbn [andthen]. rewrite H0. cbn [andthen]. rewrite app_nil_r. reflexivity.
Qed.
Lemma relative_group u st ss more ts steps : step_good u st -> between ss more -> steps_trees ts steps ->
  exists t, group RelativeLocationPath_id (u :: ss ++ ts) = [t] /\ path_tree t (st :: more ++ steps).
Proof.
  intros G B T. pose proof (more_steps_trees _ _ _ _ _ _ G B T) as M. eexists. split; [|eapply relative_node; exact M]. destruct M as [_ [_ [A _]]].
  unfold group. rewrite (map_claim _ _ A). destruct T as [NE _]. destruct (ss ++ ts) as [|t l] eqn:E; [|reflexivity]. apply app_eq_nil in E. destruct E as [_ E]. elim (NE E).
Qed.
Definition slash_tree (u : tree) (more : list (step_of expr)) : Prop :=
  id_of u = Some Slash_id /\ more = [] \/ exists s, u = Tree (Some SlashSlash_id) s [] /\ more = [any_depth].
Lemma slash_tree_slashed u more l : slash_tree u more -> slashed (u :: l).
Proof. intros [[E _]|[s [-> _]]]; eexists; eexists; split; [reflexivity|left; exact E|reflexivity|right; reflexivity]. Qed.
Lemma after_slash u more t steps : slash_tree u more -> path_tree t steps -> exists l, map keep l = map keep (more ++ steps) /\ ev (fun n => step_list n x [u; t] = Got l).
Proof.
  intros S1 [G [N1 [N2 [NS [l [F L]]]]]]. destruct S1 as [[E ->]|[s [-> ->]]].
  - exists l. split; [exact F|]. apply ev_S. refine (ev_map _ _ _ L). intros n H. cbn [step_list]. rewrite E. exact H.
  - assert (steps_trees [t] steps) as ST.
    { split; [discriminate|]. split; [split; assumption|]. split; [|split; [exact NS|exists l; split; assumption]]. intros t' [<-|[]]. destruct (good_id _ _ G) as [i [E _]]. exists i. exact E. }
    destruct (between_steps [Tree (Some SlashSlash_id) s []] [any_depth] [t] steps) as [_ [_ R]]; [right; exists s; split; reflexivity|exact ST|exact R].
Qed.
Lemma absolute_node i u more t steps : i = AbsoluteLocationPath_id \/ i = AbbreviatedAbsoluteLocationPath_id -> slash_tree u more -> path_tree t steps ->
  good (Tree (Some i) [] [u; t]) (EPath true (more ++ steps)).
Proof.
  intros I S1 P. destruct (after_slash _ _ _ _ S1 P) as [l [F L]]. exists (EPath true l). split; [apply keep_flat, F|]. split.
  - intros after _. apply ev_S. refine (ev_map _ _ _ L). intros n H. cbn [compile id_of kids_of]. destruct I as [->| ->]; rewrite H; reflexivity.
  - destruct I as [->| ->]; split; discriminate.
Qed.
Lemma good_flat t e e2 : good t e -> flat e = flat e2 -> good t e2.
Proof. intros [e' [F R]] E. exists e'. split; [congruence|exact R]. Qed.
Lemma path_node t e u more r steps : good t e -> flat e <> EPath true [] -> slash_tree u more -> path_tree r steps ->
  good (Tree (Some PathExpr_id) [] [t; u; r]) (EPath false (FilterStep e [] :: more ++ steps)).
Proof.
  intros G NR S1 P. destruct (good_start _ _ G NR) as [l0 [NE [F0 L0]]]. destruct (after_slash _ _ _ _ S1 P) as [l [F L]]. exists (EPath false (l0 ++ l)). split.
  - rewrite !flat_path. rewrite (flat_first_app _ _ NE), F0, F. reflexivity.
  - split; [|split; discriminate]. intros after _. apply ev_S. refine (ev_map _ _ _ (L0 [u; r] l (slash_tree_slashed _ _ _ S1) L)). intros n H. cbn [compile id_of kids_of]. rewrite H. reflexivity.
Qed.
Lemma filter_node t e ps qs : good t e -> predicate_trees ps qs -> qs <> [] -> good (Tree (Some FilterExpr_id) [] (t :: ps)) (EPath false [FilterStep e qs]).
Proof.
  intros [e' [F [C _]]] [_ [NL [_ [_ [qs' [M P]]]]]] NE. specialize (NL [] eq_refl). specialize (P [] Logic.I). rewrite app_nil_r in *. exists (EPath false [FilterStep e' qs']). split.
  - rewrite !flat_path. cbn [flat_first map keep]. destruct qs as [|q qs]; [elim NE; reflexivity|]. destruct qs' as [|q' qs']; [discriminate M|]. cbn [map keep]. cbn [map] in M. rewrite F, M. reflexivity.
  - split; [|split; discriminate]. intros after _. apply ev_S, ev_S. refine (ev_map2 _ _ _ _ (C ps (fun _ => NL)) P). intros n H1 H2. cbn [compile id_of filter_step kids_of tl]. rewrite H1. cbn [andthen]. rewrite H2. reflexivity.
Qed.
Lemma filter_start e qs : qs <> [] -> flat_start (EPath false [FilterStep e qs]) = [keep (FilterStep e qs)].
Proof. intro NE. destruct qs as [|q qs]; [elim NE; reflexivity|]. reflexivity. Qed.
Lemma filter_path_node t e ps qs u more r steps : good t e -> predicate_trees ps qs -> qs <> [] -> slash_tree u more -> path_tree r steps ->
  good (Tree (Some PathExpr_id) [] [Tree (Some FilterExpr_id) [] (t :: ps); u; r]) (EPath false (FilterStep e qs :: more ++ steps)).
Proof.
  intros G P NE S1 R. eapply good_flat; [eapply path_node; [apply filter_node; eassumption|discriminate|exact S1|exact R]|].
  rewrite !flat_path. destruct qs as [|q qs]; [elim NE; reflexivity|]. reflexivity.
Qed.

(** * Primary expressions *)
Lemma bracket_node w t e : id_of w = Some S_id -> good t e -> good (Tree (Some PrimaryExpr_id) [] [w; t]) e.
Proof.
  intros E G. destruct (good_id _ _ G) as [i [EI SO]]. destruct G as [e' [F [C _]]]. exists e'. split; [exact F|]. split; [|split; discriminate]. intros after _. apply ev_S.
  refine (ev_map _ _ _ (C [] (fun _ => eq_refl))). intros n H. cbn [compile id_of kids_of skip_white]. rewrite E, EI. destruct i; first [exact H|idtac]. inversion SO; discriminate.
Qed.
Lemma good_at_once t e : (forall n after, compile (S n) x (t :: after) = Got e) -> id_of t <> Some Step_id -> id_of t <> Some RelativeLocationPath_id -> good t e.
Proof. intros H N N2. exists e. split; [reflexivity|]. split; [intros after _; apply ev_S, ev_all; intro n; apply H|]. split; intro E; [elim (N E)|elim (N2 E)]. Qed.
Lemma literal_good s : good (literal_leaf s) (ELiteral s).
Proof. apply good_at_once; [reflexivity|discriminate|discriminate]. Qed.
Lemma number_good s d : l_double x s = Some d -> good (number_leaf s) (ENumber d).
Proof. intro E. apply good_at_once; [|discriminate|discriminate]. intros n after. cbn [compile number_leaf id_of text_of]. rewrite E. reflexivity. Qed.
Lemma variable_good c n : good (Tree (Some VariableReference_id) [] [c; name_leaf n]) (EVariable [] n).
Proof. apply good_at_once; [reflexivity|discriminate|discriminate]. Qed.
Lemma prefixed_variable_good c p n u : l_uri x p = Some u -> good (Tree (Some VariableReference_id) [] [c; qname_node p n]) (EVariable u n).
Proof. intro E. apply good_at_once; [|discriminate|discriminate]. intros k after. cbn. rewrite E. reflexivity. Qed.
Definition argument_trees (ats : list tree) (args : list expr) : Prop :=
  exists args', map flat args' = map flat args /\
    (exists t r i, ats = t :: r /\ id_of t = Some i /\ i <> S_id /\ (i = Literal_id -> first_is_literal args)) /\
    (forall t, In t ats -> exists i, id_of t = Some i) /\
    forall tail rb r, skip_white tail = rb :: r -> id_of rb = Some RightBracket_id -> is_literal tail = None -> ev (fun n => arguments n x (ats ++ tail) = Got args').
Lemma start_not_space i : start_of i -> i <> S_id /\ i <> RightBracket_id.
Proof. intros [j H|j H| | | |]; split; intro D; first [discriminate D|rewrite D in H; discriminate H]. Qed.
Lemma arguments_step n t r e l args i : id_of t = Some i -> i <> RightBracket_id -> compile n x (t :: r) = Got e -> skip_white r = l -> arguments n x l = Got args -> arguments (S n) x (t :: r) = Got (e :: args).
Proof.
  intros E NR C <- A. assert (arguments (S n) x (t :: r) = andthen (compile n x (t :: r)) (fun e => andthen (arguments n x (skip_white r)) (fun args => Got (e :: args)))) as ->.
  { cbn [arguments]. rewrite E. destruct i; try reflexivity. elim NR. reflexivity. }
  rewrite C. cbn [andthen]. rewrite A. reflexivity.
Qed.
Lemma flat_literal e s : flat e = ELiteral s -> e = ELiteral s.
Proof. destruct e; cbn [flat]; intro H; try discriminate H; exact H. Qed.
Lemma good_literal_tree t e : good t e -> id_of t = Some Literal_id -> exists s, e = ELiteral s.
Proof.
  intros [e' [F [C _]]] E. destruct (ev_here _ (ev_S_inv _ (C [] (fun _ => eq_refl)))) as [n H]. cbn [compile] in H. rewrite E in H. injection H as <-. exists (text_of t). apply flat_literal. symmetry. exact F.
Qed.
Lemma good_pi_tree t e : good t e -> id_of t = Some ProcessingInstruction_id -> all_pis e.
Proof.
  intros [e' [F [C _]]] E. destruct (ev_here _ (ev_S_inv _ (C [] (fun _ => eq_refl)))) as [n H]. rewrite (compile_test n _ _ _ E eq_refl) in H. unfold single_step, get_axis in H. rewrite E in H. cbn [axis_named own_axis andthen] in H.
  unfold read_test in H. cbn [skip_white] in H. rewrite E in H. cbn iota in H. rewrite E in H. unfold leaf_test in H. rewrite E in H. cbn [is_literal andthen] in H. injection H as <-. unfold all_pis. rewrite <- F. reflexivity.
Qed.
Lemma one_argument_tree t e : good t e -> argument_trees [t] [e].
Proof.
  intro G. destruct (good_id _ _ G) as [i [E SO]]. destruct (start_not_space i SO) as [N1 N2]. pose proof (good_literal_tree _ _ G) as GL. destruct G as [e' [F [C _]]]. exists [e']. split; [cbn; rewrite F; reflexivity|].
  split; [exists t, [], i; split; [reflexivity|]; split; [exact E|]; split; [exact N1|]; intros ->; destruct (GL E) as [s ->]; exists s, []; reflexivity|].
  split; [intros t' [<-|[]]; exists i; exact E|]. intros tail rb r SW ER NL. apply ev_S.
  apply (ev_map (fun n => (compile n x (t :: tail) = Got e') /\ (arguments n x (rb :: r) = Got []))).
  - intros n [H1 H2]. cbn [app]. eapply arguments_step; [exact E|exact N2|exact H1|exact SW|exact H2].
  - apply ev_and; [apply C; intros _; exact NL|]. apply ev_S, ev_all. intro n. cbn [arguments]. rewrite ER. reflexivity.
Qed.
Lemma skip_not_space t r i : id_of t = Some i -> i <> S_id -> skip_white (t :: r) = t :: r.
Proof. intros E N. cbn [skip_white]. rewrite E. destruct i; try reflexivity. elim N. reflexivity. Qed.
Lemma skip_whites w l : skip_white (white w ++ l) = skip_white l.
Proof. destruct (white_shape w) as [->|[t [-> E]]]; [reflexivity|]. cbn [app skip_white]. rewrite E. reflexivity. Qed.
Lemma more_argument_trees t e w ats es : good t e -> argument_trees ats es -> ~ (all_pis e /\ first_is_literal es) -> argument_trees (t :: white w ++ ats) (e :: es).
Proof.
  intros G [args' [M [[t1 [r1 [i1 [E1 [I1 [N1 FL]]]]]] [A AT]]]] NP. destruct (good_id _ _ G) as [i [E SO]]. destruct (start_not_space i SO) as [N2 N3].
  pose proof (good_literal_tree _ _ G) as GL. pose proof (good_pi_tree _ _ G) as GP. destruct G as [e' [F [C _]]]. exists (e' :: args'). split; [cbn; rewrite F, M; reflexivity|].
  split; [exists t, (white w ++ ats), i; split; [reflexivity|]; split; [exact E|]; split; [exact N2|]; intros ->; destruct (GL E) as [s ->]; exists s, es; reflexivity|].
  split.
  { intros t' [<-|I]; [exists i; exact E|]. apply in_app_or in I. destruct I as [I|I]; [|exact (A t' I)]. destruct (white_shape w) as [W|[v [W EW]]]; rewrite W in I; [destruct I|]. destruct I as [<-|[]]. eexists; exact EW. }
  intros tail rb r SW ER NL. apply ev_S. refine (ev_map2 _ _ _ _ (C (white w ++ ats ++ tail) _) (AT tail rb r SW ER NL)).
  - intros n H1 H2. cbn [app]. rewrite <- app_assoc. eapply arguments_step; [exact E|exact N3|exact H1| |exact H2]. rewrite skip_whites, E1. cbn [app]. apply (skip_not_space _ _ i1); assumption.
  - intro PI. destruct (white_shape w) as [->|[v [-> EW]]]; [|cbn; rewrite EW; reflexivity]. rewrite E1. cbn [app is_literal]. rewrite I1. destruct i1; try reflexivity. elim NP. split; [exact (GP PI)|exact (FL eq_refl)].
Qed.
Lemma look_own g : look_function (function_name g) function_table = Some g.
Proof. destruct g; vm_compute; reflexivity. Qed.
Lemma call_good g v args args' rest : arity_ok g (length args) = true -> map flat args' = map flat args ->
  ev (fun n => arguments n x (skip_white rest) = Got args') ->
  forall lb, id_of lb = Some LeftBracket_id -> good (Tree (Some FunctionCall_id) [] (name_leaf (function_name g) :: white v ++ lb :: rest)) (ECall g args).
Proof.
  intros AR M A lb EL. exists (ECall g args'). split; [cbn [flat]; rewrite M; reflexivity|]. split; [|split; discriminate]. intros after _. apply ev_S, ev_S. refine (ev_map _ _ _ A). intros n H.
  cbn [compile id_of function_call kids_of name_leaf text_of andthen]. rewrite skip_whites, (skip_not_space lb rest LeftBracket_id EL) by discriminate. cbn [tl]. rewrite H. cbn [andthen].
  unfold create_function. rewrite look_own. assert (length args' = length args) as -> by (rewrite <- (map_length flat args'), M; apply map_length). rewrite AR. reflexivity.
Qed.

(** * Operators *)
Inductive chained : list tree -> expr -> Prop :=
  | chain_one t e : good t e -> chained [t] e
  | chain_more ts a o f t b : chained ts a -> operator (id_of o) = Some f -> good t b -> chained (ts ++ [o; t]) (f a b).
Lemma operator_flat i f a b : operator i = Some f -> flat (f a b) = f (flat a) (flat b).
Proof. destruct i as [i|]; [|discriminate]. destruct i; intro H; try discriminate H; injection H as <-; reflexivity. Qed.
Lemma operator_literal o f l : operator (id_of o) = Some f -> is_literal (o :: l) = None.
Proof. cbn. destruct (id_of o) as [[]|]; first [reflexivity|discriminate]. Qed.
Lemma chained_ids ts e : chained ts e -> forall t, In t ts -> exists i, id_of t = Some i.
Proof.
  induction 1 as [t e G|ts a o f t b C IH O G]; intros t' I.
  - destruct I as [<-|[]]. destruct (good_id _ _ G) as [i [E _]]. exists i. exact E.
  - apply in_app_or in I. destruct I as [I|[<-|[<-|[]]]]; [exact (IH t' I)| |].
    + destruct (id_of o) as [i|]; [exists i; reflexivity|discriminate O].
    + destruct (good_id _ _ G) as [i [E _]]. exists i. exact E.
Qed.
Lemma binary_step n e o t r b f : operator (id_of o) = Some f -> compile n x (t :: r) = Got b -> binary (S n) x e (o :: t :: r) = match r with [] => Got (f e b) | after => binary n x (f e b) after end.
Proof. intros O C. cbn [binary]. rewrite C, O. cbn [andthen tl]. destruct r; reflexivity. Qed.
Lemma chained_compile ts e : chained ts e -> exists t us e0 e', ts = t :: us /\ flat e' = flat e /\
  (forall tail, is_literal (us ++ tail) = None -> ev (fun n => compile n x (t :: us ++ tail) = Got e0)) /\ (us = [] -> e' = e0) /\ is_literal us = None /\
  (us <> [] -> ev (fun n => binary n x e0 us = Got e')) /\
  forall tail res, tail <> [] -> is_literal tail = None -> ev (fun n => binary n x e' tail = Got res) -> ev (fun n => binary n x e0 (us ++ tail) = Got res).
Proof.
  induction 1 as [t e G|ts a o f t b C IH O G].
  - destruct G as [e' [F [C _]]]. exists t, [], e', e'. split; [reflexivity|]. split; [exact F|]. split; [intros tail NL; apply C; intros _; exact NL|]. split; [reflexivity|]. split; [reflexivity|].
    split; [intro N; elim N; reflexivity|]. intros tail res _ _ B. exact B.
  - destruct IH as [t0 [us [e0 [e' [-> [F [C0 [U0 [NL [B BT]]]]]]]]]]. destruct G as [b' [FB [CB _]]].
    exists t0, (us ++ [o; t]), e0, (f e' b'). split; [reflexivity|]. split; [rewrite !(operator_flat _ _ _ _ O), F, FB; reflexivity|].
    split; [intros tail N; rewrite <- app_assoc in *; apply C0; exact N|]. split; [intro D; destruct us; discriminate D|].
    split; [destruct us as [|u us]; [apply (operator_literal o f _ O)|exact NL]|]. split.
    + intros _. apply BT; [discriminate|apply (operator_literal o f _ O)|]. apply ev_S. refine (ev_map _ _ _ (CB [] (fun _ => eq_refl))). intros n H. rewrite (binary_step _ _ _ _ _ b' f O H). reflexivity.
    + intros tail res NE NT BB. rewrite <- app_assoc. apply BT; [discriminate|apply (operator_literal o f _ O)|]. cbn [app]. apply ev_S. refine (ev_map2 _ _ _ _ (CB tail (fun _ => NT)) BB).
      intros n H1 H2. rewrite (binary_step _ _ _ _ _ b' f O H1). destruct tail; [elim NE; reflexivity|exact H2].
Qed.
Definition binary_id (i : rid) : bool :=
  match i with AdditiveExpr_id | MultiplicativeExpr_id | EqualityExpr_id | RelationalExpr_id | OrExpr_id | AndExpr_id | UnionExpr_id => true | _ => false end.
Lemma compile_binary n i t after : id_of t = Some i -> binary_id i = true -> compile (S n) x (t :: after) = andthen (compile n x (kids_of t)) (fun e => binary n x e (tl (kids_of t))).
Proof. intros E B. cbn [compile]. rewrite E. destruct i; first [discriminate B|reflexivity]. Qed.
Lemma chained_group i ts e : binary_id i = true -> chained ts e -> exists t, group i ts = [t] /\ good t e.
Proof.
  intros B C. pose proof (chained_ids _ _ C) as A. destruct (chained_compile _ _ C) as [t [us [e0 [e' [-> [F [C0 [U0 [NL [BU _]]]]]]]]]].
  destruct us as [|u us].
  - assert (good t e) as G.
    { remember [t] as one eqn:E1. destruct C as [t' e2 G|ts a o f t' b C0' O G]; [injection E1 as ->; exact G|]. destruct ts as [|? [|? ?]]; discriminate E1. }
    exists t. split; [apply (good_group i t e G)|exact G].
  - exists (Tree (Some i) [] (t :: u :: us)). split; [unfold group; rewrite (map_claim _ _ A); reflexivity|]. exists e'. split; [exact F|]. split.
    + intros after _. apply ev_S. specialize (C0 []). rewrite app_nil_r in C0. refine (ev_map2 _ _ _ _ (C0 NL) (BU _)); [|discriminate]. intros n H1 H2. rewrite (compile_binary n i) by (try reflexivity; exact B).
      cbn [kids_of tl]. rewrite H1. cbn [andthen]. exact H2.
    + split; intro D; injection D as ->; discriminate B.
Qed.
Lemma minus_kids k t e m : id_of m = Some UnaryMinusOperator_id -> good t e -> exists e', flat e' = flat (Nat.iter k ENegate e) /\ ev (fun n => compile n x (repeat m k ++ [t]) = Got e').
Proof.
  intros E [e' [F [C _]]]. induction k as [|k [e2 [F2 C2]]]; [exists e'; split; [exact F|apply C; reflexivity]|]. exists (ENegate e2). split; [cbn; rewrite F2; reflexivity|].
  apply ev_S. refine (ev_map _ _ _ C2). intros n H. cbn [repeat app compile]. rewrite E, H. reflexivity.
Qed.
Lemma minus_node k t e m : id_of m = Some UnaryMinusOperator_id -> good t e -> good (Tree (Some UnaryExpr_id) [] (repeat m (S k) ++ [t])) (Nat.iter (S k) ENegate e).
Proof.
  intros E G. destruct (minus_kids (S k) t e m E G) as [e' [F C]]. exists e'. split; [exact F|]. split; [|split; discriminate]. intros after _. apply ev_S. refine (ev_map _ _ _ C). intros n H. exact H.
Qed.
End with_lexicon.
