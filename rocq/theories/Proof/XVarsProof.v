(** Variables are lexically scoped. *)
From Verif.Model Require Import Base Precedence Template XVars.
From Verif.Spec Require Import XVarsSpec.
From Verif.Proof Require Import TemplateProof.

Lemma eqb_refl : forall n, str_eqb n n = true.
Proof. intros. apply str_eqb_ok. reflexivity. Qed.
Lemma assoc_set : forall V n (v : V) m x, assoc str_eqb x (set_in n v m) = if str_eqb x n then Some v else assoc str_eqb x m.
Proof.
  intros V n v m x. unfold set_in. induction m as [|[k w] m IH]; cbn [update assoc].
  - destruct (str_eqb x n); reflexivity.
  - destruct (str_eqb n k) eqn:E; cbn [assoc].
    + apply str_eqb_ok in E. subst k. destruct (str_eqb x n); reflexivity.
    + destruct (str_eqb x k) eqn:E2.
      * apply str_eqb_ok in E2. subst k. destruct (str_eqb x n) eqn:E3; [|reflexivity].
        apply str_eqb_ok in E3. subst x. rewrite eqb_refl in E. discriminate.
      * exact IH.
Qed.

(** * More fuel does no harm *)
Lemma rbind_done : forall A B (m : res A) (k : A -> res B) b, rbind m k = Done b -> exists a, m = Done a /\ k a = Done b.
Proof. intros A B [a|f|] k b H; cbn in H; try discriminate. eauto. Qed.
Ltac rsplit H := apply rbind_done in H; destruct H as (?r & ?E & H).
Lemma go_more : forall tbl g fuel fuel' rs w s t r, (fuel <= fuel')%nat -> go tbl g fuel rs w s t = Done r -> go tbl g fuel' rs w s t = Done r.
Proof.
  intros tbl g. induction fuel as [|fuel IH]; intros fuel' rs w s t r L H; [discriminate|].
  destruct fuel' as [|fuel']; [lia|]. assert (L' : (fuel <= fuel')%nat) by lia.
  assert (IHd : forall rs w s t s0 n r, declare s0 n (go tbl g fuel rs w s t) = Done r -> declare s0 n (go tbl g fuel' rs w s t) = Done r).
  { intros rs0 w0 s0 t0 s1 n r0. unfold declare. destruct (judge _ _); auto. intros H0. rsplit H0. rewrite (IH _ _ _ _ _ _ L' E). exact H0. }
  cbn [go] in *. destruct t as [l|e|l|n l|l].
  - destruct l as [|x l]; [exact H|]. rsplit H. rsplit H. rewrite (IH _ _ _ _ _ _ L' E0).
    destruct (resolve rs w s x); [rewrite E| |rewrite E]; try exact H. rewrite (IH _ _ _ _ _ _ L' E). exact H.
  - destruct e as [refs f|l]; rsplit H; rewrite (IH _ _ _ _ _ _ L' E); exact H.
  - destruct l as [|i l]; [exact H|]. rsplit H. rsplit H.
    match goal with |- rbind ?x _ = _ => assert (X : x = Done r0) end; [|rewrite X; cbn [rbind]; rewrite (IH _ _ _ _ _ _ L' E0); exact H].
    destruct i as [n e|n e|refs f|refs f l0|l0|withs ts].
    + apply IHd. exact E.
    + destruct (find_passed s n) as [[e' s']|]; apply IHd; exact E.
    + exact (IH _ _ _ _ _ _ L' E).
    + rsplit E. rewrite (IH _ _ _ _ _ _ L' E1). exact (IH _ _ _ _ _ _ L' E).
    + exact (IH _ _ _ _ _ _ L' E).
    + rsplit E. rsplit E. rewrite E1. cbn [rbind]. rewrite (IH _ _ _ _ _ _ L' E2). exact E.
  - destruct n as [|n]; [exact H|]. rsplit H. rsplit H. rewrite (IH _ _ _ _ _ _ L' E). cbn [rbind]. rewrite (IH _ _ _ _ _ _ L' E0). exact H.
  - destruct l as [|u l]; [exact H|]. rsplit H. rsplit H.
    destruct u as [n|ts].
    + destruct (assoc str_eqb n tbl) as [b|]; [|discriminate]. rewrite (IH _ _ _ _ _ _ L' E). cbn [rbind]. rewrite (IH _ _ _ _ _ _ L' E0). exact H.
    + rewrite (IH _ _ _ _ _ _ L' E). cbn [rbind]. rewrite (IH _ _ _ _ _ _ L' E0). exact H.
Qed.
Lemma go_same : forall tbl g fuel fuel' rs w s t r r', go tbl g fuel rs w s t = Done r -> go tbl g fuel' rs w s t = Done r' -> r = r'.
Proof.
  intros tbl g fuel fuel' rs w s t r r' H H'.
  apply (go_more _ _ _ (Nat.max fuel fuel')) in H; [|lia]. apply (go_more _ _ _ (Nat.max fuel fuel')) in H'; [|lia]. congruence.
Qed.

(** * The stack and what is bound *)
Definition agree (sc : scope) (r : env) : Prop := forall x, assoc str_eqb x sc = option_map Known (r x).
(** The local scope is [sc], the global one [g], and the parameters being passed [ps]. *)
Inductive shape (g : scope) : vstack -> scope -> list (str * passed) -> Prop :=
| shape_intro sc under ps params : last under [] = g -> under <> [] -> shape g (VStack (sc :: under) (ps :: params)) sc ps.
Definition bound (g : scope) (s : vstack) (r : env) : Prop := exists sc ps, shape g s sc ps /\ agree sc r.
(** Either no parameters are being passed, or it does not matter. *)
Definition unpassing (s : vstack) (b : bool) : Prop := back (v_params s) = [] \/ b = true.
Definition passes (g : scope) (ps : list (str * passed)) (a : args) : Prop :=
  forall n, match a n with
            | None => assoc str_eqb n ps = None
            | Some (e, r) => exists s, assoc str_eqb n ps = Some (Passed e s) /\ bound g s r /\ unpassing s (value_calls_nothing e) /\ plain_value e = true
            end.
Lemma agree_nothing : agree [] nothing.
Proof. intros x. reflexivity. Qed.
Lemma agree_bind : forall sc r n v, agree sc r -> agree (set_in n (Known v) sc) (bind n v r).
Proof. intros sc r n v A x. rewrite assoc_set. unfold bind. destruct (str_eqb x n); [reflexivity|apply A]. Qed.
Lemma passes_none : forall g, passes g [] no_args.
Proof. intros g n. reflexivity. Qed.
Lemma last_tail : forall A (l : list A) x d, l <> [] -> last (x :: l) d = last l d.
Proof. intros A [|y l] x d H; [contradiction|reflexivity]. Qed.

(** What a reference gives. *)
Lemma resolve_reads : forall tbl g globals s r x, settled tbl g globals -> bound g s r ->
  match resolve [] None s x with
  | Fails _ => forall v, ~ reads globals r x v
  | Value v => reads globals r x v
  | Compute n e rs => rs = [] /\ exists v fuel, reads globals r x v /\ go tbl g fuel [] (Some n) (global_context g) (Evaluate e) = Done (global_context g, [v])
  end.
Proof.
  intros tbl g globals s r x SE (sc & ps & SH & A). destruct SH as [sc under ps params L NE].
  unfold resolve. cbn [existsb app v_stack back hd]. rewrite (A x). unfold reads. destruct (r x) as [v|] eqn:R; cbn [option_map]; [auto|].
  unfold front. rewrite last_tail by exact NE. rewrite L. specialize (SE x).
  destruct (globals x) as [v|] eqn:G.
  - destruct SE as (n & p & e & fuel & E1 & E2). rewrite E1. split; [reflexivity|]. exists v, fuel. split; [auto|].
    unfold global_value in E2. rsplit E2. rewrite E. destruct r0 as [s' o]. cbn [snd] in E2. injection E2 as <-.
    assert (X : s' = global_context g); [|rewrite X; reflexivity]. destruct fuel; [discriminate|]. cbn [go] in E.
    destruct e; rsplit E; congruence.
  - rewrite SE. intros v [H|[_ H]]; discriminate.
Qed.
Lemma declare_done : forall g s sc ps r n m x, shape g s sc ps -> agree sc r -> declare s n m = Done x ->
  r n = None /\ exists r0, m = Done r0 /\ x = (store s n (Known (concat (snd r0))), []).
Proof.
  intros g s sc ps r n m x SH A H. destruct SH as [sc under ps params L NE]. unfold declare in H. cbn [v_stack back hd] in H. rewrite (A n) in H.
  destruct (r n) as [v|]; cbn [option_map judge b_prec] in H; [discriminate|]. split; [reflexivity|].
  rsplit H. exists r0. split; [exact E|]. congruence.
Qed.
Lemma shape_store : forall g s sc ps n b, shape g s sc ps -> shape g (store s n b) (set_in n b sc) ps.
Proof. intros g s sc ps n b [sc' under ps' params L NE]. unfold store. cbn [v_stack v_params back hd tl]. constructor; assumption. Qed.
Lemma shape_push : forall g s sc ps, shape g s sc ps -> shape g (push_scope s) [] [].
Proof. intros g s sc ps [sc' under ps' params L NE]. unfold push_scope. cbn [v_stack v_params]. constructor; [rewrite last_tail by exact NE; exact L|discriminate]. Qed.
Lemma shape_chain : forall g s sc ps, shape g s sc ps -> shape g (chain_scope s) sc ps.
Proof. intros g s sc ps [sc' under ps' params L NE]. unfold chain_scope. cbn [v_stack v_params back hd]. constructor; [rewrite last_tail by exact NE; exact L|discriminate]. Qed.
Lemma shape_ps : forall g s sc ps, shape g s sc ps -> back (v_params s) = ps.
Proof. intros g s sc ps [sc' under ps' params L NE]. reflexivity. Qed.
Definition based (g : scope) (s : vstack) : Prop := v_stack s <> [] /\ last (v_stack s) [] = g /\ v_params s <> [].
Lemma shape_based : forall g s sc ps, shape g s sc ps -> based g s.
Proof. intros g s sc ps [sc' under ps' params L NE]. split; [discriminate|]. split; [|discriminate]. cbn [v_stack]. rewrite last_tail by exact NE. exact L. Qed.
Lemma based_push : forall g s, based g s -> shape g (push_scope s) [] [].
Proof. intros g s (NE & L & _). unfold push_scope. constructor; assumption. Qed.

(** * Passing parameters *)
Lemma set_absent : forall V n (v : V) m, assoc str_eqb n m = None -> set_in n v m = m ++ [(n, v)].
Proof.
  intros V n v. unfold set_in. induction m as [|[k w] m IH]; cbn [assoc update app]; intros H; [reflexivity|].
  destruct (str_eqb n k); [discriminate|]. rewrite IH by exact H. reflexivity.
Qed.
Lemma assoc_app : forall V n (a b : list (str * V)), assoc str_eqb n (a ++ b) = match assoc str_eqb n a with Some v => Some v | None => assoc str_eqb n b end.
Proof. intros V n. induction a as [|[k w] a IH]; intros b; cbn [assoc app]; [reflexivity|]. destruct (str_eqb n k); [reflexivity|apply IH]. Qed.
(** A with-param and what is passed for it. *)
Definition passing (g : scope) (r : env) (w : str * expr) (p : str * passed) : Prop :=
  fst p = fst w /\ exists s, snd p = Passed (snd w) s /\ bound g s r /\ unpassing s (value_calls_nothing (snd w)) /\ plain_value (snd w) = true.
Lemma pass_done : forall g r withs s sc ps s1, shape g s sc ps -> agree sc r ->
  forallb (fun w => plain_value (snd w)) withs = true ->
  (ps = [] /\ forallb (fun w => value_calls_nothing (snd w)) (tl withs) = true \/ forallb (fun w => value_calls_nothing (snd w)) withs = true) ->
  pass s withs = Done s1 ->
  exists added, v_stack s1 = v_stack s /\ v_params s1 = (ps ++ added) :: tl (v_params s) /\ Forall2 (passing g r) withs added
    /\ NoDup (map fst withs) /\ (forall n, In n (map fst withs) -> assoc str_eqb n ps = None).
Proof.
  intros g r. induction withs as [|[n e] withs IH]; intros s sc ps s1 SH A PL CN H; cbn [pass] in H.
  - injection H as <-. exists []. rewrite app_nil_r. destruct SH. cbn [v_stack v_params tl]. repeat split; auto; [constructor|]. intros n [].
  - rewrite (shape_ps _ _ _ _ SH) in H. destruct (assoc str_eqb n ps) eqn:EA; [discriminate|].
    cbn [forallb snd] in PL. apply andb_prop in PL as [PL1 PL2]. cbn [tl] in CN.
    assert (CN' : forallb (fun w => value_calls_nothing (snd w)) withs = true).
    { destruct CN as [[_ X]|X]; [exact X|]. cbn [forallb] in X. apply andb_prop in X. apply X. }
    rewrite set_absent in H by exact EA.
    assert (SH' : shape g (VStack (v_stack s) ((ps ++ [(n, Passed e s)]) :: tl (v_params s))) sc (ps ++ [(n, Passed e s)])).
    { destruct SH. cbn [v_stack v_params tl]. constructor; assumption. }
    destruct (IH _ _ _ _ SH' A PL2 (or_intror CN') H) as (added & E1 & E2 & F & ND & NI).
    cbn [v_stack v_params tl] in E1, E2. exists ((n, Passed e s) :: added). rewrite <- app_assoc in E2.
    split; [exact E1|]. split; [exact E2|]. split; [|split].
    + constructor; [|exact F]. split; [reflexivity|]. exists s. cbn [snd]. split; [reflexivity|]. split; [exists sc, ps; auto|]. split; [|exact PL1].
      unfold unpassing. rewrite (shape_ps _ _ _ _ SH). destruct CN as [[X _]|X]; [auto|]. cbn [forallb] in X. apply andb_prop in X. right. apply X.
    + cbn [map]. constructor; [|exact ND]. cbn [fst]. intros X. apply NI in X. rewrite assoc_app, EA in X. cbn [assoc] in X. rewrite eqb_refl in X. discriminate.
    + intros n' [<-|X]; [exact EA|]. apply NI in X. rewrite assoc_app in X. destruct (assoc str_eqb n' ps); [discriminate|reflexivity].
Qed.
Lemma passing_assoc : forall g r withs added, Forall2 (passing g r) withs added -> passes g added (args_of r withs).
Proof.
  intros g r withs added F. induction F as [|[n e] [k p] withs added [E (s & E2 & B & U & P)] F IH]; intros x; cbn [args_of]; [reflexivity|].
  cbn [fst snd] in *. subst k p. cbn [assoc]. specialize (IH x). destruct (str_eqb x n); [|exact IH]. exists s. auto.
Qed.
Lemma erase_passing : forall g r withs added, Forall2 (passing g r) withs added -> fold_left (fun m w => erase_in (fst w) m) withs added = [].
Proof.
  intros g r withs added F.
  assert (X : forall (m : list (str * passed)), (forall p, In p m -> exists w, In w withs /\ fst p = fst w) -> fold_left (fun m w => erase_in (fst w) m) withs m = []).
  { clear. induction withs as [|[n e] withs IH]; intros m H; cbn [fold_left].
    - destruct m as [|p m]; [reflexivity|]. destruct (H p (or_introl eq_refl)) as (w & [] & _).
    - apply IH. intros p I. unfold erase_in in I. apply filter_In in I as [I N]. destruct (H p I) as (w & [<-|J] & E); [|eauto].
      cbn [fst] in *. rewrite E, eqb_refl in N. discriminate. }
  apply X. clear X. induction F as [|w p withs added [E _] F IH]; intros q [].
  - subst q. exists w. split; [left; reflexivity|exact E].
  - destruct (IH q H) as (w' & I & E'). exists w'. split; [right; exact I|exact E'].
Qed.
Lemma pass_works : forall withs s, v_params s <> [] -> NoDup (map fst withs) -> (forall n, In n (map fst withs) -> assoc str_eqb n (back (v_params s)) = None) -> exists s1, pass s withs = Done s1.
Proof.
  induction withs as [|[n e] withs IH]; intros s NE ND NI; cbn [pass]; [eauto|].
  rewrite (NI n) by (left; reflexivity). inversion ND; subst. apply IH; [discriminate|assumption|].
  intros n' I. cbn [v_params back hd]. rewrite assoc_set. destruct (str_eqb n' n) eqn:E; [apply str_eqb_ok in E; subst; contradiction|].
  apply NI. right. exact I.
Qed.

(** * What is run is what is meant *)
Definition right_result (tbl : list (str * list instr)) (g : scope) (globals : env) (s : vstack) (t : task) (s' : vstack) (out : list str) : Prop :=
  match t with
  | Refs l => forall r, bound g s r -> s' = s /\ Forall2 (reads globals r) l out
  | Evaluate e => forall r, bound g s r -> plain_value e = true -> unpassing s (value_calls_nothing e) -> s' = s /\ exists v, out = [v] /\ means tbl globals r e v
  | Body l => forall top sc ps r a, shape g s sc ps -> agree sc r -> forallb (plain top) l = true -> unpassing s (forallb calls_nothing l) ->
      (top = true -> passes g (back (tl (v_params s))) a) ->
      exists sc' r', s' = VStack (sc' :: tl (v_stack s)) (v_params s) /\ agree sc' r' /\ runs tbl globals r a l r' out /\ (forallb declares_nothing l = true -> s' = s)
  | Times n l => forall r, bound g s r -> forallb (plain false) l = true -> unpassing s (forallb calls_nothing l) -> s' = s /\ repeats tbl globals r n l out
  | Targets ts => forall a, based g s -> passes g (back (v_params s)) a -> s' = s /\ applies tbl globals a ts out
  end.
Lemma shape_same : forall g s sc ps, shape g s sc ps -> s = VStack (sc :: tl (v_stack s)) (v_params s).
Proof. intros g s sc ps []. reflexivity. Qed.
Lemma shape_other : forall g s sc ps sc', shape g s sc ps -> shape g (VStack (sc' :: tl (v_stack s)) (v_params s)) sc' ps.
Proof. intros g s sc ps sc' []. cbn [v_stack v_params tl]. constructor; assumption. Qed.
Lemma unpassing_and : forall s a b, unpassing s (a && b) -> unpassing s a /\ unpassing s b.
Proof. intros s a b [H|H]; [split; left; exact H|]. apply andb_prop in H as [-> ->]. split; right; reflexivity. Qed.
Lemma shape_bound : forall g s sc ps r, shape g s sc ps -> agree sc r -> bound g s r.
Proof. intros. exists sc, ps. auto. Qed.
Lemma unpass_same : forall g r s sc s1 withs added, shape g s sc [] -> v_stack s1 = v_stack s -> v_params s1 = ([] ++ added) :: tl (v_params s) -> Forall2 (passing g r) withs added -> unpass s1 withs = s.
Proof.
  intros g r s sc s1 withs added SH E1 E2 F. unfold unpass. rewrite E1, E2. cbn [back hd tl app]. rewrite (erase_passing _ _ _ _ F).
  destruct SH. reflexivity.
Qed.
Lemma sound : forall tbl g globals, settled tbl g globals -> plain_templates tbl -> forall fuel s t s' out,
  go tbl g fuel [] None s t = Done (s', out) -> right_result tbl g globals s t s' out.
Proof.
  intros tbl g globals SE PT. induction fuel as [|fuel IH]; intros s t s' out H; [discriminate|].
  cbn [go] in H. destruct t as [l|e|l|n l|l]; cbn [right_result].
  - intros r B. destruct l as [|x l]; [injection H as <- <-; split; [reflexivity|constructor]|].
    rsplit H. rsplit H. injection H as <- <-. split; [reflexivity|].
    destruct r1 as [s2 o2]. apply IH in E0. destruct (E0 r B) as (_ & F). cbn [snd].
    pose proof (resolve_reads tbl g globals s r x SE B) as RR. destruct (resolve [] None s x) as [v|n e rs|f]; [| |discriminate].
    + injection E as <-. cbn [snd app]. constructor; assumption.
    + destruct RR as (-> & v & fuel' & RD & G). rewrite (go_same _ _ _ _ _ _ _ _ _ _ E G). cbn [snd app]. constructor; assumption.
  - intros r B PV U. destruct e as [refs f|l]; rsplit H; injection H as <- <-; destruct r0 as [s2 o2]; apply IH in E; cbn [snd].
    + split; [reflexivity|]. destruct (E r B) as (_ & F). exists (f o2). split; [reflexivity|]. constructor. exact F.
    + split; [reflexivity|]. destruct B as (sc & ps & SH & A). cbn [plain_value value_calls_nothing] in PV, U.
      destruct (E false sc ps r no_args SH A PV U ltac:(discriminate)) as (sc' & r' & _ & _ & R & _).
      exists (concat o2). split; [reflexivity|]. econstructor. exact R.
  - intros top sc ps r a SH A PL U PA. destruct l as [|i l].
    + injection H as <- <-. exists sc, r. split; [exact (shape_same _ _ _ _ SH)|]. split; [exact A|]. split; [constructor|reflexivity].
    + rsplit H. rsplit H. injection H as <- <-. destruct r0 as [s1 o1], r1 as [s2 o2]. cbn [fst snd] in *.
      cbn [forallb] in PL, U. apply andb_prop in PL as [PI PL]. apply unpassing_and in U as [UI U].
      assert (ST : exists sc1 r1, s1 = VStack (sc1 :: tl (v_stack s)) (v_params s) /\ agree sc1 r1 /\ acts tbl globals r a i r1 o1 /\ (declares_nothing i = true -> s1 = s)).
      { pose proof (shape_bound _ _ _ _ _ SH A) as B. destruct i as [n e|n e|refs f|refs f l0|l0|withs ts].
        - destruct (declare_done _ _ _ _ _ _ _ _ SH A E) as (R & r0 & E1 & X). injection X as -> ->. destruct r0 as [s3 o3]. apply IH in E1. cbn [plain] in PI. cbn [calls_nothing] in UI.
          destruct (E1 r B PI UI) as (_ & v & -> & M). cbn [concat snd]. rewrite app_nil_r. exists (set_in n (Known v) sc), (bind n v r).
          split; [destruct SH; reflexivity|]. split; [apply agree_bind; exact A|]. split; [constructor; assumption|discriminate].
        - cbn [plain] in PI. apply andb_prop in PI as [PT1 PI]. specialize (PA PT1 n). unfold find_passed in E. cbn [calls_nothing] in UI.
          destruct (a n) as [[e' r']|] eqn:EA.
          + destruct PA as (s3 & EQ & B3 & U3 & P3). rewrite EQ in E.
            destruct (declare_done _ _ _ _ _ _ _ _ SH A E) as (R & r0 & E1 & X). injection X as -> ->. destruct r0 as [s4 o4]. apply IH in E1.
            destruct (E1 r' B3 P3 U3) as (_ & v & -> & M). cbn [concat snd]. rewrite app_nil_r. exists (set_in n (Known v) sc), (bind n v r).
            split; [destruct SH; reflexivity|]. split; [apply agree_bind; exact A|]. split; [econstructor; eassumption|discriminate].
          + rewrite PA in E. destruct (declare_done _ _ _ _ _ _ _ _ SH A E) as (R & r0 & E1 & X). injection X as -> ->. destruct r0 as [s3 o3]. apply IH in E1.
            destruct (E1 r B PI UI) as (_ & v & -> & M). cbn [concat snd]. rewrite app_nil_r. exists (set_in n (Known v) sc), (bind n v r).
            split; [destruct SH; reflexivity|]. split; [apply agree_bind; exact A|]. split; [constructor; assumption|discriminate].
        - apply IH in E. destruct (E r B eq_refl (or_intror eq_refl)) as (-> & v & -> & M). exists sc, r.
          split; [exact (shape_same _ _ _ _ SH)|]. split; [exact A|]. split; [|reflexivity]. inversion M; subst. constructor. assumption.
        - rsplit E. destruct r0 as [s3 o3]. apply IH in E1. destruct (E1 r B eq_refl (or_intror eq_refl)) as (-> & v & -> & M). inversion M; subst.
          cbn [snd concat] in E. rewrite app_nil_r in E. apply IH in E. destruct (E r B PI UI) as (-> & RP). exists sc, r.
          split; [exact (shape_same _ _ _ _ SH)|]. split; [exact A|]. split; [|reflexivity]. econstructor; eassumption.
        - apply IH in E. cbn [plain] in PI. apply andb_prop in PI as [PI DN]. destruct (E false sc ps r no_args SH A PI UI ltac:(discriminate)) as (sc1 & r1 & _ & _ & R & S1).
          specialize (S1 DN). subst s1. exists sc, r. split; [exact (shape_same _ _ _ _ SH)|]. split; [exact A|]. split; [|reflexivity]. econstructor. exact R.
        - cbn [calls_nothing] in UI. destruct UI as [UI|UI]; [|discriminate]. rewrite (shape_ps _ _ _ _ SH) in UI. subst ps.
          cbn [plain] in PI. apply andb_prop in PI as [P1 P2]. rsplit E. rsplit E. injection E as E3 E4. destruct r1 as [s4 o4]. cbn [fst snd] in *.
          destruct (pass_done _ _ _ _ _ _ _ SH A P1 (or_introl (conj eq_refl P2)) E1) as (added & V1 & V2 & F & ND & _).
          pose proof (passing_assoc _ _ _ _ F) as PS. apply IH in E2.
          assert (B0 : based g r0). { destruct (shape_based _ _ _ _ SH) as (X1 & X2 & X3). split; [rewrite V1; exact X1|]. split; [rewrite V1; exact X2|]. rewrite V2. discriminate. }
          destruct (E2 (args_of r withs) B0 ltac:(rewrite V2; exact PS)) as (-> & AP).
          exists sc, r. rewrite <- E3, (unpass_same _ _ _ _ _ _ _ SH V1 V2 F). split; [exact (shape_same _ _ _ _ SH)|]. split; [exact A|]. split; [|reflexivity].
          subst o1. constructor; assumption. }
      destruct ST as (sc1 & r1 & ES & A1 & AC & DN). apply IH in E0.
      assert (SH1 : shape g s1 sc1 ps). { rewrite ES. exact (shape_other _ _ _ _ _ SH). }
      assert (U1 : unpassing s1 (forallb calls_nothing l)). { unfold unpassing in *. rewrite ES. exact U. }
      destruct (E0 top sc1 ps r1 a SH1 A1 PL U1) as (sc2 & r2 & ES2 & A2 & R2 & DN2). { rewrite ES. exact PA. }
      exists sc2, r2. rewrite ES in ES2. cbn [v_stack v_params tl] in ES2. split; [exact ES2|]. split; [exact A2|]. split; [econstructor; eassumption|].
      cbn [forallb]. intros D. apply andb_prop in D as [D1 D2]. rewrite (DN2 D2). exact (DN D1).
  - intros r B PL U. destruct n as [|n]; [injection H as <- <-; split; [reflexivity|constructor]|].
    rsplit H. rsplit H. injection H as <- <-. destruct r0 as [s1 o1], r1 as [s2 o2]. cbn [fst snd] in *. destruct B as (sc & ps & SH & A).
    apply IH in E. pose proof (shape_chain _ _ _ _ SH) as SH1.
    assert (U1 : unpassing (chain_scope s) (forallb calls_nothing l)). { exact U. }
    destruct (E false sc ps r no_args SH1 A PL U1 ltac:(discriminate)) as (sc1 & r1 & ES & _ & R1 & _).
    assert (EP : pop_scope s1 = s). { rewrite ES. destruct SH. reflexivity. }
    rewrite EP in E0. apply IH in E0. destruct (E0 r (shape_bound _ _ _ _ _ SH A) PL U) as (-> & RP). split; [reflexivity|]. econstructor; eassumption.
  - intros a B PA. destruct l as [|u l]; [injection H as <- <-; split; [reflexivity|constructor]|].
    rsplit H. rsplit H. injection H as <- <-. destruct r as [s1 o1], r0 as [s2 o2]. cbn [fst snd] in *.
    pose proof (based_push _ _ B) as SH. destruct u as [n|ts].
    + destruct (assoc str_eqb n tbl) as [b|] eqn:EB; [|discriminate]. apply IH in E.
      destruct (E true [] [] nothing a SH agree_nothing (PT _ _ EB) (or_introl eq_refl) (fun _ => PA)) as (sc1 & r1 & ES & _ & R1 & _).
      assert (EP : pop_scope s1 = s). { rewrite ES. destruct s. reflexivity. }
      rewrite EP in E0. apply IH in E0. destruct (E0 a B PA) as (-> & AP). split; [reflexivity|]. econstructor; eassumption.
    + apply IH in E. destruct (E no_args (shape_based _ _ _ _ SH) (passes_none g)) as (-> & AP1).
      assert (EP : pop_scope (push_scope s) = s). { destruct s. reflexivity. }
      rewrite EP in E0. apply IH in E0. destruct (E0 a B PA) as (-> & AP). split; [reflexivity|]. econstructor; eassumption.
Qed.

(** * What is meant is what is run *)
Scheme means_mind := Minimality for means Sort Prop
with runs_mind := Minimality for runs Sort Prop
with acts_mind := Minimality for acts Sort Prop
with repeats_mind := Minimality for repeats Sort Prop
with applies_mind := Minimality for applies Sort Prop.
Combined Scheme meaning_mind from means_mind, runs_mind, acts_mind, repeats_mind, applies_mind.

Lemma go_refs : forall tbl g globals s r refs vs, settled tbl g globals -> bound g s r -> Forall2 (reads globals r) refs vs ->
  exists fuel, go tbl g fuel [] None s (Refs refs) = Done (s, vs).
Proof.
  intros tbl g globals s r refs vs SE B F. induction F as [|x v refs vs R F (fuel & IH)]; [exists 1%nat; reflexivity|].
  pose proof (resolve_reads tbl g globals s r x SE B) as RR. destruct (resolve [] None s x) as [v'|n e rs|f] eqn:ER.
  - exists (S fuel). cbn [go]. rewrite ER, IH. cbn [rbind snd app]. destruct R as [R|[R1 R2]], RR as [S|[S1 S2]]; congruence.
  - destruct RR as (-> & v' & fuel' & RD & G). exists (S (Nat.max fuel fuel')). cbn [go]. rewrite ER.
    rewrite (go_more _ _ _ (Nat.max fuel fuel') _ _ _ _ _ (Nat.le_max_r _ _) G), (go_more _ _ _ (Nat.max fuel fuel') _ _ _ _ _ (Nat.le_max_l _ _) IH). cbn [rbind snd app].
    destruct R as [R|[R1 R2]], RD as [S|[S1 S2]]; congruence.
  - exfalso. exact (RR v R).
Qed.
Lemma go_cons : forall tbl g f1 f2 rs w s i l s1 o1 s2 o2,
  go tbl g f1 rs w s (Body [i]) = Done (s1, o1) -> go tbl g f2 rs w s1 (Body l) = Done (s2, o2) ->
  exists fuel, go tbl g fuel rs w s (Body (i :: l)) = Done (s2, o1 ++ o2).
Proof.
  intros tbl g f1 f2 rs w s i l s1 o1 s2 o2 H1 H2. exists (S (Nat.max f1 f2)).
  apply (go_more _ _ _ (S (Nat.max f1 f2))) in H1; [|lia]. apply (go_more _ _ _ (Nat.max f1 f2)) in H2; [|lia].
  cbn [go] in H1 |- *. rsplit H1. rewrite E. cbn [rbind]. rsplit H1. injection H1 as E1 E2.
  destruct (Nat.max f1 f2); [discriminate|]. assert (X : r0 = (fst r, [])) by (cbn [go] in E0; congruence). rewrite X in E1, E2. cbn [fst snd] in E1, E2. rewrite app_nil_r in E2. rewrite E1, H2. cbn [rbind fst snd]. rewrite E2. reflexivity.
Qed.
Lemma go_alone : forall tbl g fuel rs w s i s1 o1,
  match i with
  | XVariable n e => declare s n (go tbl g fuel rs None s (Evaluate e))
  | XParam n e =>
      match find_passed s n with
      | Some (Passed e' s') => declare s n (go tbl g fuel rs None s' (Evaluate e'))
      | None => declare s n (go tbl g fuel rs None s (Evaluate e))
      end
  | XValueOf refs f => go tbl g fuel rs w s (Evaluate (Select refs f))
  | XFramed refs f l => rbind (go tbl g fuel rs w s (Evaluate (Select refs f))) (fun r => go tbl g fuel rs w s (Times (length (concat (snd r))) l))
  | XUnframed l => go tbl g fuel rs w s (Body l)
  | XApply withs ts => rbind (pass s withs) (fun s1 => rbind (go tbl g fuel rs w s1 (Targets ts)) (fun r => Done (unpass (fst r) withs, snd r)))
  end = Done (s1, o1) -> (0 < fuel)%nat -> go tbl g (S fuel) rs w s (Body [i]) = Done (s1, o1).
Proof.
  intros tbl g fuel rs w s i s1 o1 H L. cbn [go]. match type of H with ?x = _ => transitivity (rbind x (fun r1 => rbind (go tbl g fuel rs w (fst r1) (Body [])) (fun r2 => Done (fst r2, snd r1 ++ snd r2)))); [reflexivity|] end.
  rewrite H. cbn [rbind fst snd]. destruct fuel; [lia|]. cbn [go rbind fst snd]. rewrite app_nil_r. reflexivity.
Qed.
Lemma go_positive : forall tbl g fuel rs w s t r, go tbl g fuel rs w s t = Done r -> (0 < fuel)%nat.
Proof. intros tbl g [|fuel] rs w s t r H; [discriminate|lia]. Qed.
Lemma declare_works : forall g s sc ps r n m r0, shape g s sc ps -> agree sc r -> r n = None -> m = Done r0 -> declare s n m = Done (store s n (Known (concat (snd r0))), []).
Proof.
  intros g s sc ps r n m r0 SH A R ->. unfold declare. assert (X : assoc str_eqb n (back (v_stack s)) = None).
  { destruct SH. cbn [v_stack back hd]. rewrite (A n), R. reflexivity. }
  rewrite X. reflexivity.
Qed.
Lemma complete : forall tbl g globals, settled tbl g globals -> plain_templates tbl ->
  (forall r e v, means tbl globals r e v -> forall s, bound g s r -> plain_value e = true -> unpassing s (value_calls_nothing e) ->
     exists fuel, go tbl g fuel [] None s (Evaluate e) = Done (s, [v]))
  /\ (forall r a l r' out, runs tbl globals r a l r' out -> forall top s sc ps, shape g s sc ps -> agree sc r -> forallb (plain top) l = true -> unpassing s (forallb calls_nothing l) ->
     (top = true -> passes g (back (tl (v_params s))) a) ->
     exists fuel sc', go tbl g fuel [] None s (Body l) = Done (VStack (sc' :: tl (v_stack s)) (v_params s), out) /\ agree sc' r')
  /\ (forall r a i r' out, acts tbl globals r a i r' out -> forall top s sc ps, shape g s sc ps -> agree sc r -> plain top i = true -> unpassing s (calls_nothing i) ->
     (top = true -> passes g (back (tl (v_params s))) a) ->
     exists fuel sc', go tbl g fuel [] None s (Body [i]) = Done (VStack (sc' :: tl (v_stack s)) (v_params s), out) /\ agree sc' r')
  /\ (forall r n l out, repeats tbl globals r n l out -> forall s, bound g s r -> forallb (plain false) l = true -> unpassing s (forallb calls_nothing l) ->
     exists fuel, go tbl g fuel [] None s (Times n l) = Done (s, out))
  /\ (forall a ts out, applies tbl globals a ts out -> forall s, based g s -> passes g (back (v_params s)) a ->
     exists fuel, go tbl g fuel [] None s (Targets ts) = Done (s, out)).
Proof.
  intros tbl g globals SE PT. apply meaning_mind.
  - intros r refs f vs F s B _ _. destruct (go_refs tbl g globals s r refs vs SE B F) as (fuel & E). exists (S fuel). cbn [go]. rewrite E. reflexivity.
  - intros r l r' out _ IH s (sc & ps & SH & A) PV U. destruct (IH false s sc ps SH A PV U ltac:(discriminate)) as (fuel & sc' & E & _).
    exists (S fuel). cbn [go]. rewrite E. reflexivity.
  - intros r a top s sc ps SH A _ _ _. exists 1%nat, sc. split; [|exact A]. cbn [go]. rewrite <- (shape_same _ _ _ _ SH). reflexivity.
  - intros r a i l r1 out1 r2 out2 _ IH1 _ IH2 top s sc ps SH A PL U PA. cbn [forallb] in PL, U. apply andb_prop in PL as [P1 P2]. apply unpassing_and in U as [U1 U2].
    destruct (IH1 top s sc ps SH A P1 U1 PA) as (f1 & sc1 & E1 & A1).
    destruct (IH2 top _ sc1 ps (shape_other _ _ _ _ sc1 SH) A1 P2 U2 PA) as (f2 & sc2 & E2 & A2). cbn [v_stack v_params tl] in E2.
    destruct (go_cons _ _ _ _ _ _ _ _ _ _ _ _ _ E1 E2) as (fuel & E). exists fuel, sc2. auto.
  - intros r a n e v R _ IH top s sc ps SH A PL U PA. destruct (IH s (shape_bound _ _ _ _ _ SH A) PL U) as (fuel & E).
    exists (S fuel), (set_in n (Known v) sc). split; [|apply agree_bind; exact A]. apply go_alone; [|exact (go_positive _ _ _ _ _ _ _ _ E)].
    rewrite (declare_works _ _ _ _ _ _ _ _ SH A R E). cbn [snd concat]. rewrite app_nil_r. destruct SH. reflexivity.
  - intros r a n e e' r' v R EA _ IH top s sc ps SH A PL U PA. cbn [plain] in PL. apply andb_prop in PL as [PT1 PL]. specialize (PA PT1 n). rewrite EA in PA.
    destruct PA as (s3 & EQ & B3 & U3 & P3). destruct (IH s3 B3 P3 U3) as (fuel & E).
    exists (S fuel), (set_in n (Known v) sc). split; [|apply agree_bind; exact A]. apply go_alone; [|exact (go_positive _ _ _ _ _ _ _ _ E)].
    unfold find_passed. rewrite EQ, (declare_works _ _ _ _ _ _ _ _ SH A R E). cbn [snd concat]. rewrite app_nil_r. destruct SH. reflexivity.
  - intros r a n e v R EA _ IH top s sc ps SH A PL U PA. cbn [plain] in PL. apply andb_prop in PL as [PT1 PL]. specialize (PA PT1 n). rewrite EA in PA.
    destruct (IH s (shape_bound _ _ _ _ _ SH A) PL U) as (fuel & E).
    exists (S fuel), (set_in n (Known v) sc). split; [|apply agree_bind; exact A]. apply go_alone; [|exact (go_positive _ _ _ _ _ _ _ _ E)].
    unfold find_passed. rewrite PA, (declare_works _ _ _ _ _ _ _ _ SH A R E). cbn [snd concat]. rewrite app_nil_r. destruct SH. reflexivity.
  - intros r a refs f vs F top s sc ps SH A _ _ _. destruct (go_refs tbl g globals s r refs vs SE (shape_bound _ _ _ _ _ SH A) F) as (fuel & E).
    exists (S (S fuel)), sc. split; [|exact A]. apply go_alone; [|lia]. rewrite <- (shape_same _ _ _ _ SH). cbn [go]. rewrite E. reflexivity.
  - intros r a refs f vs l out F _ IH top s sc ps SH A PL U _. pose proof (shape_bound _ _ _ _ _ SH A) as B.
    destruct (go_refs tbl g globals s r refs vs SE B F) as (f1 & E1). destruct (IH s B PL U) as (f2 & E2).
    exists (S (S (Nat.max f1 f2))), sc. split; [|exact A]. apply go_alone; [|lia]. rewrite <- (shape_same _ _ _ _ SH).
    assert (E3 : go tbl g (S (Nat.max f1 f2)) [] None s (Evaluate (Select refs f)) = Done (s, [f vs])).
    { cbn [go]. rewrite (go_more _ _ _ (Nat.max f1 f2) _ _ _ _ _ (Nat.le_max_l _ _) E1). reflexivity. }
    rewrite E3. cbn [rbind snd concat]. rewrite app_nil_r. apply (go_more _ _ _ (S (Nat.max f1 f2)) _ _ _ _ _ (le_S _ _ (Nat.le_max_r _ _)) E2).
  - intros r a l r' out _ IH top s sc ps SH A PL U _. cbn [plain] in PL. apply andb_prop in PL as [PL DN].
    destruct (IH false s sc ps SH A PL U ltac:(discriminate)) as (fuel & sc' & E & _). exists (S fuel), sc. split; [|exact A].
    apply go_alone; [|exact (go_positive _ _ _ _ _ _ _ _ E)]. rewrite <- (shape_same _ _ _ _ SH). rewrite E.
    destruct (sound tbl g globals SE PT _ _ _ _ _ E false sc ps r no_args SH A PL U ltac:(discriminate)) as (_ & _ & _ & _ & _ & X). rewrite (X DN). reflexivity.
  - intros r a withs ts out ND _ IH top s sc ps SH A PL U _. cbn [calls_nothing] in U. destruct U as [U|U]; [|discriminate]. rewrite (shape_ps _ _ _ _ SH) in U. subst ps.
    cbn [plain] in PL. apply andb_prop in PL as [P1 P2].
    destruct (pass_works withs s) as (s1 & E1); [destruct SH; discriminate|exact ND|intros; rewrite (shape_ps _ _ _ _ SH); reflexivity|].
    destruct (pass_done _ _ _ _ _ _ _ SH A P1 (or_introl (conj eq_refl P2)) E1) as (added & V1 & V2 & F & _ & _).
    assert (B0 : based g s1). { destruct (shape_based _ _ _ _ SH) as (X1 & X2 & X3). split; [rewrite V1; exact X1|]. split; [rewrite V1; exact X2|]. rewrite V2. discriminate. }
    destruct (IH s1 B0) as (fuel & E). { rewrite V2. exact (passing_assoc _ _ _ _ F). }
    exists (S fuel), sc. split; [|exact A]. apply go_alone; [|exact (go_positive _ _ _ _ _ _ _ _ E)]. rewrite <- (shape_same _ _ _ _ SH).
    rewrite E1. cbn [rbind]. rewrite E. cbn [rbind fst snd]. rewrite (unpass_same _ _ _ _ _ _ _ SH V1 V2 F). reflexivity.
  - intros r l s B _ _. exists 1%nat. reflexivity.
  - intros r n l r' out1 out2 _ IH1 _ IH2 s B PL U. pose proof B as (sc & ps & SH & A).
    destruct (IH1 false (chain_scope s) sc ps (shape_chain _ _ _ _ SH) A PL U ltac:(discriminate)) as (f1 & sc1 & E1 & _).
    destruct (IH2 s B PL U) as (f2 & E2). exists (S (Nat.max f1 f2)). cbn [go].
    rewrite (go_more _ _ _ (Nat.max f1 f2) _ _ _ _ _ (Nat.le_max_l _ _) E1). cbn [rbind fst snd].
    match goal with |- context [pop_scope ?x] => assert (EP : pop_scope x = s) by (destruct SH; reflexivity) end. rewrite EP.
    rewrite (go_more _ _ _ (Nat.max f1 f2) _ _ _ _ _ (Nat.le_max_r _ _) E2). reflexivity.
  - intros a s B PA. exists 1%nat. reflexivity.
  - intros a n b r' out1 l out2 EB _ IH1 _ IH2 s B PA.
    destruct (IH1 true (push_scope s) [] [] (based_push _ _ B) agree_nothing (PT _ _ EB) (or_introl eq_refl) (fun _ => PA)) as (f1 & sc1 & E1 & _).
    destruct (IH2 s B PA) as (f2 & E2). exists (S (Nat.max f1 f2)). cbn [go]. rewrite EB.
    rewrite (go_more _ _ _ (Nat.max f1 f2) _ _ _ _ _ (Nat.le_max_l _ _) E1). cbn [rbind fst snd].
    match goal with |- context [pop_scope ?x] => assert (EP : pop_scope x = s) by (destruct s; reflexivity) end. rewrite EP.
    rewrite (go_more _ _ _ (Nat.max f1 f2) _ _ _ _ _ (Nat.le_max_r _ _) E2). reflexivity.
  - intros a ts out1 l out2 _ IH1 _ IH2 s B PA.
    destruct (IH1 (push_scope s) (shape_based _ _ _ _ (based_push _ _ B)) (passes_none g)) as (f1 & E1).
    destruct (IH2 s B PA) as (f2 & E2). exists (S (Nat.max f1 f2)). cbn [go].
    rewrite (go_more _ _ _ (Nat.max f1 f2) _ _ _ _ _ (Nat.le_max_l _ _) E1). cbn [rbind fst snd].
    match goal with |- context [pop_scope ?x] => assert (EP : pop_scope x = s) by (destruct s; reflexivity) end. rewrite EP.
    rewrite (go_more _ _ _ (Nat.max f1 f2) _ _ _ _ _ (Nat.le_max_r _ _) E2). reflexivity.
Qed.
Lemma main_based : forall g user, based g (main_context user g).
Proof. intros. unfold main_context. split; [discriminate|]. split; [reflexivity|discriminate]. Qed.
Lemma scoping_lemma : forall tbl g globals user ts out, settled tbl g globals -> plain_templates tbl ->
  (exists fuel, go tbl g fuel [] None (main_context user g) (Targets ts) = Done (main_context user g, out)) <-> applies tbl globals no_args ts out.
Proof.
  intros tbl g globals user ts out SE PT. split.
  - intros (fuel & E). destruct (sound tbl g globals SE PT _ _ _ _ _ E no_args (main_based g user) (passes_none g)) as (_ & X). exact X.
  - intros AP. destruct (complete tbl g globals SE PT) as (_ & _ & _ & _ & C). exact (C _ _ _ AP _ (main_based g user) (passes_none g)).
Qed.
