(** Top level variables. *)
From Verif.Model Require Import Base Precedence Template XVars.
From Verif.Spec Require Import XVarsSpec.
From Verif.Proof Require Import TemplateProof PrecedenceProof XVarsProof.

Lemma pair_eqb_ok : forall a b, pair_eqb a b = true <-> a = b.
Proof.
  intros [a1 a2] [b1 b2]. unfold pair_eqb. cbn [fst snd]. rewrite andb_true_iff, !str_eqb_ok. split; [intros [-> ->]; reflexivity|intros X; injection X as -> ->; auto].
Qed.
Lemma in_resolving : forall k rs, existsb (pair_eqb k) rs = true <-> In k rs.
Proof.
  intros k rs. rewrite existsb_exists. split; [intros (y & I & E); apply pair_eqb_ok in E; subst; exact I|intros I; exists k; split; [exact I|apply pair_eqb_ok; reflexivity]].
Qed.
(** References in the context of the top level variable [x]. *)
Lemma resolve_global : forall g rs x y,
  resolve rs (Some x) (global_context g) y =
    if existsb (pair_eqb (x, y)) rs then Fails (Circular y)
    else match assoc str_eqb y g with
         | Some (Known v) => Value v
         | Some (Global n _ e) => Compute n e ((x, y) :: rs)
         | None => Fails (Unbound y)
         end.
Proof.
  intros g rs x y. unfold resolve, global_context. cbn [existsb v_stack back hd front last app]. rewrite orb_false_r.
  destruct (existsb (pair_eqb (x, y)) rs); [reflexivity|]. destruct (assoc str_eqb y g) as [[v|n p e]|]; reflexivity.
Qed.

Lemma global_means_ind' : forall g (P : str -> str -> Prop),
  (forall x n p refs f vs, assoc str_eqb x g = Some (Global n p (Select refs f)) -> Forall2 (fun y v => global_means g y v /\ P y v) refs vs -> P x (f vs)) ->
  forall x v, global_means g x v -> P x v.
Proof.
  intros g P H. fix IH 3. intros x v M. destruct M as [x n p refs f vs E F]. apply (H _ _ _ _ _ _ E).
  clear E. induction F as [|y w refs vs M F IHF]; constructor; [split; [exact M|exact (IH _ _ M)]|exact IHF].
Qed.
Lemma refers_trans : forall g x y z, refers_to g x y -> refers_to g y z -> refers_to g x z.
Proof. intros g x y z H. revert z. induction H as [x y R|x y z R H IH]; intros w T; [exact (refers_on _ _ _ _ R T)|exact (refers_on _ _ _ _ R (IH _ T))]. Qed.
Lemma Forall2_left_in : forall A B (P : A -> B -> Prop) l m x, Forall2 P l m -> In x l -> exists y, P x y.
Proof. intros A B P l m x F. induction F as [|a b l m H F IH]; intros I; [destruct I|destruct I as [<-|I]; eauto]. Qed.
Lemma meaning_acyclic : forall g x v, global_means g x v -> ~ refers_to g x x.
Proof.
  intros g x v M. induction M as [x n p refs f vs E F] using global_means_ind'. intros C.
  inversion C as [a b R|a b c R T]; subst; destruct R as (n' & p' & refs' & f' & E' & I); rewrite E in E'; injection E' as <- <- <- <-;
    destruct (Forall2_left_in _ _ _ _ _ _ F I) as (w & _ & N); apply N.
  - apply refers_once. exists n, p, refs, f. auto.
  - apply (refers_trans _ _ x); [exact T|]. apply refers_once. exists n, p, refs, f. auto.
Qed.

(** * Values that are found are right *)
Lemma global_sound : forall tbl g, only_selects g -> forall fuel rs x,
  (forall l r, go tbl g fuel rs (Some x) (global_context g) (Refs l) = Done r -> Forall2 (global_means g) l (snd r))
  /\ (forall refs f r, go tbl g fuel rs (Some x) (global_context g) (Evaluate (Select refs f)) = Done r -> exists vs, Forall2 (global_means g) refs vs /\ r = (global_context g, [f vs])).
Proof.
  intros tbl g OS. induction fuel as [|fuel IH]; intros rs x; (split; intros; [|]); try discriminate.
  - destruct l as [|y l]; [cbn [go] in H; injection H as <-; constructor|]. cbn [go] in H. rewrite resolve_global in H.
    destruct (existsb (pair_eqb (x, y)) rs); [discriminate|]. destruct (assoc str_eqb y g) as [b|] eqn:EY; [|discriminate].
    destruct (OS _ _ EY) as (p & refs & f & ->). rsplit H. rsplit H. injection H as <-. cbn [snd].
    destruct (IH ((x, y) :: rs) y) as [_ I2]. destruct (I2 _ _ _ E) as (vs & F & ->). cbn [snd app].
    constructor; [exact (global_select _ _ _ _ _ _ _ EY F)|]. destruct (IH rs x) as [I1 _]. exact (I1 _ _ E0).
  - cbn [go] in H. rsplit H. injection H as <-. destruct (IH rs x) as [I1 _]. exists (snd r0). split; [exact (I1 _ _ E)|reflexivity].
Qed.
(** * Values that there are, are found *)
Lemma global_complete : forall tbl g, only_selects g -> forall x v, global_means g x v -> forall p refs f rs, assoc str_eqb x g = Some (Global x p (Select refs f)) ->
  (forall o y, In (o, y) rs -> o <> x /\ ~ refers_to g x o) ->
  exists fuel, go tbl g fuel rs (Some x) (global_context g) (Evaluate (Select refs f)) = Done (global_context g, [v]).
Proof.
  intros tbl g OS x v M. pose proof (meaning_acyclic _ _ _ M) as NC. revert NC.
  induction M as [x n p0 refs0 f0 vs E F] using global_means_ind'. intros NC p refs f rs E' FR.
  rewrite E in E'. injection E' as -> -> -> ->.
  assert (X : exists fuel, go tbl g fuel rs (Some x) (global_context g) (Refs refs) = Done (global_context g, vs)).
  { assert (RF : forall y, In y refs -> refers g x y) by (intros y I; exists x, p, refs, f; auto). clear E.
    induction F as [|y w refs vs [MY IY] F IH]; [exists 1%nat; reflexivity|].
    destruct (IH (fun z I => RF z (or_intror I))) as (f1 & E1). pose proof (RF y (or_introl eq_refl)) as RY.
    assert (NY : ~ refers_to g y y) by (exact (meaning_acyclic _ _ _ MY)).
    assert (EY : exists py ry fy, assoc str_eqb y g = Some (Global y py (Select ry fy))).
    { inversion MY; subst. destruct (OS _ _ H) as (py & ry & fy & Q). rewrite Q in H. eauto. }
    destruct EY as (py & ry & fy & EY).
    destruct (IY NY py ry fy ((x, y) :: rs) EY) as (f2 & E2).
    { intros o z [Q|I].
      - injection Q as <- <-. split; [intros ->; apply NC; apply refers_once; exact RY|]. intros T. apply NC. exact (refers_on _ _ _ _ RY T).
      - destruct (FR o z I) as [N1 N2]. split; [intros ->; apply N2; apply refers_once; exact RY|]. intros T. apply N2. exact (refers_on _ _ _ _ RY T). }
    exists (S (Nat.max f1 f2)). cbn [go]. rewrite resolve_global.
    assert (NI : existsb (pair_eqb (x, y)) rs = false).
    { destruct (existsb (pair_eqb (x, y)) rs) eqn:Q; [|reflexivity]. apply in_resolving in Q. destruct (FR _ _ Q) as [N _]. contradiction. }
    rewrite NI, EY, (go_more _ _ _ (Nat.max f1 f2) _ _ _ _ _ (Nat.le_max_r _ _) E2), (go_more _ _ _ (Nat.max f1 f2) _ _ _ _ _ (Nat.le_max_l _ _) E1). reflexivity. }
  destruct X as (fuel & X). exists (S fuel). cbn [go]. rewrite X. reflexivity.
Qed.
(** * Failures are justified *)
Definition justified (g : scope) (x : str) (f : failure) : Prop :=
  match f with
  | Unbound n => refers_to g x n /\ assoc str_eqb n g = None
  | Circular n => refers_to g x n /\ refers_to g n n
  | _ => False
  end.
Lemma justified_on : forall g x y f, refers g x y -> justified g y f -> justified g x f.
Proof. intros g x y [n|n|n|n|n] R J; cbn in *; try contradiction; destruct J as [J1 J2]; (split; [exact (refers_on _ _ _ _ R J1)|exact J2]). Qed.
Lemma rbind_throws : forall A B (m : res A) (k : A -> res B) f, rbind m k = Throws f -> m = Throws f \/ exists a, m = Done a /\ k a = Throws f.
Proof. intros A B [a|f0|] k f H; cbn in H; try discriminate; [right; eauto|left; congruence]. Qed.
Lemma global_throws : forall tbl g, only_selects g -> forall fuel rs x p refs f, assoc str_eqb x g = Some (Global x p (Select refs f)) ->
  (forall o y, In (o, y) rs -> refers g o y /\ (y = x \/ refers_to g y x)) ->
  (forall l e, incl l refs -> go tbl g fuel rs (Some x) (global_context g) (Refs l) = Throws e -> justified g x e)
  /\ (forall e, go tbl g fuel rs (Some x) (global_context g) (Evaluate (Select refs f)) = Throws e -> justified g x e).
Proof.
  intros tbl g OS. induction fuel as [|fuel IH]; intros rs x p refs f EX RS; (split; intros; [|]); try discriminate.
  - destruct l as [|y l]; [discriminate|]. cbn [go] in H0. rewrite resolve_global in H0.
    assert (RY : refers g x y). { exists x, p, refs, f. split; [exact EX|]. apply H. left. reflexivity. }
    destruct (existsb (pair_eqb (x, y)) rs) eqn:CI.
    { injection H0 as <-. apply in_resolving in CI. destruct (RS _ _ CI) as [_ [->|T]]; cbn; (split; [apply refers_once; exact RY|]).
      - apply refers_once. exact RY.
      - apply (refers_trans _ _ x); [exact T|apply refers_once; exact RY]. }
    destruct (assoc str_eqb y g) as [b|] eqn:EY.
    + destruct (OS _ _ EY) as (py & ry & fy & ->). apply rbind_throws in H0 as [H0|(r1 & E1 & H0)].
      * apply (justified_on _ _ _ _ RY). destruct (IH ((x, y) :: rs) y py ry fy EY) as [_ I2]; [|exact (I2 _ H0)].
        intros o z [Q|I]; [injection Q as <- <-; auto|]. destruct (RS _ _ I) as [R1 R2]. split; [exact R1|]. right.
        destruct R2 as [->|T]; [apply refers_once; exact RY|]. apply (refers_trans _ _ x); [exact T|apply refers_once; exact RY].
      * apply rbind_throws in H0 as [H0|(r2 & E2 & H0)]; [|discriminate]. destruct (IH rs x p refs f EX RS) as [I1 _]. apply (I1 l); [|exact H0].
        intros z I. apply H. right. exact I.
    + cbn [rbind] in H0. injection H0 as <-. cbn. split; [apply refers_once; exact RY|exact EY].
  - cbn [go] in H. apply rbind_throws in H as [H|(r & _ & H)]; [|discriminate]. destruct (IH rs x p refs f EX RS) as [I1 _]. apply (I1 refs); [apply incl_refl|exact H].
Qed.

(** * A value or a failure is always found *)
Definition all_refs (g : scope) : list (str * str) :=
  concat (map (fun b => match snd b with Global n _ (Select refs _) => map (pair n) refs | _ => [] end) g).
Definition left_over (g : scope) (rs : list (str * str)) : nat := length (filter (fun k => negb (existsb (pair_eqb k) rs)) (all_refs g)).
Lemma assoc_in : forall V x (v : V) m, assoc str_eqb x m = Some v -> In (x, v) m.
Proof.
  intros V x v. induction m as [|[k w] m IH]; cbn [assoc]; [discriminate|]. destruct (str_eqb x k) eqn:E; [|intros H; right; exact (IH H)].
  apply str_eqb_ok in E. subst k. intros Q. injection Q as ->. left. reflexivity.
Qed.
Lemma all_refs_in : forall g x p refs f y, assoc str_eqb x g = Some (Global x p (Select refs f)) -> In y refs -> In (x, y) (all_refs g).
Proof.
  intros g x p refs f y E I. apply assoc_in in E. unfold all_refs. apply in_concat. exists (map (pair x) refs). split.
  - apply in_map_iff. exists (x, Global x p (Select refs f)). auto.
  - apply in_map. exact I.
Qed.
Lemma filter_less : forall A (f h : A -> bool) l x, (forall y, h y = true -> f y = true) -> In x l -> f x = true -> h x = false -> (length (filter h l) < length (filter f l))%nat.
Proof.
  intros A f h l x HF. assert (LE : forall l, (length (filter h l) <= length (filter f l))%nat).
  { induction l0 as [|y l0 IH]; cbn [filter]; [lia|]. destruct (h y) eqn:E; [rewrite (HF _ E); cbn [length]; lia|]. destruct (f y); cbn [length]; lia. }
  induction l as [|y l IH]; intros [] FX HX; cbn [filter].
  - subst y. rewrite FX, HX. cbn [length]. specialize (LE l). lia.
  - specialize (IH H FX HX). destruct (h y) eqn:E; [rewrite (HF _ E); cbn [length]; lia|]. destruct (f y); cbn [length]; lia.
Qed.
Lemma left_over_less : forall g rs k, In k (all_refs g) -> existsb (pair_eqb k) rs = false -> (left_over g (k :: rs) < left_over g rs)%nat.
Proof.
  intros g rs k I N. unfold left_over. apply (filter_less _ _ _ _ k); [|exact I|rewrite N; reflexivity|].
  - intros y. cbn [existsb]. rewrite negb_orb. intros H. apply andb_prop in H. apply H.
  - cbn [existsb]. assert (X : pair_eqb k k = true) by (apply pair_eqb_ok; reflexivity). rewrite X. reflexivity.
Qed.
Definition longest (g : scope) : nat := list_max (map (fun b => match snd b with Global _ _ (Select refs _) => length refs | _ => O end) g).
Lemma longest_ok : forall g x p refs f, assoc str_eqb x g = Some (Global x p (Select refs f)) -> (length refs <= longest g)%nat.
Proof.
  intros g x p refs f E. apply assoc_in in E. unfold longest.
  pose proof (proj1 (list_max_le (map (fun b => match snd b with Global _ _ (Select refs _) => length refs | _ => O end) g) _) (le_n _)) as F.
  rewrite Forall_forall in F. apply F. apply in_map_iff. exists (x, Global x p (Select refs f)). auto.
Qed.
Lemma rbind_fuel : forall A B (m : res A) (k : A -> res B), m <> OutOfFuel -> (forall a, m = Done a -> k a <> OutOfFuel) -> rbind m k <> OutOfFuel.
Proof. intros A B [a|f|] k H K; cbn; [apply K; reflexivity|discriminate|contradiction]. Qed.
Lemma global_fuel : forall tbl g, only_selects g -> forall m rs x p refs f fuel, assoc str_eqb x g = Some (Global x p (Select refs f)) -> (left_over g rs <= m)%nat ->
  ((m + 1) * (longest g + 2) <= fuel)%nat -> go tbl g fuel rs (Some x) (global_context g) (Evaluate (Select refs f)) <> OutOfFuel.
Proof.
  intros tbl g OS. induction m as [|m IH]; intros rs x p refs f fuel EX LO FU; pose proof (longest_ok _ _ _ _ _ EX) as LR.
  - destruct fuel as [|fuel]; [lia|]. cbn [go]. apply rbind_fuel; [|discriminate].
    assert (X : forall l fuel, incl l refs -> (length l + 1 <= fuel)%nat -> go tbl g fuel rs (Some x) (global_context g) (Refs l) <> OutOfFuel).
    { induction l as [|y l IHl]; intros fu IN LE; (destruct fu as [|fu]; [lia|]); cbn [go]; [discriminate|]. rewrite resolve_global.
      destruct (existsb (pair_eqb (x, y)) rs) eqn:CI; [discriminate|]. exfalso.
      pose proof (left_over_less g rs (x, y) (all_refs_in _ _ _ _ _ _ EX (IN _ (or_introl eq_refl))) CI). lia. }
    apply X; [apply incl_refl|lia].
  - destruct fuel as [|fuel]; [lia|]. cbn [go]. apply rbind_fuel; [|discriminate].
    assert (X : forall l fuel, incl l refs -> ((m + 1) * (longest g + 2) + length l + 1 <= fuel)%nat -> go tbl g fuel rs (Some x) (global_context g) (Refs l) <> OutOfFuel).
    { induction l as [|y l IHl]; intros fu IN LE; (destruct fu as [|fu]; [lia|]); cbn [go]; [discriminate|]. rewrite resolve_global.
      destruct (existsb (pair_eqb (x, y)) rs) eqn:CI; [discriminate|]. cbn [length] in LE.
      destruct (assoc str_eqb y g) as [b|] eqn:EY; [|discriminate]. destruct (OS _ _ EY) as (py & ry & fy & ->).
      apply rbind_fuel.
      - apply (IH _ _ py); [exact EY| |lia]. pose proof (left_over_less g rs (x, y) (all_refs_in _ _ _ _ _ _ EX (IN _ (or_introl eq_refl))) CI). lia.
      - intros a _. apply rbind_fuel; [|discriminate]. apply IHl; [intros z I; apply IN; right; exact I|lia]. }
    apply X; [apply incl_refl|]. nia.
Qed.

Definition outcome_ok (g : scope) (x : str) (r : res (list str)) : Prop :=
  match r with
  | Done vs => exists v, vs = [v] /\ global_means g x v
  | Throws f => justified g x f
  | OutOfFuel => False
  end.
Lemma global_lemma : forall tbl g x b, only_selects g -> assoc str_eqb x g = Some b ->
  exists enough, forall fuel, (enough <= fuel)%nat -> outcome_ok g x (global_value tbl g fuel b).
Proof.
  intros tbl g x b OS E. destruct (OS _ _ E) as (p & refs & f & ->). exists ((left_over g [] + 1) * (longest g + 2))%nat. intros fuel L.
  unfold global_value. pose proof (global_fuel tbl g OS _ [] x p refs f fuel E (le_n _) L) as NF.
  destruct (go tbl g fuel [] (Some x) (global_context g) (Evaluate (Select refs f))) as [r|e|] eqn:EG; [| |contradiction]; cbn [rbind outcome_ok].
  - destruct (global_sound tbl g OS fuel [] x) as [_ S2]. destruct (S2 _ _ _ EG) as (vs & F & ->). exists (f vs). split; [reflexivity|]. exact (global_select _ _ _ _ _ _ _ E F).
  - destruct (global_throws tbl g OS fuel [] x p refs f E) as [_ T2]; [intros o y []|]. exact (T2 _ EG).
Qed.
Lemma global_found_lemma : forall tbl g x b v, only_selects g -> assoc str_eqb x g = Some b ->
  (exists fuel, global_value tbl g fuel b = Done [v]) <-> global_means g x v.
Proof.
  intros tbl g x b v OS E. destruct (OS _ _ E) as (p & refs & f & ->). split.
  - intros (fuel & G). unfold global_value in G. rsplit G. destruct (global_sound tbl g OS fuel [] x) as [_ S2]. destruct (S2 _ _ _ E0) as (vs & F & ->).
    cbn [snd] in G. injection G as <-. exact (global_select _ _ _ _ _ _ _ E F).
  - intros M. destruct (global_complete tbl g OS x v M p refs f [] E) as (fuel & G); [intros o y []|]. exists fuel. unfold global_value. rewrite G. reflexivity.
Qed.

(** * Parameters from outside *)
Lemma user_last : forall user acc x, assoc str_eqb x (fold_left (fun m nv => set_in (fst nv) (Passed (Select [] (fun _ => snd nv)) (VStack [[]] [[]; []])) m) user acc) =
  match find (fun nv => str_eqb x (fst nv)) (rev user) with Some nv => Some (Passed (Select [] (fun _ => snd nv)) (VStack [[]] [[]; []])) | None => assoc str_eqb x acc end.
Proof.
  induction user as [|nv user IH]; intros acc x; cbn [fold_left rev]; [reflexivity|]. rewrite IH. clear IH.
  assert (F : forall l, find (fun nv => str_eqb x (fst nv)) (l ++ [nv]) = match find (fun nv => str_eqb x (fst nv)) l with Some y => Some y | None => if str_eqb x (fst nv) then Some nv else None end).
  { induction l as [|y l IH]; cbn [app find]; [destruct (str_eqb x (fst nv)); reflexivity|]. destruct (str_eqb x (fst y)); [reflexivity|exact IH]. }
  rewrite F. destruct (find _ (rev user)); [reflexivity|]. rewrite assoc_set. destruct (str_eqb x (fst nv)); reflexivity.
Qed.
Lemma instance_ok : forall user d, instance_of user d = as_set user d.
Proof. intros user d. unfold instance_of, user_params, as_set. rewrite user_last. destruct (find _ (rev user)); reflexivity. Qed.

(** * Which declaration counts *)
Lemma descendant_lt : forall l o, is_descendant l o = true -> prec_lt o l = true.
Proof.
  intros l o H. unfold is_descendant in H. destruct (length o <=? length l)%nat eqn:L; [discriminate|]. apply Nat.leb_gt in L.
  assert (X : prec_eq o l = false). { destruct (prec_eq o l) eqn:E; [|reflexivity]. apply prec_eq_ok in E. subst. lia. }
  unfold prec_lt. rewrite X. clear X. revert o H L. induction l as [|a l IH]; intros [|b o] H L; cbn [length] in L; try lia; cbn [less_loop same_start] in *; [reflexivity|].
  apply andb_prop in H as [H1 H2]. apply Z.eqb_eq in H1. subst b. rewrite Z.ltb_irrefl. apply IH; [exact H2|lia].
Qed.
Lemma judge_ok : forall b p, match judge (Some b) p with
  | Clash => p = b_prec b
  | Ignored => prec_lt p (b_prec b) = true
  | Stored => prec_lt (b_prec b) p = true
  end.
Proof.
  intros b p. unfold judge. destruct (prec_eq p (b_prec b)) eqn:E1; [apply prec_eq_ok; exact E1|].
  destruct (is_descendant (b_prec b) p) eqn:E2; [exact (descendant_lt _ _ E2)|].
  destruct (prec_gt (b_prec b) p) eqn:E3; [apply gt_ok; exact E3|].
  destruct (lt_total (b_prec b) p) as [H|[H|H]]; [exact H|subst; rewrite (proj2 (prec_eq_ok _ _) eq_refl) in E1; discriminate|].
  apply gt_ok in H. congruence.
Qed.
Lemma declare_winners : forall user ds done g g', winners user done g -> declare_globals user g ds = Done g' -> winners user (done ++ ds) g'.
Proof.
  intros user. induction ds as [|d ds IH]; intros done g g' W H; cbn [declare_globals] in H.
  - injection H as <-. rewrite app_nil_r. exact W.
  - rsplit H. assert (X : winners user (done ++ [d]) r); [|specialize (IH _ _ _ X H); rewrite <- app_assoc in IH; exact IH]. clear IH H.
    unfold declare_global in E. rewrite instance_ok in E. pose proof (W (d_name d)) as WD.
    destruct (assoc str_eqb (d_name d) g) as [b|] eqn:EA.
    + pose proof (judge_ok b (b_prec (as_set user d))) as J. destruct (judge (Some b) (b_prec (as_set user d))); [discriminate| |]; injection E as <-; intros x.
      * specialize (W x). destruct (assoc str_eqb x g) as [bx|] eqn:EX.
        -- destruct W as (dx & I & N & Q & M). exists dx. split; [apply in_or_app; auto|]. split; [exact N|]. split; [exact Q|].
           intros d' I' N'. apply in_app_or in I' as [I'|[<-|[]]]; [exact (M _ I' N')|]. right. assert (QB : bx = b) by congruence. rewrite QB. exact J.
        -- intros d' I'. apply in_app_or in I' as [I'|[<-|[]]]; [exact (W _ I')|]. intros <-. congruence.
      * rewrite assoc_set. destruct (str_eqb x (d_name d)) eqn:EX.
        -- apply str_eqb_ok in EX. subst x. destruct WD as (dx & I & N & Q & M). exists d. split; [apply in_or_app; right; left; reflexivity|]. split; [reflexivity|]. split; [reflexivity|].
           intros d' I' N'. apply in_app_or in I' as [I'|[<-|[]]]; [|auto]. right. destruct (M _ I' N') as [->|L]; [rewrite <- Q; exact J|]. exact (lt_trans _ _ _ L J).
        -- specialize (W x). destruct (assoc str_eqb x g) as [bx|].
           ++ destruct W as (dx & I & N & Q & M). exists dx. split; [apply in_or_app; auto|]. split; [exact N|]. split; [exact Q|].
              intros d' I' N'. apply in_app_or in I' as [I'|[<-|[]]]; [exact (M _ I' N')|]. rewrite <- N', eqb_refl in EX. discriminate.
           ++ intros d' I'. apply in_app_or in I' as [I'|[<-|[]]]; [exact (W _ I')|]. intros <-. rewrite eqb_refl in EX. discriminate.
    + cbn [judge] in E. injection E as <-. intros x. rewrite assoc_set. destruct (str_eqb x (d_name d)) eqn:EX.
      * apply str_eqb_ok in EX. subst x. exists d. split; [apply in_or_app; right; left; reflexivity|]. split; [reflexivity|]. split; [reflexivity|].
        intros d' I' N'. apply in_app_or in I' as [I'|[<-|[]]]; [|auto]. exfalso. exact (WD _ I' N').
      * specialize (W x). destruct (assoc str_eqb x g) as [bx|].
        -- destruct W as (dx & I & N & Q & M). exists dx. split; [apply in_or_app; auto|]. split; [exact N|]. split; [exact Q|].
           intros d' I' N'. apply in_app_or in I' as [I'|[<-|[]]]; [exact (M _ I' N')|]. rewrite <- N', eqb_refl in EX. discriminate.
        -- intros d' I'. apply in_app_or in I' as [I'|[<-|[]]]; [exact (W _ I')|]. intros <-. rewrite eqb_refl in EX. discriminate.
Qed.
Lemma winners_lemma : forall user ds g, declare_globals user [] ds = Done g -> winners user ds g.
Proof. intros user ds g H. apply (declare_winners user ds [] [] g); [|exact H]. intros x. cbn [assoc]. intros d []. Qed.
(** Only two declarations of one precedence clash. *)
Lemma clash_lemma : forall user ds g done f, winners user done g -> declare_globals user g ds = Throws f ->
  exists l d1 m d2 r, done ++ ds = l ++ d1 :: m ++ d2 :: r /\ f = Duplicate (d_name d1) /\ d_name d1 = d_name d2 /\ b_prec (as_set user d1) = b_prec (as_set user d2).
Proof.
  intros user. induction ds as [|d ds IH]; intros g done f W H; cbn [declare_globals] in H; [discriminate|].
  apply rbind_throws in H as [H|(g1 & E & H)].
  - unfold declare_global in H. rewrite instance_ok in H. pose proof (W (d_name d)) as WD. destruct (assoc str_eqb (d_name d) g) as [b|]; [|discriminate].
    pose proof (judge_ok b (b_prec (as_set user d))) as J. destruct (judge (Some b) (b_prec (as_set user d))); try discriminate. injection H as <-.
    destruct WD as (dx & I & N & Q & _). apply in_split in I as (l & m & ->). exists l, dx, m, d, ds. split; [rewrite <- app_assoc; reflexivity|].
    rewrite N. split; [reflexivity|]. split; [reflexivity|]. rewrite <- Q. symmetry. exact J.
  - assert (X : declare_globals user g [d] = Done g1) by (cbn [declare_globals]; rewrite E; reflexivity).
    destruct (IH g1 (done ++ [d]) f (declare_winners _ _ _ _ _ W X) H) as (l & d1 & m & d2 & r & E1 & E2). exists l, d1, m, d2, r. rewrite <- app_assoc in E1. auto.
Qed.

(** * From freezing to running *)
Lemma freeze_settled : forall tbl g fuel l vs, freeze tbl g fuel l = Done vs -> forall x b, In (x, b) l -> exists v, global_value tbl g fuel b = Done [v].
Proof.
  intros tbl g fuel. induction l as [|[y c] l IH]; intros vs H x b []; cbn [freeze snd] in H; rsplit H; rsplit H.
  - injection H0 as <- <-. rewrite E. destruct c as [v|n p e]; cbn [global_value] in E; [injection E as <-; eauto|]. rsplit E. injection E as <-.
    destruct fuel; [discriminate|]. cbn [go] in E1. destruct e; rsplit E1; injection E1 as <-; cbn [snd]; eauto.
  - exact (IH _ E0 _ _ H0).
Qed.
Definition value_in (tbl : list (str * list instr)) (g : scope) (fuel : nat) : env := fun x =>
  match assoc str_eqb x g with Some b => match global_value tbl g fuel b with Done [v] => Some v | _ => None end | None => None end.
Lemma transform_lemma : forall tbl user ds ts fuel out, plain_templates tbl -> transform tbl user ds ts fuel = Done out ->
  exists g globals, winners user ds g /\ settled tbl g globals /\ applies tbl globals no_args ts out.
Proof.
  intros tbl user ds ts fuel out PT H. unfold transform in H. rsplit H. rename r into g. rsplit H. rsplit H. injection H as <-.
  pose proof (winners_lemma _ _ _ E) as W. exists g, (value_in tbl g fuel). split; [exact W|].
  assert (SE : settled tbl g (value_in tbl g fuel)).
  { intros x. unfold value_in. specialize (W x). destruct (assoc str_eqb x g) as [b|] eqn:EA; [|reflexivity].
    destruct (freeze_settled _ _ _ _ _ E0 x b (assoc_in _ _ _ _ EA)) as (v & G). rewrite G.
    destruct W as (d & _ & _ & Q & _). unfold as_set in Q.
    assert (X : exists n p e, b = Global n p e). { destruct (find _ (rev user)); [destruct (d_param d)|]; eauto. }
    destruct X as (n & p & e & ->). exists n, p, e, fuel. auto. }
  split; [exact SE|]. destruct r0 as [s' o].
  destruct (sound tbl g _ SE PT _ _ _ _ _ E1 no_args (main_based g user) (passes_none g)) as (_ & X). exact X.
Qed.

(** * Names *)
Lemma clark_lemma : forall u1 l1 u2 l2, ~ In 125 u1 -> ~ In 125 u2 -> ~ In 123 l1 -> ~ In 123 l2 -> clark_name u1 l1 = clark_name u2 l2 -> u1 = u2 /\ l1 = l2.
Proof.
  intros u1 l1 u2 l2 H1 H2 H3 H4 E. unfold clark_name in E.
  destruct u1 as [|a u1], u2 as [|b u2]; [auto| | |].
  - exfalso. apply H3. rewrite E. left. reflexivity.
  - exfalso. apply H4. rewrite <- E. left. reflexivity.
  - assert (X : forall v1 v2 : str, ~ In 125 v1 -> ~ In 125 v2 -> v1 ++ [125] ++ l1 = v2 ++ [125] ++ l2 -> v1 = v2 /\ l1 = l2).
    { induction v1 as [|c v1 IH]; intros [|d v2] N1 N2 Q; cbn [app] in Q.
      - injection Q as Q. auto.
      - injection Q as <- Q. exfalso. apply N2. left. reflexivity.
      - injection Q as -> Q. exfalso. apply N1. left. reflexivity.
      - injection Q as <- Q. destruct (IH v2) as [-> ->]; auto; intros I; [apply N1|apply N2]; right; exact I. }
    apply X; auto. cbn [app] in E |- *. injection E as E1 E2. rewrite E1. f_equal. exact E2.
Qed.

(** With select expressions only. *)
Lemma selects_lemma : forall user ds g, declare_globals user [] ds = Done g -> (forall d, In d ds -> exists refs f, d_expr d = Select refs f) -> only_selects g.
Proof.
  intros user ds g H S x b E. pose proof (winners_lemma _ _ _ H x) as W. rewrite E in W. destruct W as (d & I & N & -> & _). unfold as_set. rewrite N.
  destruct (S d I) as (refs & f & Q). rewrite Q. destruct (find _ (rev user)); [destruct (d_param d)|]; eauto.
Qed.
Lemma param_lemma : forall user ds g d nv, declare_globals user [] ds = Done g -> In d ds -> (forall d', In d' ds -> d_name d' = d_name d -> d' = d) ->
  find (fun nv => str_eqb (d_name d) (fst nv)) (rev user) = Some nv -> d_param d = true -> global_means g (d_name d) (snd nv).
Proof.
  intros user ds g d nv H I U F P. pose proof (winners_lemma _ _ _ H (d_name d)) as W. destruct (assoc str_eqb (d_name d) g) as [b|] eqn:E; [|exfalso; exact (W _ I eq_refl)].
  destruct W as (d' & I' & N & -> & _). unfold as_set in E. rewrite (U _ I' N), F, P in E. exact (global_select _ _ _ _ _ (fun _ => snd nv) [] E (Forall2_nil _)).
Qed.
Lemma unset_lemma : forall user ds g d, declare_globals user [] ds = Done g -> In d ds -> (forall d', In d' ds -> d_name d' = d_name d -> d' = d) ->
  (d_param d = false \/ forall nv, In nv user -> fst nv <> d_name d) -> assoc str_eqb (d_name d) g = Some (Global (d_name d) (d_prec d) (d_expr d)).
Proof.
  intros user ds g d H I U X. pose proof (winners_lemma _ _ _ H (d_name d)) as W. destruct (assoc str_eqb (d_name d) g) as [b|]; [|exfalso; exact (W _ I eq_refl)].
  destruct W as (d' & I' & N & -> & _). rewrite (U _ I' N). unfold as_set. destruct (find _ (rev user)) as [nv|] eqn:F; [|reflexivity].
  destruct X as [->|X]; [reflexivity|]. apply find_some in F as [F1 F2]. apply str_eqb_ok in F2. exfalso. apply (X nv); [apply in_rev; exact F1|auto].
Qed.
