(** Proofs about the TreeWalker (C31). *)
From Verif.Model Require Import Base Dom TreeWalker.
From Verif.Spec Require Import DomSpec TreeWalkerSpec.

Lemma answers_step : forall g g' r, (forall f, g (S f) = g' f) -> answers g' r -> answers g r.
Proof. intros g g' r E (f0 & H). exists (S f0). intros [|f] L; [lia|]. rewrite E. apply H. lia. Qed.
Lemma answers_now : forall g r, (forall f, g (S f) = Some r) -> answers g r.
Proof. intros g r E. exists 1%nat. intros [|f] L; [lia|]. apply E. Qed.
Lemma answers_fun : forall g r r', answers g r -> answers g r' -> r = r'.
Proof. intros g r r' (f & H) (f' & H'). specialize (H (f + f')%nat). specialize (H' (f + f')%nat). rewrite H in H' by lia. specialize (H' ltac:(lia)). congruence. Qed.
Lemma hd_app : forall {A} (a b : list A), hd_error (a ++ b) = match hd_error a with Some x => Some x | None => hd_error b end.
Proof. intros A [|x a] b; reflexivity. Qed.

Lemma next_eq : forall h w f n, next_impl h w (S f) n =
      if Nat.eqb n (tw_root w) then Some None
      else match n_next (h n) with
           | None =>
               match get_parent h n with
               | None => Some None
               | Some p => if Nat.eqb p (tw_root w) then Some None
                           else if is_skip (accept_node h w p) then next_impl h w f p else Some None
               end
           | Some x =>
               match accept_node h w x with
               | Accept => Some (Some x)
               | Skip =>
                   match first_impl h w f x with
                   | None => None
                   | Some None => if has_kids h x then Some None else next_impl h w f x
                   | Some (Some c) => Some (Some c)
                   end
               | Reject => next_impl h w f x
               end
           end.
Proof. reflexivity. Qed.
Section Walk.
Context (h : heap) (w : walker) (T : tree_ok h) (OPEN : refs_open h w).
Notation root := (tw_root w).
Notation nxt n := (fun f => next_impl h w f n).
Notation fst_ n := (fun f => first_impl h w f n).
Notation upw n := (fun f => up_impl h w f n).

Lemma sib_next : forall q pre n k ks, kids h q = pre ++ n :: k :: ks -> n_next (h n) = Some k.
Proof. intros q pre n k ks E. apply (proj1 (proj2 (proj2 (proj1 (proj2 T))))) in E. tauto. Qed.
Lemma sib_last : forall q pre n, kids h q = pre ++ [n] -> n_next (h n) = None.
Proof. intros q pre n E. apply (proj1 (proj2 (proj1 (proj2 T))) q pre n E). Qed.
Lemma par : forall q n, In n (kids h q) -> get_parent h n = Some q.
Proof. intros q n I. apply (proj2 (proj1 T)), I. Qed.
Definition under (q : nat) : Prop := q = root \/ above h root q.
Lemma under_kid : forall q k, under q -> In k (kids h q) -> under k /\ k <> root.
Proof.
  intros q k U I. assert (A : above h root k).
  { destruct U as [->|A]; [constructor; exact I|]. induction A as [p c J|p c d J A IH]; [|apply above_trans with c; auto].
    apply above_trans with c; [exact J|]. constructor. exact I. }
  split; [right; exact A|]. intros ->. apply (proj2 (proj2 T) root A).
Qed.
Definition ends (q : nat) (kr : list nat) : Prop := forall z pre, kids h q = pre ++ [z] -> answers (nxt z) (hd_error kr).
Lemma ends_stop : forall q, under q -> q = root \/ says_of h w q <> Skip -> ends q [].
Proof.
  intros q U ST z pre E. assert (I : In z (kids h q)) by (rewrite E; apply in_elt).
  destruct (under_kid q z U I) as [_ NR]. apply answers_now. intro f. rewrite next_eq.
  apply Nat.eqb_neq in NR. rewrite NR, (sib_last q pre z E), (par q z I).
  destruct (Nat.eqb_spec q root) as [|NQ]; [reflexivity|]. destruct ST as [->|ST]; [congruence|].
  unfold says_of in ST. destruct (accept_node h w q); try reflexivity. congruence.
Qed.
Lemma ends_skip : forall q kr, under q -> q <> root -> says_of h w q = Skip -> answers (nxt q) (hd_error kr) -> ends q kr.
Proof.
  intros q kr U NQ SK A z pre E. assert (I : In z (kids h q)) by (rewrite E; apply in_elt).
  destruct (under_kid q z U I) as [_ NR]. apply answers_step with (g' := nxt q); [|exact A]. intro f. rewrite next_eq.
  apply Nat.eqb_neq in NR. rewrite NR, (sib_last q pre z E), (par q z I).
  apply Nat.eqb_neq in NQ. unfold says_of in SK. rewrite NQ, SK. reflexivity.
Qed.
Lemma open_skip : forall k, says_of h w k = Skip -> closed_ref h w k = false \/ kids h k = [].
Proof.
  intros k SK. specialize (OPEN k SK). unfold inner in OPEN. unfold closed_ref, has_kind.
  destruct (tw_expand w); cbn; [auto|]. destruct (n_kind (h k)); cbn; auto.
Qed.
Lemma has_kids_eq : forall k, has_kids h k = match kids h k with [] => false | _ => true end.
Proof. reflexivity. Qed.

Lemma walk : forall ks l, shown h w ks l -> forall q pre kr, under q -> kids h q = pre ++ ks -> ends q kr ->
  (forall n pre', pre = pre' ++ [n] -> answers (nxt n) (hd_error (l ++ kr))) /\
  (pre = [] -> ks <> [] -> closed_ref h w q = false -> answers (fst_ q) (hd_error (l ++ kr))).
Proof.
  intros ks l D. induction D as [|k ks l AC D IH|k ks m l SK Dm IHm D IH|k ks l RJ D IH]; intros q pre kr U E EN.
  - split; [|congruence]. intros n pre' ->. rewrite app_nil_r in E. apply (EN n pre' E).
  - split.
    + intros n pre' ->. apply answers_now. intro f. rewrite next_eq. cbn [hd_error app].
      assert (I : In n (kids h q)) by (rewrite E, !in_app_iff; cbn; auto).
      destruct (under_kid q n U I) as [_ NR]. apply Nat.eqb_neq in NR. rewrite NR.
      rewrite <- app_assoc in E. cbn in E. rewrite (sib_next q pre' n k ks E). unfold says_of in AC. rewrite AC. reflexivity.
    + intros -> _ CL. apply answers_now. intro f. cbn [first_impl hd_error app]. rewrite CL. unfold first_child.
      unfold kids in E. rewrite E. cbn. unfold says_of in AC. rewrite AC. reflexivity.
  - assert (I : In k (kids h q)) by (rewrite E; apply in_elt). destruct (under_kid q k U I) as [UK NK].
    destruct (IH q (pre ++ [k]) kr U) as [A _]; [rewrite <- app_assoc; exact E|exact EN|]. specialize (A k pre eq_refl).
    assert (EK := ends_skip k (l ++ kr) UK NK SK A). rewrite (OPEN k SK) in IHm, Dm.
    destruct (IHm k [] (l ++ kr) UK eq_refl EK) as [_ B]. specialize (B eq_refl). rewrite app_assoc in B.
    destruct (kids h k) as [|c cs] eqn:KK.
    + inversion Dm; subst m. cbn [app] in *.
      assert (FE : forall f, first_impl h w (S f) k = Some None).
      { intro f. cbn [first_impl]. destruct (closed_ref h w k); [reflexivity|]. unfold first_child. unfold kids in KK. rewrite KK. reflexivity. }
      assert (HK : has_kids h k = false) by (rewrite has_kids_eq, KK; reflexivity).
      split.
      * intros n pre' ->. destruct A as (f0 & A). exists (S (S f0)). intros [|[|f]] L; [lia|lia|]. rewrite next_eq.
        assert (IN : In n (kids h q)) by (rewrite E, !in_app_iff; cbn; auto).
        destruct (under_kid q n U IN) as [_ NR]. apply Nat.eqb_neq in NR. rewrite NR.
        rewrite <- app_assoc in E. cbn in E. rewrite (sib_next q pre' n k ks E). unfold says_of in SK. rewrite SK.
        rewrite FE, HK. apply A. lia.
      * intros -> _ CL. apply answers_step with (g' := nxt k); [|exact A]. intro f. cbn [first_impl]. rewrite CL.
        unfold first_child. unfold kids in E. rewrite E. cbn [app hd_error]. unfold says_of in SK. rewrite SK, HK. reflexivity.
    + assert (CK : closed_ref h w k = false) by (destruct (open_skip k SK); [assumption|congruence]).
      specialize (B ltac:(discriminate) CK).
      assert (HK : has_kids h k = true) by (rewrite has_kids_eq, KK; reflexivity).
      split.
      * intros n pre' ->. destruct B as (f0 & B). exists (S f0). intros [|f] L; [lia|]. rewrite next_eq.
        assert (IN : In n (kids h q)) by (rewrite E, !in_app_iff; cbn; auto).
        destruct (under_kid q n U IN) as [_ NR]. apply Nat.eqb_neq in NR. rewrite NR.
        rewrite <- app_assoc in E. cbn [app] in E. rewrite (sib_next q pre' n k ks E). unfold says_of in SK. rewrite SK.
        rewrite B by lia. destruct (hd_error ((m ++ l) ++ kr)); [reflexivity|]. rewrite HK. reflexivity.
      * intros -> _ CL. apply answers_step with (g' := fst_ k); [|exact B]. intro f. cbn [first_impl]. rewrite CL.
        unfold first_child. unfold kids in E. rewrite E. cbn [app hd_error]. unfold says_of in SK. rewrite SK, HK. reflexivity.
  - destruct (IH q (pre ++ [k]) kr U) as [A _]; [rewrite <- app_assoc; exact E|exact EN|]. specialize (A k pre eq_refl). split.
    + intros n pre' ->. apply answers_step with (g' := nxt k); [|exact A]. intro f. rewrite next_eq.
      assert (IN : In n (kids h q)) by (rewrite E, !in_app_iff; cbn; auto).
      destruct (under_kid q n U IN) as [_ NR]. apply Nat.eqb_neq in NR. rewrite NR.
      rewrite <- app_assoc in E. cbn [app] in E. rewrite (sib_next q pre' n k ks E). unfold says_of in RJ. rewrite RJ. reflexivity.
    + intros -> _ CL. apply answers_step with (g' := nxt k); [|exact A]. intro f. cbn [first_impl]. rewrite CL.
      unfold first_child. unfold kids in E. rewrite E. cbn [app hd_error]. unfold says_of in RJ. rewrite RJ. reflexivity.
Qed.
(** The first visible child of a node that is the root or not skipped. *)
Lemma first_answers : forall q l, under q -> q = root \/ says_of h w q <> Skip -> shown h w (inner h w q) l -> answers (fst_ q) (hd_error l).
Proof.
  intros q l U ST D. destruct (closed_ref h w q) eqn:CL.
  - assert (inner h w q = []) as X.
    { unfold closed_ref, has_kind in CL. unfold inner. destruct (tw_expand w); [discriminate|]. destruct (n_kind (h q)); try discriminate. reflexivity. }
    rewrite X in D. inversion D; subst. apply answers_now. intro f. cbn. rewrite CL. reflexivity.
  - assert (inner h w q = kids h q) as X.
    { unfold closed_ref, has_kind in CL. unfold inner. destruct (tw_expand w); [reflexivity|]. destruct (n_kind (h q)); try discriminate; reflexivity. }
    rewrite X in D. destruct (kids h q) as [|c cs] eqn:KQ.
    + inversion D; subst. apply answers_now. intro f. cbn. rewrite CL. unfold first_child. unfold kids in KQ. rewrite KQ. reflexivity.
    + destruct (walk _ _ D q [] [] U KQ (ends_stop q U ST)) as [_ B]. rewrite app_nil_r in B. apply B; auto. discriminate.
Qed.
Lemma shown_app : forall a b l, shown h w (a ++ b) l -> exists la lb, shown h w a la /\ shown h w b lb /\ l = la ++ lb.
Proof.
  induction a as [|k a IH]; intros b l D; cbn in D; [exists [], l; repeat split; auto; constructor|].
  inversion D; subst.
  - match goal with X : shown h w (a ++ b) _ |- _ => destruct (IH _ _ X) as (la & lb & A & B & ->) end. exists (k :: la), lb. repeat split; auto. constructor; auto.
  - match goal with X : shown h w (a ++ b) _ |- _ => destruct (IH _ _ X) as (la & lb & A & B & ->) end.
    exists (m ++ la), lb. repeat split; auto; [constructor; auto|]. rewrite app_assoc. reflexivity.
  - match goal with X : shown h w (a ++ b) _ |- _ => destruct (IH _ _ X) as (la & lb & A & B & ->) end. exists la, lb. repeat split; auto. constructor; auto.
Qed.
(** The next visible sibling: of a node anywhere in the visible children of [q]. *)
Lemma siblings : forall ks l, shown h w ks l -> forall q pre kr, under q -> kids h q = pre ++ ks -> ends q kr ->
  forall l1 x l2, l = l1 ++ x :: l2 -> answers (nxt x) (hd_error (l2 ++ kr)).
Proof.
  intros ks l D. induction D as [|k ks l AC D IH|k ks m l SK Dm IHm D IH|k ks l RJ D IH]; intros q pre kr U E EN l1 x l2 EL.
  - destruct l1; discriminate.
  - assert (E2 : kids h q = (pre ++ [k]) ++ ks) by (rewrite <- app_assoc; exact E).
    destruct l1 as [|y l1]; injection EL as <- EL.
    + subst l. apply (proj1 (walk _ _ D q _ kr U E2 EN) k pre eq_refl).
    + apply (IH q _ kr U E2 EN l1 x l2 EL).
  - assert (E2 : kids h q = (pre ++ [k]) ++ ks) by (rewrite <- app_assoc; exact E).
    assert (I : In k (kids h q)) by (rewrite E; apply in_elt). destruct (under_kid q k U I) as [UK NK].
    assert (A := proj1 (walk _ _ D q _ kr U E2 EN) k pre eq_refl).
    assert (EK := ends_skip k (l ++ kr) UK NK SK A). rewrite (OPEN k SK) in IHm, Dm.
    apply app_eq_app in EL. destruct EL as (z & [[-> EL]|[-> EL]]).
    + destruct z as [|y z]; cbn in EL.
      * rewrite app_nil_r in *. apply (IH q _ kr U E2 EN [] x l2). cbn. congruence.
      * injection EL as <- ->. specialize (IHm k [] (l ++ kr) UK eq_refl EK l1 x z eq_refl). rewrite <- app_assoc. exact IHm.
    + apply (IH q _ kr U E2 EN z x l2 EL).
  - apply (IH q (pre ++ [k]) kr U) with (l1 := l1); auto. rewrite <- app_assoc. exact E.
Qed.

(** * nextNode *)
Definition nn (x : nat) : nat -> option (option nat) := fun f => next_node_impl h (set_cur w x) f.
Lemma set_cur_accept : forall x n, accept_node h (set_cur w x) n = accept_node h w n.
Proof. reflexivity. Qed.
Lemma set_cur_parent : forall x f n, parent_impl h (set_cur w x) f n = parent_impl h w f n.
Proof.
  intros x. induction f as [|f IH]; intro n; [reflexivity|]. cbn [parent_impl]. cbn [set_cur tw_root].
  destruct (Nat.eqb n root); [reflexivity|]. destruct (get_parent h n) as [p|]; [|reflexivity].
  rewrite set_cur_accept, IH. reflexivity.
Qed.
Lemma set_cur_next : forall x f, (forall n, next_impl h (set_cur w x) f n = next_impl h w f n) /\ (forall n, first_impl h (set_cur w x) f n = first_impl h w f n).
Proof.
  intros x. induction f as [|f [IH1 IH2]]; [split; reflexivity|]. split; intro n.
  - rewrite !next_eq. cbn [set_cur tw_root]. destruct (Nat.eqb n root); [reflexivity|].
    destruct (n_next (h n)) as [y|].
    + rewrite set_cur_accept, IH1, IH2. reflexivity.
    + destruct (get_parent h n) as [p|]; [|reflexivity]. rewrite set_cur_accept, IH1. reflexivity.
  - cbn [first_impl]. change (closed_ref h (set_cur w x) n) with (closed_ref h w n). destruct (closed_ref h w n); [reflexivity|].
    destruct (first_child h n) as [y|]; [|reflexivity]. rewrite set_cur_accept, IH1, IH2. reflexivity.
Qed.
Lemma set_cur_up : forall x f n, up_impl h (set_cur w x) f n = up_impl h w f n.
Proof.
  intros x. induction f as [|f IH]; intro n; [reflexivity|]. cbn [up_impl]. rewrite set_cur_parent.
  destruct (parent_impl h w f n) as [[p|]|]; [|reflexivity|reflexivity]. rewrite (proj1 (set_cur_next x f)), IH. reflexivity.
Qed.
Lemma nn_eq : forall x f, nn x f =
  match first_impl h w f x with
  | None => None
  | Some (Some y) => Some (Some y)
  | Some None => match next_impl h w f x with None => None | Some (Some y) => Some (Some y) | Some None => up_impl h w f x end
  end.
Proof.
  intros x f. unfold nn, next_node_impl. cbn [set_cur tw_cur]. rewrite (proj2 (set_cur_next x f)), (proj1 (set_cur_next x f)), set_cur_up. reflexivity.
Qed.
Lemma nn_answers : forall x a b c, answers (fst_ x) a -> answers (nxt x) b -> answers (upw x) c ->
  answers (nn x) (match a with Some _ => a | None => match b with Some _ => b | None => c end end).
Proof.
  intros x a b c (fa & A) (fb & B) (fc & C). exists (fa + fb + fc)%nat. intros f L. rewrite nn_eq, A, B, C by lia.
  destruct a; [reflexivity|]. destruct b; reflexivity.
Qed.
Lemma visible_shown : forall ks L, visible h w ks L -> exists l, shown h w ks l /\ hd_error l = hd_error L.
Proof.
  induction 1 as [|k ks m l AC Dm IHm D IH|k ks m l SK Dm IHm D IH|k ks l RJ D IH].
  - exists []. split; constructor.
  - destruct IH as (l' & S & E). exists (k :: l'). split; [constructor; auto|reflexivity].
  - destruct IHm as (m' & Sm & Em), IH as (l' & S & E). exists (m' ++ l'). split; [constructor; auto|]. rewrite !hd_app, Em, E. reflexivity.
  - destruct IH as (l' & S & E). exists l'. split; [constructor; auto|exact E].
Qed.
(** Going up from the children of an accepted node, and of a skipped one. *)
Lemma up_accept : forall k z a u, k <> root -> says_of h w k = Accept -> In z (kids h k) -> z <> root ->
  answers (nxt k) a -> answers (upw k) u -> answers (upw z) (match a with Some _ => a | None => u end).
Proof.
  intros k z a u NK AC I NZ (fa & A) (fu & U). exists (S (S (fa + fu))). intros [|[|f]] L; [lia|lia|]. cbn [up_impl parent_impl].
  apply Nat.eqb_neq in NZ. apply Nat.eqb_neq in NK. unfold says_of in AC. rewrite NZ, (par k z I), NK, AC. cbn [is_accept].
  rewrite A by lia. destruct a; [reflexivity|]. apply (U (S f)). lia.
Qed.
Lemma up_skip : forall k z u, k <> root -> says_of h w k = Skip -> In z (kids h k) -> z <> root -> answers (upw k) u -> answers (upw z) u.
Proof.
  intros k z u NK SK I NZ (fu & U). exists (S (S fu)). intros [|[|f]] L; [lia|lia|].
  assert (NP : parent_impl h w (S f) z = parent_impl h w f k).
  { cbn [parent_impl]. apply Nat.eqb_neq in NZ. apply Nat.eqb_neq in NK. unfold says_of in SK. rewrite NZ, (par k z I), NK, SK. reflexivity. }
  assert (MONO : forall g n r, parent_impl h w g n = Some r -> parent_impl h w (S g) n = Some r).
  { clear. induction g as [|g IH]; intros n r E; [discriminate|]. cbn [parent_impl] in E. change (parent_impl h w (S (S g)) n) with
      (if Nat.eqb n root then Some None else match get_parent h n with None => Some None | Some p => if Nat.eqb p root then Some None
        else if is_accept (accept_node h w p) then Some (Some p) else parent_impl h w (S g) p end).
    destruct (Nat.eqb n root); [exact E|]. destruct (get_parent h n) as [p|]; [|exact E]. destruct (Nat.eqb p root); [exact E|].
    destruct (is_accept (accept_node h w p)); [exact E|]. apply IH, E. }
  assert (U1 := U (S f) ltac:(lia)). assert (U2 := U (S (S f)) ltac:(lia)).
  cbn [up_impl] in U1. rewrite <- U2. cbn [up_impl]. rewrite NP.
  destruct (parent_impl h w f k) as [r|] eqn:P; [|discriminate U1]. rewrite (MONO _ _ _ P). reflexivity.
Qed.
Lemma tour : forall ks L, visible h w ks L -> forall q pre kr u KR, under q -> kids h q = pre ++ ks -> ends q kr ->
  (forall z, In z (kids h q) -> answers (upw z) u) -> hd_error KR = match hd_error kr with Some x => Some x | None => u end ->
  forall L1 x L2, L = L1 ++ x :: L2 -> answers (nn x) (hd_error (L2 ++ KR)).
Proof.
  intros ks L D. induction D as [|k ks m l AC Dm IHm D IH|k ks m l SK Dm IHm D IH|k ks l RJ D IH]; intros q pre kr u KR U E EN UP HK L1 x L2 EL.
  - destruct L1; discriminate.
  - assert (E2 : kids h q = (pre ++ [k]) ++ ks) by (rewrite <- app_assoc; exact E).
    assert (I : In k (kids h q)) by (rewrite E; apply in_elt). destruct (under_kid q k U I) as [UK NK].
    destruct (visible_shown _ _ D) as (l' & S' & H'). destruct (visible_shown _ _ Dm) as (m' & Sm & Hm).
    assert (A := proj1 (walk _ _ S' q _ kr U E2 EN) k pre eq_refl).
    assert (STOP : k = root \/ says_of h w k <> Skip) by (right; rewrite AC; discriminate).
    assert (GO : match hd_error (l' ++ kr) with Some _ => hd_error (l' ++ kr) | None => u end = hd_error (l ++ KR)).
    { rewrite !hd_app, H', HK. destruct (hd_error l); [reflexivity|]. destruct (hd_error kr); reflexivity. }
    destruct L1 as [|y L1]; injection EL as <- EL.
    + subst L2. assert (R := nn_answers k _ _ _ (first_answers k m' UK STOP Sm) A (UP k I)).
      assert (X : match hd_error m' with Some _ => hd_error m' | None => match hd_error (l' ++ kr) with Some _ => hd_error (l' ++ kr) | None => u end end
        = hd_error ((m ++ l) ++ KR)).
      { rewrite GO, Hm, <- app_assoc, (hd_app m). destruct (hd_error m); reflexivity. }
      rewrite X in R. exact R.
    + apply app_eq_app in EL. destruct EL as (z & [[-> EL]|[-> EL]]).
      * destruct z as [|y' z]; cbn in EL.
        -- rewrite app_nil_r in *. apply (IH q _ kr u KR U E2 EN UP HK [] x L2). cbn. congruence.
        -- injection EL as <- ->. rewrite <- app_assoc.
           assert (IK : inner h w k = kids h k).
           { destruct (inner h w k) eqn:IK.
             - inversion Dm. destruct L1; discriminate.
             - rewrite <- IK. unfold inner in *. destruct (tw_expand w); [reflexivity|]. destruct (n_kind (h k)); try reflexivity. discriminate. }
           rewrite IK in IHm.
           apply (IHm k [] [] (hd_error (l ++ KR)) (l ++ KR) UK eq_refl (ends_stop k UK STOP)) with (L1 := L1); auto.
           intros c IC. destruct (under_kid k c UK IC) as [_ NC]. rewrite <- GO. apply (up_accept k c _ _ NK AC IC NC A (UP k I)).
      * apply (IH q _ kr u KR U E2 EN UP HK z x L2 EL).
  - assert (E2 : kids h q = (pre ++ [k]) ++ ks) by (rewrite <- app_assoc; exact E).
    assert (I : In k (kids h q)) by (rewrite E; apply in_elt). destruct (under_kid q k U I) as [UK NK].
    destruct (visible_shown _ _ D) as (l' & S' & H').
    assert (A := proj1 (walk _ _ S' q _ kr U E2 EN) k pre eq_refl).
    assert (EK := ends_skip k (l' ++ kr) UK NK SK A). rewrite (OPEN k SK) in IHm.
    apply app_eq_app in EL. destruct EL as (z & [[-> EL]|[-> EL]]).
    + destruct z as [|y' z]; cbn in EL.
      * rewrite app_nil_r in *. apply (IH q _ kr u KR U E2 EN UP HK [] x L2). cbn. congruence.
      * injection EL as <- ->. rewrite <- app_assoc.
        apply (IHm k [] (l' ++ kr) u (l ++ KR) UK eq_refl EK) with (L1 := L1); auto.
        -- intros c IC. destruct (under_kid k c UK IC) as [_ NC]. apply (up_skip k c u NK SK IC NC (UP k I)).
        -- rewrite !hd_app, H', HK. destruct (hd_error l); [reflexivity|]. destruct (hd_error kr); reflexivity.
    + apply (IH q _ kr u KR U E2 EN UP HK z x L2 EL).
  - apply (IH q (pre ++ [k]) kr u KR U) with (L1 := L1); auto. rewrite <- app_assoc. exact E.
Qed.
(** The whole tour from the root. *)
Lemma next_node_all : forall L, visible h w (inner h w root) L -> forall L1 x L2, root :: L = L1 ++ x :: L2 -> answers (nn x) (hd_error L2).
Proof.
  intros L D L1 x L2 EL.
  assert (UR : under root) by (left; reflexivity).
  assert (UPR : answers (upw root) None).
  { exists 2%nat. intros [|[|f]] LF; [lia|lia|]. cbn. rewrite Nat.eqb_refl. reflexivity. }
  destruct L1 as [|y L1]; injection EL as <- EL.
  - subst L2. destruct (visible_shown _ _ D) as (l' & S' & H').
    assert (NR : answers (nxt root) None) by (apply answers_now; intro f; cbn; rewrite Nat.eqb_refl; reflexivity).
    assert (R := nn_answers root _ _ _ (first_answers root l' UR (or_introl eq_refl) S') NR UPR).
    rewrite H' in R. destruct (hd_error L); exact R.
  - assert (IK : inner h w root = kids h root).
    { destruct (inner h w root) eqn:IK.
      - inversion D; subst L. destruct L1; discriminate.
      - rewrite <- IK. unfold inner in *. destruct (tw_expand w); [reflexivity|]. destruct (n_kind (h root)); try reflexivity. discriminate. }
    rewrite IK in D. rewrite <- (app_nil_r L2).
    apply (tour _ _ D root [] [] None [] UR eq_refl (ends_stop root UR (or_introl eq_refl))) with (L1 := L1); auto.
    intros z IZ. destruct (under_kid root z UR IZ) as [_ NZ]. exists 2%nat. intros [|[|f]] LF; [lia|lia|]. cbn.
    apply Nat.eqb_neq in NZ. rewrite NZ, (par root z IZ), Nat.eqb_refl. reflexivity.
Qed.
Lemma parent_answers : forall n r, closest h w n r -> answers (fun f => parent_impl h w f n) r.
Proof.
  intros n r C. induction C as [|n I|n p NR I NP AC|n p r NR I NP NA C IH].
  - apply answers_now. intro f. cbn. rewrite Nat.eqb_refl. reflexivity.
  - apply answers_now. intro f. cbn. destruct (Nat.eqb n root); [reflexivity|]. rewrite (par root n I), Nat.eqb_refl. reflexivity.
  - apply answers_now. intro f. cbn [parent_impl]. apply Nat.eqb_neq in NR. apply Nat.eqb_neq in NP. unfold says_of in AC.
    rewrite NR, (par p n I), NP, AC. reflexivity.
  - apply answers_step with (g' := fun f => parent_impl h w f p); [|exact IH]. intro f. cbn [parent_impl].
    apply Nat.eqb_neq in NR. apply Nat.eqb_neq in NP. unfold says_of in NA.
    rewrite NR, (par p n I), NP. destruct (accept_node h w p); [congruence| |]; reflexivity.
Qed.
End Walk.

(** * The same tree read from the other end. *)
Definition mirror (h : heap) : heap := fun i => let n := h i in
  Node (n_kind n) (n_parent n) (n_next n) (n_prev n) (rev (n_kids n)) (n_owner n)
  (n_ro n) (n_orphan n) (n_docel n) (n_doctype n) (n_changes n) (n_data n) (n_name n) (n_uri n) (n_local n).
Lemma last_opt_snoc : forall {A} (l : list A) x, last_opt (l ++ [x]) = Some x.
Proof. intros A l x. induction l as [|y [|z l] IH]; [reflexivity|reflexivity|]. cbn in *. exact IH. Qed.
Lemma hd_rev : forall {A} (l : list A), hd_error (rev l) = last_opt l.
Proof. intros A l. destruct l as [|x l] using rev_ind; [reflexivity|]. rewrite rev_app_distr, last_opt_snoc. reflexivity. Qed.
Lemma prev_eq : forall h w f n, prev_impl h w (S f) n =
      if Nat.eqb n (tw_root w) then Some None
      else match n_prev (h n) with
           | None =>
               match get_parent h n with
               | None => Some None
               | Some p => if Nat.eqb p (tw_root w) then Some None
                           else if is_skip (accept_node h w p) then prev_impl h w f p else Some None
               end
           | Some x =>
               match accept_node h w x with
               | Accept => Some (Some x)
               | Skip =>
                   match last_impl h w f x with
                   | None => None
                   | Some None => if has_kids h x then Some None else prev_impl h w f x
                   | Some (Some c) => Some (Some c)
                   end
               | Reject => prev_impl h w f x
               end
           end.
Proof. reflexivity. Qed.
Lemma mirror_moves : forall h w f, (forall n, next_impl (mirror h) w f n = prev_impl h w f n) /\ (forall n, first_impl (mirror h) w f n = last_impl h w f n).
Proof.
  intros h w. assert (HK : forall n, has_kids (mirror h) n = has_kids h n).
  { intro n. unfold has_kids, mirror. cbn [n_kids]. destruct (n_kids (h n)) as [|x l]; [reflexivity|]. cbn. destruct (rev l); reflexivity. }
  induction f as [|f [IH1 IH2]]; [split; reflexivity|]. split; intro n.
  - rewrite next_eq, prev_eq. change (n_next (mirror h n)) with (n_prev (h n)). change (get_parent (mirror h) n) with (get_parent h n).
    destruct (Nat.eqb n (tw_root w)); [reflexivity|]. destruct (n_prev (h n)) as [x|].
    + change (accept_node (mirror h) w x) with (accept_node h w x). rewrite IH1, IH2, HK. reflexivity.
    + destruct (get_parent h n) as [p|]; [|reflexivity]. change (accept_node (mirror h) w p) with (accept_node h w p). rewrite IH1. reflexivity.
  - cbn [first_impl last_impl]. change (closed_ref (mirror h) w n) with (closed_ref h w n). unfold first_child, last_child. change (n_kids (mirror h n)) with (rev (n_kids (h n))).
    rewrite hd_rev. destruct (closed_ref h w n); [reflexivity|]. destruct (last_opt (n_kids (h n))) as [x|]; [|reflexivity].
    change (accept_node (mirror h) w x) with (accept_node h w x). rewrite IH1, IH2, HK. reflexivity.
Qed.
Lemma mirror_kids : forall h p, kids (mirror h) p = rev (kids h p).
Proof. reflexivity. Qed.
Lemma mirror_above : forall h p c, above (mirror h) p c <-> above h p c.
Proof.
  intros h p c. split; induction 1 as [p c I|p c d I A IH].
  - constructor. rewrite mirror_kids, <- in_rev in I. exact I.
  - apply above_trans with c; [|exact IH]. rewrite mirror_kids, <- in_rev in I. exact I.
  - constructor. rewrite mirror_kids, <- in_rev. exact I.
  - apply above_trans with c; [|exact IH]. rewrite mirror_kids, <- in_rev. exact I.
Qed.
Lemma rev_swap : forall {A} (a b : list A), rev a = b -> a = rev b.
Proof. intros A a b <-. symmetry. apply rev_involutive. Qed.
Lemma mirror_tree : forall h, tree_ok h -> tree_ok (mirror h).
Proof.
  intros h ((ND & P) & (S1 & S2 & S3 & S4) & AC). split; [|split].
  - split; [intro p; apply NoDup_rev, ND|]. intros p c. rewrite mirror_kids, <- in_rev. apply P.
  - split; [|split; [|split]].
    + intros p x l E. apply rev_swap in E. cbn in E. apply (S2 _ _ _ E).
    + intros p l x E. apply rev_swap in E. rewrite rev_app_distr in E. apply (S1 _ _ _ E).
    + intros p l x y m E. apply rev_swap in E. rewrite rev_app_distr in E. cbn in E. rewrite <- !app_assoc in E. cbn in E.
      destruct (S3 _ _ _ _ _ E). split; assumption.
    + intros c E. destruct (S4 c E). split; assumption.
  - intros n A. apply (AC n), mirror_above, A.
Qed.
Lemma mirror_inner : forall h w n, inner (mirror h) w n = rev (inner h w n).
Proof. intros h w n. unfold inner. change (n_kind (mirror h n)) with (n_kind (h n)). rewrite mirror_kids. destruct (tw_expand w); [reflexivity|]. destruct (n_kind (h n)); reflexivity. Qed.
Lemma shown_join : forall h w a la b lb, shown h w a la -> shown h w b lb -> shown h w (a ++ b) (la ++ lb).
Proof.
  intros h w a la b lb A B. induction A as [|k ks l AC D IH|k ks m l SK Dm IHm D IH|k ks l RJ D IH]; cbn; auto.
  - constructor; auto.
  - rewrite <- app_assoc. constructor; auto.
  - constructor 4; auto.
Qed.
Lemma mirror_shown : forall h w ks l, shown h w ks l -> shown (mirror h) w (rev ks) (rev l).
Proof.
  intros h w ks l D. induction D as [|k ks l AC D IH|k ks m l SK Dm IHm D IH|k ks l RJ D IH].
  - constructor.
  - cbn. apply shown_join; [exact IH|]. constructor; [exact AC|constructor].
  - cbn. rewrite rev_app_distr. apply shown_join; [exact IH|]. rewrite <- (app_nil_r (rev m)). constructor; [exact SK| |constructor].
    rewrite mirror_inner. exact IHm.
  - cbn. rewrite <- (app_nil_r (rev l)). apply shown_join; [exact IH|]. constructor 4; [exact RJ|constructor].
Qed.
Lemma mirror_open : forall h w, refs_open h w -> refs_open (mirror h) w.
Proof. intros h w H n S. rewrite mirror_inner, mirror_kids. f_equal. apply H, S. Qed.
Lemma answers_ext : forall g g' r, (forall f, g f = g' f) -> answers g r -> answers g' r.
Proof. intros g g' r E (f0 & H). exists f0. intros f L. rewrite <- E. apply H, L. Qed.
Lemma mirror_under : forall h w q, under h w q -> under (mirror h) w q.
Proof. intros h w q [->|A]; [left; reflexivity|right; apply mirror_above, A]. Qed.

Section Both.
Context (h : heap) (w : walker) (T : tree_ok h) (OPEN : refs_open h w).
Lemma last_answers : forall q l, under h w q -> q = tw_root w \/ says_of h w q <> Skip -> shown h w (inner h w q) l ->
  answers (fun f => last_impl h w f q) (last_opt l).
Proof.
  intros q l U ST D. apply mirror_shown in D. rewrite <- mirror_inner in D. rewrite <- hd_rev.
  apply (answers_ext (fun f => first_impl (mirror h) w f q)); [intro f; apply mirror_moves|].
  apply first_answers; [apply mirror_tree, T|apply mirror_open, OPEN|apply mirror_under, U|exact ST|exact D].
Qed.
Lemma next_sibling_answers : forall q l1 x l2, under h w q -> q = tw_root w \/ says_of h w q <> Skip ->
  shown h w (inner h w q) (l1 ++ x :: l2) -> answers (fun f => next_impl h w f x) (hd_error l2).
Proof.
  intros q l1 x l2 U ST D. rewrite <- (app_nil_r l2). assert (IK : inner h w q = kids h q).
  { destruct (inner h w q) eqn:IK; [inversion D; destruct l1; discriminate|]. rewrite <- IK.
    unfold inner in *. destruct (tw_expand w); [reflexivity|]. destruct (n_kind (h q)); try reflexivity. discriminate. }
  rewrite IK in D. apply (siblings h w T OPEN _ _ D q [] [] U) with (l1 := l1); auto. apply ends_stop; auto.
Qed.
End Both.
Lemma prev_sibling_answers : forall h w, tree_ok h -> refs_open h w -> forall q l1 x l2, under h w q -> q = tw_root w \/ says_of h w q <> Skip ->
  shown h w (inner h w q) (l1 ++ x :: l2) -> answers (fun f => prev_impl h w f x) (last_opt l1).
Proof.
  intros h w T OPEN q l1 x l2 U ST D. apply mirror_shown in D. rewrite <- mirror_inner in D. rewrite <- hd_rev.
  rewrite rev_app_distr in D. cbn in D. rewrite <- app_assoc in D.
  apply (answers_ext (fun f => next_impl (mirror h) w f x)); [intro f; apply mirror_moves|].
  apply (next_sibling_answers (mirror h) w (mirror_tree h T) (mirror_open h w OPEN) q (rev l2) x (rev l1) (mirror_under h w q U) ST D).
Qed.
(** previousNode: the sibling before and its last child, or nothing. *)
Lemma visible_under : forall h w, tree_ok h -> forall ks L, visible h w ks L -> forall q, under h w q -> (forall k, In k ks -> In k (kids h q)) ->
  forall x, In x L -> under h w x /\ says_of h w x = Accept.
Proof.
  intros h w T ks L D. 
  assert (IN : forall k c, In c (inner h w k) -> In c (kids h k)).
  { intros k c. unfold inner. destruct (tw_expand w); [auto|]. destruct (n_kind (h k)); auto. intros []. }
  induction D as [|k ks m l AC Dm IHm D IH|k ks m l SK Dm IHm D IH|k ks l RJ D IH]; intros q U I x X.
  - destruct X.
  - destruct (under_kid h w T q k U (I k (or_introl eq_refl))) as [UK _]. destruct X as [<-|X]; [auto|]. apply in_app_iff in X. destruct X as [X|X].
    + apply (IHm k UK); auto.
    + apply (IH q U); auto. intros c C. apply I. right. exact C.
  - destruct (under_kid h w T q k U (I k (or_introl eq_refl))) as [UK _]. apply in_app_iff in X. destruct X as [X|X].
    + apply (IHm k UK); auto.
    + apply (IH q U); auto. intros c C. apply I. right. exact C.
  - apply (IH q U); auto. intros c C. apply I. right. exact C.
Qed.
Lemma stands_ok : forall h w, tree_ok h -> forall x, stands h w x -> under h w x /\ (x = tw_root w \/ says_of h w x <> Skip).
Proof.
  intros h w T x [->|(L & D & I)]; [split; left; reflexivity|].
  destruct (visible_under h w T _ _ D (tw_root w)) with (x := x) as [A B]; auto.
  - left. reflexivity.
  - intro c. unfold inner. destruct (tw_expand w); [auto|]. destruct (n_kind (h (tw_root w))); auto. intros [].
  - split; [exact A|]. right. rewrite B. discriminate.
Qed.
(** The view exists and is one. *)
Lemma visible_fun : forall h w ks L1, visible h w ks L1 -> forall L2, visible h w ks L2 -> L1 = L2.
Proof.
  intros h w ks L1 D. induction D as [|k ks m l AC Dm IHm D IH|k ks m l SK Dm IHm D IH|k ks l RJ D IH]; intros L2 D2; inversion D2; subst; try congruence.
  - f_equal. f_equal; [apply IHm|apply IH]; assumption.
  - f_equal; [apply IHm|apply IH]; assumption.
  - apply IH; assumption.
Qed.
Lemma visible_total : forall h w n, finite_below h n -> exists L, visible h w (inner h w n) L.
Proof.
  intros h w n F. induction F as [n F IH].
  assert (IN : forall c, In c (inner h w n) -> In c (kids h n)).
  { intro c. unfold inner. destruct (tw_expand w); [auto|]. destruct (n_kind (h n)); auto. intros []. }
  assert (A : forall c, In c (inner h w n) -> exists L, visible h w (inner h w c) L) by auto. clear IN IH F.
  induction (inner h w n) as [|k ks IHks]; [exists []; constructor|].
  destruct IHks as (l & D); [intros c C; apply A; right; exact C|]. destruct (A k (or_introl eq_refl)) as (m & Dm).
  destruct (says_of h w k) eqn:V; eexists; [constructor 2|constructor 4|constructor 3]; eauto.
Qed.
Lemma shown_total : forall h w n, finite_below h n -> exists l, shown h w (inner h w n) l.
Proof. intros h w n F. destruct (visible_total h w n F) as (L & D). destruct (visible_shown h w _ _ D) as (l & S & _). eauto. Qed.
(** Many calls of nextNode. *)
Lemma nn_uniform : forall h w L, (forall L1 x L2, tw_root w :: L = L1 ++ x :: L2 -> answers (nn h w x) (hd_error L2)) ->
  exists f0, forall f, (f0 <= f)%nat -> forall L1 x L2, tw_root w :: L = L1 ++ x :: L2 -> nn h w x f = Some (hd_error L2).
Proof.
  intros h w L. generalize (tw_root w :: L) as M. clear L.
  assert (G : forall M, (forall L1 x L2, M = L1 ++ x :: L2 -> answers (nn h w x) (hd_error L2)) ->
    exists f0, forall f, (f0 <= f)%nat -> forall L1 x L2, M = L1 ++ x :: L2 -> nn h w x f = Some (hd_error L2)).
  { induction M as [|y M IH]; intros H; [exists 0%nat; intros f _ [|? ?] x L2 E; discriminate|].
    destruct IH as (f1 & H1). { intros L1 x L2 E. apply (H (y :: L1) x L2). rewrite E. reflexivity. }
    destruct (H [] y M eq_refl) as (f2 & H2). exists (f1 + f2)%nat. intros f LE L1 x L2 E. destruct L1 as [|z L1]; injection E as <- E.
    - subst L2. apply H2. lia.
    - apply (H1 f ltac:(lia) L1 x L2 E). }
  intros M H. destruct (G M H) as (f0 & H0). exists f0. intros f LE L1 x L2 E. apply (H0 f LE L1 x L2 E).
Qed.
Lemma tour_runs : forall h w, tree_ok h -> refs_open h w -> forall L, visible h w (inner h w (tw_root w)) L ->
  exists f0, forall f, (f0 <= f)%nat -> forall k, tw_run h f (set_cur w (tw_root w)) (repeat TwNextNode (length L + k)) =
    Some (set_cur w (last L (tw_root w)), map Some L ++ repeat None k).
Proof.
  intros h w T OPEN L D. destruct (nn_uniform h w L (next_node_all h w T OPEN L D)) as (f0 & H). exists f0. intros f LE k. specialize (H f LE).
  assert (G : forall L2 L1 x, tw_root w :: L = L1 ++ x :: L2 -> tw_run h f (set_cur w x) (repeat TwNextNode (length L2 + k)) = Some (set_cur w (last L2 x), map Some L2 ++ repeat None k)).
  { induction L2 as [|y L2 IH]; intros L1 x E; assert (HX := H _ _ _ E); unfold nn in HX.
    - cbn [length Nat.add map List.app last]. clear E. induction k as [|k IHk]; [reflexivity|]. cbn [repeat tw_run]. unfold tw_do, tw_move. rewrite HX. cbn [hd_error]. rewrite IHk. reflexivity.
    - cbn [length Nat.add repeat tw_run]. unfold tw_do, tw_move. rewrite HX. cbn [hd_error]. change (set_cur (set_cur w x) y) with (set_cur w y).
      rewrite (IH (L1 ++ [x]) y) by (rewrite <- app_assoc; exact E).
      change (last (y :: L2) x) with (match L2 with [] => y | _ => last L2 x end).
      replace (last L2 y) with (match L2 with [] => y | _ => last L2 x end); [reflexivity|].
      destruct L2 as [|z L2]; [reflexivity|]. clear. revert z. induction L2 as [|a L2 IH]; intro z; [reflexivity|]. apply (IH a). }
  apply (G L [] (tw_root w) eq_refl).
Qed.

(** * No node is visited twice. *)
Definition at_below (h : heap) (k x : nat) : Prop := x = k \/ above h k x.
Lemma above_tail : forall h p c d, above h p c -> In d (kids h c) -> above h p d.
Proof. intros h p c d A I. induction A as [p c J|p c e J A IH]; [apply above_trans with c; [exact J|constructor; exact I]|apply above_trans with c; auto]. Qed.
Lemma above_up : forall h, tree_ok h -> forall a x q, above h a x -> In x (kids h q) -> at_below h a q.
Proof.
  intros h T a x q A. revert q. induction A as [p c J|p c d J A IH]; intros q I.
  - left. pose proof (par h T p c J). pose proof (par h T q c I). congruence.
  - destruct (IH q I) as [->|B]; right; [constructor; exact J|apply above_trans with c; assumption].
Qed.
Lemma at_below_line : forall h, tree_ok h -> forall a x, at_below h a x -> forall b, at_below h b x -> at_below h a b \/ at_below h b a.
Proof.
  intros h T a x [->|A] b B; [right; exact B|]. revert b B.
  assert (G : forall y, above h a y -> forall b, at_below h b y -> at_below h a b \/ at_below h b a).
  { intros y A'. assert (X : exists q, at_below h a q /\ In y (kids h q)).
    { clear -A'. induction A' as [p c J|p c d J A' (q & Q1 & Q2)]; [exists p; split; [left; reflexivity|exact J]|]. exists q. split; [|exact Q2].
      destruct Q1 as [->|Q1]; right; [constructor; exact J|apply above_trans with c; assumption]. }
    clear X. intros b [->|B]; [left; right; exact A'|].
    clear A. revert a A'. induction B as [p c J|p c d J B IH]; intros a A'.
    - destruct (above_up h T a c p A' J) as [->|Q]; [right; left; reflexivity|left; right; exact Q].
    - destruct (IH a A') as [[->|X]|[->|X]].
      + right. right. constructor. exact J.
      + destruct (above_up h T a c p X J) as [->|Q]; [right; left; reflexivity|left; right; exact Q].
      + right. right. constructor. exact J.
      + right. right. apply above_trans with c; assumption. }
  intros b B. apply (G x A b B).
Qed.
Lemma apart : forall h, tree_ok h -> forall q k k' x, In k (kids h q) -> In k' (kids h q) -> k <> k' -> at_below h k x -> at_below h k' x -> False.
Proof.
  intros h T q k k' x I I' N A B.
  assert (G : forall a b, In a (kids h q) -> In b (kids h q) -> above h a b -> False).
  { intros a b Ia Ib X. apply (proj2 (proj2 T) a). destruct (above_up h T a b q X Ib) as [->|Q]; [constructor; exact Ia|apply above_tail with q; assumption]. }
  destruct (at_below_line h T k x A k' B) as [[E|X]|[E|X]]; [congruence|apply (G k k'); auto|congruence|apply (G k' k); auto].
Qed.
Lemma visible_below : forall h w ks L, visible h w ks L -> forall x, In x L -> exists k, In k ks /\ at_below h k x.
Proof.
  intros h w ks L D.
  assert (IN : forall k c, In c (inner h w k) -> In c (kids h k)).
  { intros k c. unfold inner. destruct (tw_expand w); [auto|]. destruct (n_kind (h k)); auto. intros []. }
  assert (GO : forall k m, (forall x, In x m -> exists c, In c (inner h w k) /\ at_below h c x) -> forall x, In x m -> above h k x).
  { intros k m H x X. destruct (H x X) as (c & C & [->|A]); [constructor; auto|apply above_trans with c; auto]. }
  induction D as [|k ks m l AC Dm IHm D IH|k ks m l SK Dm IHm D IH|k ks l RJ D IH]; intros x X.
  - destruct X.
  - destruct X as [<-|X]; [exists k; split; [left; reflexivity|left; reflexivity]|]. apply in_app_iff in X. destruct X as [X|X].
    + exists k. split; [left; reflexivity|right; apply (GO k m IHm x X)].
    + destruct (IH x X) as (k' & K & A). exists k'. split; [right; exact K|exact A].
  - apply in_app_iff in X. destruct X as [X|X].
    + exists k. split; [left; reflexivity|right; apply (GO k m IHm x X)].
    + destruct (IH x X) as (k' & K & A). exists k'. split; [right; exact K|exact A].
  - destruct (IH x X) as (k' & K & A). exists k'. split; [right; exact K|exact A].
Qed.
Lemma nodup_join : forall {A} (a b : list A), NoDup a -> NoDup b -> (forall x, In x a -> ~ In x b) -> NoDup (a ++ b).
Proof.
  intros A a b Na Nb D. induction Na as [|x a X Na IH]; [exact Nb|]. cbn. constructor.
  - rewrite in_app_iff. intros [Y|Y]; [auto|]. apply (D x); [left; reflexivity|exact Y].
  - apply IH. intros y Y. apply D. right. exact Y.
Qed.
Lemma visible_once : forall h w, tree_ok h -> forall ks L, visible h w ks L -> forall q, NoDup ks -> (forall k, In k ks -> In k (kids h q)) -> NoDup L.
Proof.
  intros h w T ks L D.
  assert (IN : forall k c, In c (inner h w k) -> In c (kids h k)).
  { intros k c. unfold inner. destruct (tw_expand w); [auto|]. destruct (n_kind (h k)); auto. intros []. }
  assert (ND : forall k, NoDup (inner h w k)).
  { intro k. unfold inner. destruct (tw_expand w); [apply T|]. destruct (n_kind (h k)); try apply T. constructor. }
  assert (GO : forall k m, visible h w (inner h w k) m -> forall x, In x m -> above h k x).
  { intros k m H x X. destruct (visible_below h w _ _ H x X) as (c & C & [->|A]); [constructor; auto|apply above_trans with c; auto]. }
  induction D as [|k ks m l AC Dm IHm D IH|k ks m l SK Dm IHm D IH|k ks l RJ D IH]; intros q N I.
  - constructor.
  - inversion N as [|? ? NK NS]; subst.
    assert (SEP : forall x, at_below h k x -> ~ In x l).
    { intros x A X. destruct (visible_below h w _ _ D x X) as (k' & K' & A'). apply (apart h T q k k' x); auto.
      - apply I. left. reflexivity.
      - apply I. right. exact K'.
      - intros ->. contradiction. }
    constructor.
    + rewrite in_app_iff. intros [X|X]; [apply (proj2 (proj2 T) k), (GO k m Dm k X)|apply (SEP k); [left; reflexivity|exact X]].
    + apply nodup_join; [apply (IHm k); auto|apply (IH q); auto; intros c C; apply I; right; exact C|].
      intros x X. apply SEP. right. apply (GO k m Dm x X).
  - inversion N as [|? ? NK NS]; subst.
    apply nodup_join; [apply (IHm k); auto|apply (IH q); auto; intros c C; apply I; right; exact C|].
    intros x X Y. destruct (visible_below h w _ _ D x Y) as (k' & K' & A'). apply (apart h T q k k' x); auto.
    + apply I. left. reflexivity.
    + apply I. right. exact K'.
    + intros ->. contradiction.
    + right. apply (GO k m Dm x X).
  - inversion N; subst. apply (IH q); auto. intros c C. apply I. right. exact C.
Qed.
Lemma tour_once : forall h w, tree_ok h -> forall L, visible h w (inner h w (tw_root w)) L -> NoDup (tw_root w :: L).
Proof.
  intros h w T L D. assert (IN : forall c, In c (inner h w (tw_root w)) -> In c (kids h (tw_root w))).
  { intros c. unfold inner. destruct (tw_expand w); [auto|]. destruct (n_kind (h (tw_root w))); auto. intros []. }
  constructor.
  - intro X. destruct (visible_below h w _ _ D _ X) as (c & C & [E|A]); apply (proj2 (proj2 T) (tw_root w)); [apply above_child, IN; rewrite <- E in C; exact C|].
    apply above_trans with c; auto.
  - apply (visible_once h w T _ _ D (tw_root w)); [|exact IN]. unfold inner. destruct (tw_expand w); [apply T|]. destruct (n_kind (h (tw_root w))); try apply T. constructor.
Qed.

Lemma bit_mask x i : 0 <= i -> (Z.land x (2 ^ i) = 0 <-> Z.testbit x i = false).
Proof.
  intro I. split.
  - intro E. pose proof (f_equal (fun z => Z.testbit z i) E) as T. cbn beta in T.
    rewrite Z.land_spec, Z.pow2_bits_true, Z.bits_0, Bool.andb_true_r in T by exact I. exact T.
  - intro E. apply Z.bits_inj'. intros j J. rewrite Z.land_spec, Z.bits_0.
    destruct (Z.eq_dec i j) as [<-|N]; [rewrite E; reflexivity|].
    rewrite Z.pow2_bits_false by exact N. apply Bool.andb_false_r.
Qed.
Lemma shown_kinds h w n :
  (Z.land (tw_show w) (show_constant (n_kind (h n))) = 0 -> accept_node h w n = Skip) /\
  (Z.land (tw_show w) (show_constant (n_kind (h n))) <> 0 ->
   accept_node h w n = match tw_filter w with Some f => f n | None => Accept end).
Proof.
  assert (E : show_constant (n_kind (h n)) = 2 ^ (node_type (n_kind (h n)) - 1)) by (destruct (n_kind (h n)); reflexivity).
  assert (I : 0 <= node_type (n_kind (h n)) - 1) by (destruct (n_kind (h n)); cbn; lia).
  rewrite E. pose proof (bit_mask (tw_show w) _ I) as B. unfold accept_node.
  destruct (Z.testbit (tw_show w) (node_type (n_kind (h n)) - 1)); split; intro H; try reflexivity.
  - apply B in H. discriminate.
  - exfalso. apply H, B. reflexivity.
Qed.
