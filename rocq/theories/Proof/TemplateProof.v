From Coq Require Import Sorted Permutation SpecFloat.
From Verif.Model Require Import Base XNode XNumber Precedence Template.
From Verif.Spec Require Import PrecedenceSpec TemplateSpec.
From Verif.Proof Require Import ContainersProof XCompareProof PrecedenceProof.

(** * Sorting *)
Section Sort.
  Context {A : Type} (less : A -> A -> bool) (ok : A -> Prop).
  Hypothesis ASYM : forall x y, ok x -> ok y -> less x y = true -> less y x = false.
  Hypothesis TRANS : forall x y z, ok x -> ok y -> ok z -> less y x = false -> less z y = false -> less z x = false.
  Definition ordered (l : list A) : Prop := StronglySorted (fun x y => less y x = false) l.
  Lemma insert_perm : forall x l, Permutation (x :: l) (insert_by less x l).
  Proof. intros x l. induction l as [|y l IH]; [reflexivity|]. cbn [insert_by]. destruct (less y x); [|reflexivity]. rewrite perm_swap. constructor. exact IH. Qed.
  Lemma sort_perm : forall l, Permutation l (sort_by less l).
  Proof. induction l as [|x l IH]; [constructor|]. cbn [sort_by]. rewrite <- insert_perm. constructor. exact IH. Qed.
  Lemma insert_split : forall x s, ok x -> Forall ok s -> ordered s -> exists s1 s2, s = s1 ++ s2 /\ insert_by less x s = s1 ++ x :: s2 /\ (forall y, In y s1 -> less y x = true) /\ (forall y, In y s2 -> less y x = false).
  Proof.
    intros x s OX OS H. induction H as [|y s H IH F]; [exists [], []; repeat split; contradiction|]. inversion OS as [|? ? OY OS']; subst. cbn [insert_by]. destruct (less y x) eqn:E.
    - destruct (IH OS') as (s1 & s2 & -> & -> & A1 & A2). exists (y :: s1), s2. repeat split; auto. intros z [<-|Z]; auto.
    - exists [], (y :: s). repeat split; [contradiction|]. intros z [<-|Z]; [exact E|]. rewrite Forall_forall in F, OS'. exact (TRANS x y z OX OY (OS' z Z) E (F z Z)).
  Qed.
  Lemma insert_ordered : forall x s, ok x -> Forall ok s -> ordered s -> ordered (insert_by less x s).
  Proof.
    intros x s OX OS H. induction H as [|y s H IH F]; [repeat constructor|]. inversion OS as [|? ? OY OS']; subst. cbn [insert_by]. destruct (less y x) eqn:E.
    - constructor; [exact (IH OS')|]. apply Forall_forall. intros z Z. apply (Permutation_in _ (Permutation_sym (insert_perm x s))) in Z. destruct Z as [<-|Z]; [apply ASYM; assumption|]. rewrite Forall_forall in F. exact (F z Z).
    - constructor; [constructor; assumption|]. constructor; [exact E|]. rewrite Forall_forall in F, OS'. apply Forall_forall. intros z Z. exact (TRANS x y z OX OY (OS' z Z) E (F z Z)).
  Qed.
  Lemma sort_ok : forall l, Forall ok l -> Forall ok (sort_by less l).
  Proof. intros l H. rewrite Forall_forall in *. intros x X. apply H. apply (Permutation_in _ (Permutation_sym (sort_perm l))). exact X. Qed.
  Lemma sort_ordered : forall l, Forall ok l -> ordered (sort_by less l).
  Proof. intros l H. induction H as [|x l O H IH]; [constructor|]. cbn [sort_by]. apply insert_ordered; [exact O|exact (sort_ok l H)|exact IH]. Qed.
  (** What is found first in the sorted list. *)
  Lemma find_app : forall f (l m : list A), find f (l ++ m) = match find f l with Some x => Some x | None => find f m end.
  Proof. intros f l m. induction l as [|x l IH]; [reflexivity|]. cbn [app find]. destruct (f x); [reflexivity|exact IH]. Qed.
  Lemma find_sorted : forall f l, Forall ok l -> match find f (sort_by less l) with
    | Some r => exists a b, l = a ++ r :: b /\ f r = true /\ (forall y, In y a -> f y = true -> less r y = true) /\ (forall y, In y b -> f y = true -> less y r = false)
    | None => forall y, In y l -> f y = false
    end.
  Proof.
    intros f l H. induction H as [|x l O H IH]; [intros y []|]. cbn [sort_by].
    destruct (insert_split x (sort_by less l) O (sort_ok l H) (sort_ordered l H)) as (s1 & s2 & E & -> & A1 & A2). rewrite E, find_app in IH. rewrite find_app. destruct (find f s1) as [r|] eqn:F1.
    - destruct IH as (a & b & -> & FR & B1 & B2). exists (x :: a), b. repeat split; auto. intros y [<-|Y] FY; [|exact (B1 y Y FY)]. apply A1. apply find_some in F1. apply F1.
    - cbn [find]. destruct (f x) eqn:FX.
      + exists [], l. split; [reflexivity|]. split; [exact FX|]. split; [intros y []|]. intros y Y FY. apply (Permutation_in _ (sort_perm l)) in Y. rewrite E in Y. apply in_app_iff in Y. destruct Y as [Y|Y]; [|exact (A2 y Y)]. rewrite (find_none f s1 F1 y Y) in FY. discriminate.
      + destruct (find f s2) as [r|] eqn:F2.
        * destruct IH as (a & b & -> & FR & B1 & B2). exists (x :: a), b. repeat split; auto. intros y [<-|Y] FY; [congruence|exact (B1 y Y FY)].
        * intros y [<-|Y]; [exact FX|exact (IH y Y)].
  Qed.
End Sort.

(** * Maps *)
Section Map.
  Context {K V : Type} (eqb : K -> K -> bool) (EQ : forall a b, eqb a b = true <-> a = b).
  Lemma assoc_update : forall k k' f (m : list (K * V)), assoc eqb k (update eqb k' f m) = if eqb k k' then Some (f (assoc eqb k' m)) else assoc eqb k m.
  Proof.
    intros k k' f m. induction m as [|(k1, v) m IH]; [reflexivity|]. cbn [update assoc]. destruct (eqb k' k1) eqn:E.
    - apply EQ in E. subst k1. cbn [assoc]. destruct (eqb k k'); reflexivity.
    - cbn [assoc]. rewrite IH. destruct (eqb k k1) eqn:E1; [|reflexivity]. destruct (eqb k k') eqn:E2; [|reflexivity]. apply EQ in E1. apply EQ in E2. subst k1 k'. rewrite (proj2 (EQ k k) eq_refl) in E. discriminate.
  Qed.
  Lemma keys_update : forall k k' f (m : list (K * V)), In k (map fst (update eqb k' f m)) <-> k = k' \/ In k (map fst m).
  Proof.
    intros k k' f m. induction m as [|(k1, v) m IH]; [cbn; intuition|]. cbn [update]. destruct (eqb k' k1) eqn:E; cbn [map fst In].
    - apply EQ in E. subst k1. intuition.
    - rewrite IH. intuition.
  Qed.
  Lemma assoc_in : forall k (m : list (K * V)) v, assoc eqb k m = Some v -> In (k, v) m.
  Proof. intros k m v. induction m as [|(k1, v1) m IH]; [discriminate|]. cbn [assoc]. destruct (eqb k k1) eqn:E; [apply EQ in E; subst; intros H; injection H as ->; left; reflexivity|intros H; right; exact (IH H)]. Qed.
  Lemma assoc_keys : forall k (m : list (K * V)), In k (map fst m) -> exists v, assoc eqb k m = Some v.
  Proof. intros k m. induction m as [|(k1, v1) m IH]; [intros []|]. cbn [map fst In assoc]. destruct (eqb k k1) eqn:E; [eauto|]. intros [->|H]; [rewrite (proj2 (EQ k k) eq_refl) in E; discriminate|exact (IH H)]. Qed.
  Lemma assoc_map : forall {W} (g : V -> W) k (m : list (K * V)), assoc eqb k (map (fun x => (fst x, g (snd x))) m) = option_map g (assoc eqb k m).
  Proof. intros W g k m. induction m as [|(k1, v1) m IH]; [reflexivity|]. cbn [map fst snd assoc]. destruct (eqb k k1); [reflexivity|exact IH]. Qed.
  Lemma nodup_update : forall k f (m : list (K * V)), NoDup (map fst m) -> NoDup (map fst (update eqb k f m)).
  Proof.
    intros k f m. induction m as [|(k1, v) m IH]; intros N; [cbn; constructor; [intros []|constructor]|]. cbn [update]. inversion N as [|? ? N1 N2]; subst. destruct (eqb k k1) eqn:E; cbn [map fst]; [constructor; assumption|]. constructor; [|exact (IH N2)]. rewrite keys_update. intros [->|H]; [|exact (N1 H)]. rewrite (proj2 (EQ k k) eq_refl) in E. discriminate.
  Qed.
End Map.
Lemma str_eqb_ok : forall a b, str_eqb a b = true <-> a = b.
Proof. intros a b. split; [apply str_eqb_true|intros ->]. destruct (str_eqb b b) eqn:E; [reflexivity|]. apply str_eqb_false in E. congruence. Qed.

(** * What is in the maps *)
Definition get (p : precedence) (m : str) (rs : list (precedence * mode_templates)) : list match_template := or_empty (assoc str_eqb m (or_empty (assoc prec_eq p rs))).
Lemma get_push : forall p m p' t rs q, get p m (push_rule p' t rs q) = get p m rs ++ (if prec_eq p p' && str_eqb m (tm_mode t) then [(q, t)] else []).
Proof.
  intros p m p' t rs q. unfold get, push_rule. rewrite (assoc_update _ prec_eq_ok). destruct (prec_eq p p') eqn:E; cbn [andb]; [|rewrite app_nil_r; reflexivity]. apply prec_eq_ok in E. subst p'. cbn [or_empty].
  rewrite (assoc_update _ str_eqb_ok). destruct (str_eqb m (tm_mode t)) eqn:F; [|rewrite app_nil_r; reflexivity]. apply str_eqb_ok in F. subst m. reflexivity.
Qed.
Definition own_rules (t : template) : list match_template := map (fun q => (q, t)) (tm_patterns t).
Lemma get_pushes : forall qs p m p' t rs, get p m (fold_left (push_rule p' t) qs rs) = get p m rs ++ (if prec_eq p p' && str_eqb m (tm_mode t) then map (fun q => (q, t)) qs else []).
Proof.
  induction qs as [|q qs IH]; intros p m p' t rs; cbn [fold_left map]; [destruct (_ && _); rewrite app_nil_r; reflexivity|]. rewrite IH, get_push, <- app_assoc. destruct (_ && _); reflexivity.
Qed.
Lemma keys_pushes : forall qs p p' t rs, In p (map fst (fold_left (push_rule p' t) qs rs)) <-> In p (map fst rs) \/ (p = p' /\ qs <> []).
Proof.
  induction qs as [|q qs IH]; intros p p' t rs; cbn [fold_left].
  - split; [auto|intros [H|(_ & H)]; [exact H|congruence]].
  - rewrite IH. unfold push_rule. rewrite (keys_update _ prec_eq_ok). split.
    + intros [[->|H]|(-> & _)]; [right; split; [reflexivity|discriminate]|left; exact H|right; split; [reflexivity|discriminate]].
    + intros [H|(-> & _)]; auto.
Qed.
Lemma nodup_pushes : forall qs p' t rs, NoDup (map fst rs) -> NoDup (map fst (fold_left (push_rule p' t) qs rs)).
Proof. induction qs as [|q qs IH]; intros p' t rs N; cbn [fold_left]; [exact N|]. apply IH. apply (nodup_update _ prec_eq_ok). exact N. Qed.
Definition entries (p : precedence) (m : str) (out : list (template * precedence)) : list match_template :=
  concat (map (fun tp => if prec_eq p (snd tp) && str_eqb m (tm_mode (fst tp)) then own_rules (fst tp) else []) out).
Lemma add_rules : forall c tp c', add_template c tp = Some c' -> c_rules c' = fold_left (push_rule (snd tp) (fst tp)) (tm_patterns (fst tp)) (c_rules c).
Proof.
  intros c (t, p) c' E. unfold add_template in E. cbn [fst snd]. destruct (tm_name t) as [|n name]; [injection E as <-; reflexivity|]. destruct (assoc str_eqb (n :: name) (c_named c)) as [(t', e)|]; [|injection E as <-; reflexivity].
  destruct (prec_gt e p); [injection E as <-; reflexivity|]. destruct (prec_eq e p); [discriminate|injection E as <-; reflexivity].
Qed.
Lemma adds_rules : forall out c c', add_templates c out = Some c' -> NoDup (map fst (c_rules c)) -> NoDup (map fst (c_rules c')) /\
  (forall p m, get p m (c_rules c') = get p m (c_rules c) ++ entries p m out) /\
  (forall p, In p (map fst (c_rules c')) <-> In p (map fst (c_rules c)) \/ exists t, In (t, p) out /\ tm_patterns t <> []).
Proof.
  induction out as [|(t, p') out IH]; intros c c' E N; cbn [add_templates] in E.
  - injection E as <-. split; [exact N|]. split; [intros p m; rewrite app_nil_r; reflexivity|]. intros p. split; [auto|intros [H|(t & [] & _)]; exact H].
  - destruct (add_template c (t, p')) as [c1|] eqn:E1; [|discriminate]. apply add_rules in E1. cbn [fst snd] in E1. destruct (IH c1 c' E) as (N' & G & K); [rewrite E1; apply nodup_pushes; exact N|]. split; [exact N'|]. split.
    + intros p m. rewrite G, E1, get_pushes, <- app_assoc. reflexivity.
    + intros p. rewrite K, E1, keys_pushes. split.
      * intros [[H|(-> & H)]|(u & I & H)]; [left; exact H|right; exists t; split; [left; reflexivity|exact H]|right; exists u; split; [right; exact I|exact H]].
      * intros [H|(u & [I|I] & H)]; [auto|injection I as -> ->; auto|right; eauto].
Qed.

(** * Choosing *)
Definition of_mode (m : str) (r : match_template) : bool := str_eqb m (tm_mode (snd r)).
Lemma rules_mode : forall p m own, entries p m (tagged p own) = filter (of_mode m) (rules own).
Proof.
  intros p m own. unfold entries, rules, tagged. induction own as [|t own IH]; [reflexivity|]. cbn [map concat fst snd]. rewrite filter_app, prec_eq_refl. cbn [andb]. refine (f_equal2 (@app match_template) _ IH).
  unfold own_rules. induction (tm_patterns t) as [|q qs IHq]; cbn [map filter]; [destruct (str_eqb m (tm_mode t)); reflexivity|]. unfold of_mode at 1. cbn [snd]. destruct (str_eqb m (tm_mode t)); [cbn [map]; f_equal|]; exact IHq.
Qed.
Lemma entries_app : forall p m a b, entries p m (a ++ b) = entries p m a ++ entries p m b.
Proof. intros p m a b. unfold entries. rewrite map_app, concat_app. reflexivity. Qed.
Lemma entries_other : forall p q m own, p <> q -> entries p m (tagged q own) = [].
Proof.
  intros p q m own N. unfold entries, tagged. induction own as [|t own IH]; [reflexivity|]. cbn [map concat fst snd]. rewrite IH. destruct (prec_eq p q) eqn:E; [apply prec_eq_ok in E; contradiction|reflexivity].
Qed.
Lemma entries_none : forall v a m, ~ In a (map fst v) -> entries (code a) m (listed v) = [].
Proof.
  induction v as [|(b, o) v IH]; intros a m N; [reflexivity|]. change ((b, o) :: v) with ([(b, o)] ++ v). rewrite listed_app, entries_app, IH by (intros H; apply N; right; exact H). unfold listed. cbn [rev app map concat fst snd]. rewrite app_nil_r. apply entries_other. intros E. apply code_inj in E. apply N. left. symmetry. exact E.
Qed.
Lemma entries_at : forall v a own m, NoDup (map fst v) -> In (a, own) v -> entries (code a) m (listed v) = filter (of_mode m) (rules own).
Proof.
  induction v as [|(b, o) v IH]; intros a own m N I; [contradiction|]. cbn [map fst] in N. inversion N as [|? ? N1 N2]; subst. change ((b, o) :: v) with ([(b, o)] ++ v). rewrite listed_app, entries_app. unfold listed at 2. cbn [rev app map concat fst snd]. rewrite app_nil_r. destruct I as [I|I].
  - injection I as -> ->. rewrite entries_none by exact N1. apply rules_mode.
  - rewrite (IH a own m N2 I), entries_other; [apply app_nil_r|]. intros E. apply code_inj in E. subst b. apply N1. exact (in_map fst _ _ I).
Qed.
Lemma in_listed : forall (v : list (address * list template)) t p, In (t, p) (listed v) <-> exists a own, In (a, own) v /\ p = code a /\ In t own.
Proof.
  intros v t p. unfold listed. rewrite in_concat. split.
  - intros (l & L & I). apply in_map_iff in L. destruct L as ((a, own) & <- & V). apply in_rev in V. cbn [fst snd] in I. unfold tagged in I. apply in_map_iff in I. destruct I as (u & E & U). injection E as -> <-. eauto.
  - intros (a & own & V & -> & I). exists (tagged (code a) own). split; [apply in_map_iff; exists (a, own); split; [reflexivity|apply in_rev; rewrite rev_involutive; exact V]|]. unfold tagged. apply in_map_iff. eauto.
Qed.

Definition nice (r : match_template) : Prop := is_nan (p_priority (fst r)) = false.
Lemma higher_key : forall x y, nice x -> nice y -> (higher x y = true <-> klt (key (p_priority (fst y))) (key (p_priority (fst x)))).
Proof. intros x y X Y. apply ltb_key; assumption. Qed.
Lemma higher_asym : forall x y, nice x -> nice y -> higher x y = true -> higher y x = false.
Proof.
  intros x y X Y H. apply higher_key in H; auto. destruct (higher y x) eqn:E; [|reflexivity]. apply higher_key in E; auto. exfalso. destruct (key (p_priority (fst x))) as ((a1, a2), a3), (key (p_priority (fst y))) as ((b1, b2), b3). unfold klt in *. lia.
Qed.
Lemma higher_trans : forall x y z, nice x -> nice y -> nice z -> higher y x = false -> higher z y = false -> higher z x = false.
Proof.
  intros x y z X Y Z A B. destruct (higher z x) eqn:E; [|reflexivity]. exfalso. apply higher_key in E; auto.
  assert (A' : ~ klt (key (p_priority (fst x))) (key (p_priority (fst y)))) by (intros H; apply higher_key in H; auto; congruence). assert (B' : ~ klt (key (p_priority (fst y))) (key (p_priority (fst z)))) by (intros H; apply higher_key in H; auto; congruence).
  destruct (key (p_priority (fst x))) as ((a1, a2), a3), (key (p_priority (fst y))) as ((b1, b2), b3), (key (p_priority (fst z))) as ((c1, c2), c3). unfold klt in *. lia.
Qed.
Lemma find_prepared : forall f l, sortable l = true -> match find f (sort_by higher (rev l)) with
  | Some r => exists before after, l = before ++ r :: after /\ f r = true /\ (forall y, In y before -> f y = true -> higher y r = false) /\ (forall y, In y after -> f y = true -> higher r y = true)
  | None => forall y, In y l -> f y = false
  end.
Proof.
  intros f l S. unfold sortable in S. apply orb_true_iff in S. destruct S as [S|S].
  - destruct l as [|x [|y l]]; [intros y []| |discriminate]. cbn. destruct (f x) eqn:E; [|intros y [<-|[]]; exact E]. exists [], []. split; [reflexivity|]. split; [exact E|]. split; intros y [].
  - assert (N : Forall nice (rev l)). { apply Forall_forall. intros y Y. apply in_rev in Y. rewrite forallb_forall in S. specialize (S y Y). apply negb_true_iff in S. exact S. }
    pose proof (find_sorted higher nice higher_asym higher_trans f (rev l) N) as F. destruct (find f (sort_by higher (rev l))) as [r|].
    + destruct F as (a & b & E & FR & A & B). exists (rev b), (rev a). split; [rewrite <- (rev_involutive l), E, rev_app_distr; cbn [rev]; rewrite <- app_assoc; reflexivity|]. split; [exact FR|]. split; intros y Y; apply in_rev in Y; auto.
    + intros y Y. apply F. apply in_rev. rewrite rev_involutive. exact Y.
Qed.

Lemma lt_order_trans : forall x y z, prec_lt y x = false -> prec_lt z y = false -> prec_lt z x = false.
Proof.
  intros x y z A B. destruct (prec_lt z x) eqn:E; [|reflexivity]. destruct (lt_total x y) as [H|[->|H]]; [|congruence|congruence]. rewrite (lt_trans z x y E H) in B. discriminate.
Qed.
Lemma lower_in : forall c g p, In p (lower_precedences c g) <-> In p (map fst (c_rules c)) /\ is_descendant g p = true.
Proof.
  intros c g p. unfold lower_precedences. rewrite <- in_rev. rewrite <- filter_In. split; apply Permutation_in; [apply Permutation_sym|]; apply sort_perm.
Qed.
Lemma lower_first : forall c g l1 p l2 q, lower_precedences c g = l1 ++ p :: l2 -> In q (lower_precedences c g) -> prec_lt p q = true -> In q l1.
Proof.
  intros c g l1 p l2 q E I L. rewrite E in I. apply in_app_iff in I. destruct I as [I|[<-|I]]; [exact I|rewrite lt_irrefl in L; discriminate|]. exfalso.
  unfold lower_precedences in E. set (s := sort_by prec_lt (filter (is_descendant g) (map fst (c_rules c)))) in *. assert (O : ordered prec_lt s). { apply (sort_ordered prec_lt (fun _ => True)); auto using lt_asym; [intros x y z _ _ _; apply lt_order_trans|apply Forall_forall; auto]. }
  assert (ES : s = rev l2 ++ p :: rev l1) by (rewrite <- (rev_involutive s), E, rev_app_distr; cbn [rev]; rewrite <- app_assoc; reflexivity). rewrite ES in O. clear - O I L. apply in_rev in I. induction (rev l2) as [|y l IH]; [contradiction|]. cbn [app] in O. inversion O as [|? ? O1 F]; subst. destruct I as [<-|I]; [|exact (IH I O1)].
  rewrite Forall_forall in F. rewrite (F p) in L; [discriminate|]. apply in_app_iff. right. left. reflexivity.
Qed.
Definition look (mode : str) (x : xnode) (c : compiled) (p : precedence) : option match_template := find (fun m => p_matches (fst m) x) (get p mode (c_rules c)).
Lemma first_match_ok : forall c mode x l, match first_match c mode x l with
  | Some (t, p) => exists l1 l2 q, l = l1 ++ p :: l2 /\ (forall p', In p' l1 -> look mode x c p' = None) /\ look mode x c p = Some (q, t)
  | None => forall p, In p l -> look mode x c p = None
  end.
Proof.
  intros c mode x l. induction l as [|p l IH]; [intros p []|]. cbn [first_match]. fold (get p mode (c_rules c)). fold (look mode x c p). destruct (look mode x c p) as [(q, t)|] eqn:E.
  - exists [], l, q. split; [reflexivity|]. split; [intros p' []|exact E].
  - destruct (first_match c mode x l) as [(t, p')|].
    + destruct IH as (l1 & l2 & q & -> & A & B). exists (p :: l1), l2, q. split; [reflexivity|]. split; [|exact B]. intros p1 [<-|P]; auto.
    + intros p' [<-|P]; auto.
Qed.

Lemma get_sorted : forall p m rs, all_sortable rs = true -> sortable (get p m rs) = true /\ get p m (sort_rules rs) = sort_by higher (rev (get p m rs)).
Proof.
  intros p m rs S. unfold get. induction rs as [|(p', ms) rs IH]; [split; reflexivity|]. unfold all_sortable in S. cbn [forallb snd] in S. apply andb_true_iff in S. destruct S as (S1 & S2). cbn [sort_rules map assoc fst snd]. destruct (prec_eq p p'); [|exact (IH S2)]. cbn [or_empty]. clear IH S2.
  induction ms as [|(m', l) ms IH]; [split; reflexivity|]. cbn [forallb snd] in S1. apply andb_true_iff in S1. destruct S1 as (S1 & S2). cbn [sort_modes map assoc fst snd]. destruct (str_eqb m m'); [|exact (IH S2)]. split; [exact S1|reflexivity].
Qed.
Section Loaded.
  Variable s : list (item template). Variable c : compiled.
  Hypothesis L : load s = Val (Some c).
  Let v := visit [] (tree_of s).
  Lemma v_nodup : NoDup (map fst v).
  Proof.
    pose proof (visit_rises (tree_of s) []) as H. fold v in H. induction H as [|a l H IH F]; constructor; [|exact IH]. intros I. rewrite Forall_forall in F. pose proof (F a I) as R. unfold rises in R. rewrite lt_irrefl in R. discriminate.
  Qed.
  Lemma loaded : exists c0, add_templates (Compiled [] []) (listed v) = Some c0 /\ c_named c = c_named c0 /\ NoDup (map fst (c_rules c0)) /\
    (forall p m, sortable (get p m (c_rules c0)) = true /\ get p m (c_rules c) = sort_by higher (rev (get p m (c_rules c0)))) /\
    map fst (c_rules c) = map fst (c_rules c0).
  Proof.
    unfold load in L. rewrite compile_lemma in L. fold (@listed template v) in L. fold v in L. change (concat (map (fun x => map (fun t => (t, code (fst x))) (snd x)) (rev v))) with (listed v) in L. destruct (add_templates (Compiled [] []) (listed v)) as [c0|] eqn:A; [|discriminate]. exists c0. split; [reflexivity|].
    destruct (adds_rules _ _ _ A) as (N & _ & _); [constructor|]. unfold prepare in L. destruct (all_sortable (c_rules c0)) eqn:S; [|discriminate]. injection L as <-. cbn [c_rules c_named]. split; [reflexivity|]. split; [exact N|]. split.
    - intros p m. exact (get_sorted p m (c_rules c0) S).
    - unfold sort_rules. rewrite map_map. reflexivity.
  Qed.
  Lemma look_group : forall a own mode x, In (a, own) v -> match look mode x c (code a) with
    | Some (p, t) => exists before after, rules own = before ++ (p, t) :: after /\ applicable mode x (p, t) /\
        (forall r, In r before -> applicable mode x r -> SFltb (p_priority p) (p_priority (fst r)) = false) /\ (forall r, In r after -> applicable mode x r -> SFltb (p_priority (fst r)) (p_priority p) = true)
    | None => forall r, In r (rules own) -> ~ applicable mode x r
    end.
  Proof.
    intros a own mode x I. destruct loaded as (c0 & A & _ & _ & G & _). destruct (adds_rules _ _ _ A) as (_ & E & _); [constructor|]. specialize (E (code a) mode). rewrite (entries_at v a own mode v_nodup I) in E. destruct (G (code a) mode) as (S & GE). unfold look. rewrite GE. pose proof (find_prepared (fun m => p_matches (fst m) x) _ S) as F. destruct (find _ _) as [(p, t)|].
    - destruct F as (before & after & EQ & FR & B & AF). rewrite E in EQ. change (get (code a) mode (c_rules (Compiled [] []))) with (@nil match_template) in EQ. cbn [app] in EQ. clear - EQ FR B AF.
      assert (SPLIT : forall l b r af, filter (of_mode mode) l = b ++ r :: af -> exists b' af', l = b' ++ r :: af' /\ filter (of_mode mode) b' = b /\ filter (of_mode mode) af' = af /\ of_mode mode r = true).
      { induction l as [|y l IH]; intros b r af H; [destruct b; discriminate|]. cbn [filter] in H. destruct (of_mode mode y) eqn:M.
        - destruct b as [|z b]; cbn [app] in H; injection H as -> H; [exists [], l; cbn; auto|]. destruct (IH b r af H) as (b' & af' & -> & <- & <- & R). exists (z :: b'), af'. cbn [filter]. rewrite M. auto.
        - destruct (IH b r af H) as (b' & af' & -> & <- & <- & R). exists (y :: b'), af'. cbn [filter]. rewrite M. auto. }
      destruct (SPLIT _ _ _ _ EQ) as (b' & af' & -> & EB & EA & M). exists b', af'. split; [reflexivity|]. split; [split; [exact FR|symmetry; apply str_eqb_ok; exact M]|]. split.
      + intros r R (M1 & M2). apply (B r); [rewrite <- EB; apply filter_In; split; [exact R|apply str_eqb_ok; symmetry; exact M2]|exact M1].
      + intros r R (M1 & M2). apply (AF r); [rewrite <- EA; apply filter_In; split; [exact R|apply str_eqb_ok; symmetry; exact M2]|exact M1].
    - intros r R (M1 & M2). rewrite E in F. change (get (code a) mode (c_rules (Compiled [] []))) with (@nil match_template) in F. cbn [app] in F. rewrite (F r) in M1; [discriminate|]. apply filter_In. split; [exact R|apply str_eqb_ok; symmetry; exact M2].
  Qed.
  Lemma key_group : forall p, In p (map fst (c_rules c)) <-> exists a own, In (a, own) v /\ p = code a /\ rules own <> [].
  Proof.
    intros p. destruct loaded as (c0 & A & _ & _ & _ & K0). rewrite K0. destruct (adds_rules _ _ _ A) as (_ & _ & K); [constructor|]. rewrite K. cbn [c_rules map In]. split.
    - intros [[]|(t & I & N)]. apply in_listed in I. destruct I as (a & own & V & -> & T). exists a, own. split; [exact V|]. split; [reflexivity|]. intros E. destruct (tm_patterns t) as [|q qs] eqn:Q; [congruence|]. assert (X : In (q, t) (rules own)); [|rewrite E in X; exact X]. unfold rules. apply in_concat. exists (map (fun p => (p, t)) (tm_patterns t)). split; [apply in_map_iff; eauto|]. rewrite Q. left. reflexivity.
    - intros (a & own & V & -> & N). right. destruct (rules own) as [|(q, t) r] eqn:R; [congruence|]. assert (X : In (q, t) (rules own)) by (rewrite R; left; reflexivity). unfold rules in X. apply in_concat in X. destruct X as (l & LI & X). apply in_map_iff in LI. destruct LI as (u & <- & U). apply in_map_iff in X. destruct X as (q' & E & Q). injection E as -> ->. exists t. split; [apply in_listed; eauto|]. intros E. rewrite E in Q. exact Q.
  Qed.
  Lemma choose_lemma : forall g mode x, match choose c g mode x with
    | Some (t, p) => exists a, p = code a /\ applied v (fun a => is_descendant g (code a) = true) mode x t a
    | None => none_applicable v (fun a => is_descendant g (code a) = true) mode x
    end.
  Proof.
    intros g mode x. pose proof (first_match_ok c mode x (lower_precedences c g)) as F. fold (choose c g mode x) in F. assert (LOW : forall b o r, In (b, o) v -> is_descendant g (code b) = true -> In r (rules o) -> In (code b) (lower_precedences c g)).
    { intros b o r V D R. apply lower_in. split; [|exact D]. apply key_group. exists b, o. split; [exact V|]. split; [reflexivity|]. intros E. rewrite E in R. exact R. }
    destruct (choose c g mode x) as [(t, p)|].
    - destruct F as (l1 & l2 & q & E & N & LK). assert (I : In p (lower_precedences c g)) by (rewrite E; apply in_app_iff; right; left; reflexivity). apply lower_in in I. destruct I as (KP & D). apply key_group in KP. destruct KP as (a & own & V & -> & _). exists a. split; [reflexivity|].
      pose proof (look_group a own mode x V) as GR. rewrite LK in GR. destruct (in_split _ _ V) as (lo & hi & EV). exists lo, own, hi. split; [exact EV|]. split; [exact D|]. split.
      + intros b o r B DB R AP. assert (VB : In (b, o) v) by (rewrite EV; apply in_app_iff; right; right; exact B). assert (HI : prec_lt (code a) (code b) = true).
        { pose proof (visit_rises (tree_of s) []) as SR. fold v in SR. rewrite EV, map_app in SR. cbn [map fst] in SR. clear - SR B. induction (map fst lo) as [|y l IH]; cbn [app] in SR; inversion SR as [|? ? S1 F1]; subst; [|exact (IH S1)]. rewrite Forall_forall in F1. apply F1. exact (in_map fst _ _ B). }
        pose proof (N _ (lower_first c g l1 (code a) l2 (code b) E (LOW b o r VB DB R) HI)) as NB. pose proof (look_group b o mode x VB) as GB. rewrite NB in GB. exact (GB r R AP).
      + destruct GR as (before & after & G). exists before, q, after. exact G.
    - intros b o r B DB R. pose proof (look_group b o mode x B) as GB. rewrite (F _ (LOW b o r B DB R)) in GB. exact (GB r R).
  Qed.
End Loaded.

(** * Named templates *)
Definition falls (x y : template * precedence) : Prop := prec_lt (snd x) (snd y) = false.
Lemma add_named : forall c t p c', add_template c (t, p) = Some c' -> forall name, name <> [] ->
  assoc str_eqb name (c_named c') = if str_eqb name (tm_name t) then match assoc str_eqb name (c_named c) with Some (u, q) => if prec_gt q p then Some (u, q) else Some (t, p) | None => Some (t, p) end else assoc str_eqb name (c_named c).
Proof.
  intros c t p c' E name NE. unfold add_template in E. destruct (tm_name t) as [|n0 nm] eqn:TN; [injection E as <-; cbn [c_named]; destruct name; [congruence|reflexivity]|]. destruct (assoc str_eqb (n0 :: nm) (c_named c)) as [(u, q)|] eqn:A.
  - destruct (prec_gt q p) eqn:G; [injection E as <-; cbn [c_named]; destruct (str_eqb name (n0 :: nm)) eqn:S; [apply str_eqb_ok in S; subst name; rewrite A, G; reflexivity|reflexivity]|]. destruct (prec_eq q p); [discriminate|]. injection E as <-. cbn [c_named]. rewrite (assoc_update _ str_eqb_ok). destruct (str_eqb name (n0 :: nm)) eqn:S; [|reflexivity]. apply str_eqb_ok in S. subst name. rewrite A, G. reflexivity.
  - injection E as <-. cbn [c_named]. rewrite (assoc_update _ str_eqb_ok). destruct (str_eqb name (n0 :: nm)) eqn:S; [|reflexivity]. apply str_eqb_ok in S. subst name. rewrite A. reflexivity.
Qed.
Lemma add_clash : forall c t p, add_template c (t, p) = None <-> tm_name t <> [] /\ exists u q, assoc str_eqb (tm_name t) (c_named c) = Some (u, q) /\ q = p.
Proof.
  intros c t p. unfold add_template. destruct (tm_name t) as [|n0 nm]; [split; [discriminate|intros (N & _); congruence]|]. destruct (assoc str_eqb (n0 :: nm) (c_named c)) as [(u, q)|].
  - destruct (prec_gt q p) eqn:G; [split; [discriminate|]|].
    + intros (_ & u' & q' & E & ->). injection E as -> ->. apply gt_ok in G. rewrite lt_irrefl in G. discriminate.
    + destruct (prec_eq q p) eqn:E; [apply prec_eq_ok in E; subst q; split; [intros _; split; [discriminate|eauto]|reflexivity]|]. split; [discriminate|]. intros (_ & u' & q' & E' & ->). injection E' as -> ->. rewrite prec_eq_refl in E. discriminate.
  - split; [discriminate|]. intros (_ & u' & q' & E & _). discriminate.
Qed.
Lemma adds_named : forall out c c', add_templates c out = Some c' -> StronglySorted falls out -> forall name, name <> [] ->
  (forall t p, assoc str_eqb name (c_named c) = Some (t, p) -> forall u q, In (u, q) out -> prec_lt p q = false) ->
  match assoc str_eqb name (c_named c) with
  | Some (t, p) => assoc str_eqb name (c_named c') = Some (t, p) /\ forall u, In (u, p) out -> tm_name u <> name
  | None => match assoc str_eqb name (c_named c') with
            | Some (t, p) => exists o1 o2, out = o1 ++ (t, p) :: o2 /\ tm_name t = name /\ (forall u q, In (u, q) o1 -> tm_name u <> name) /\ forall u, In (u, p) o2 -> tm_name u <> name
            | None => forall u q, In (u, q) out -> tm_name u <> name
            end
  end.
Proof.
  induction out as [|(t, p) out IH]; intros c c' E S name NE H; cbn [add_templates] in E.
  - injection E as <-. destruct (assoc str_eqb name (c_named c)) as [(t, p)|]; [split; [reflexivity|intros u []]|intros u q []].
  - destruct (add_template c (t, p)) as [c1|] eqn:A; [|discriminate]. inversion S as [|? ? S1 F]; subst. rewrite Forall_forall in F. pose proof (add_named c t p c1 A name NE) as AN. specialize (IH c1 c' E S1 name NE). destruct (str_eqb name (tm_name t)) eqn:SN.
    + apply str_eqb_ok in SN. destruct (assoc str_eqb name (c_named c)) as [(u, q)|] eqn:AC.
      * assert (Q : q <> p). { intros ->. assert (X : add_template c (t, p) = None) by (apply add_clash; rewrite <- SN; split; [exact NE|eauto]). congruence. }
        assert (G : prec_gt q p = true). { apply gt_ok. destruct (lt_total p q) as [L|[L|L]]; [exact L|congruence|]. rewrite (H u q eq_refl t p) in L; [discriminate|left; reflexivity]. }
        rewrite G in AN. rewrite AN in IH. destruct IH as (I1 & I2); [intros t' p' X u' q' I; injection X as <- <-; exact (H u q eq_refl u' q' (or_intror I))|]. split; [exact I1|]. intros u' [X|X]; [injection X as _ X; congruence|exact (I2 u' X)].
      * rewrite AN in IH. destruct IH as (I1 & I2); [intros t' p' X u' q' I; injection X as <- <-; exact (F (u', q') I)|]. rewrite I1. exists [], out. split; [reflexivity|]. split; [congruence|]. split; [intros u q []|exact I2].
    + assert (TN : tm_name t <> name) by (intros <-; rewrite (proj2 (str_eqb_ok _ _) eq_refl) in SN; discriminate). rewrite AN in IH. specialize (IH (fun t' p' X u' q' I => H t' p' X u' q' (or_intror I))). destruct (assoc str_eqb name (c_named c)) as [(u, q)|] eqn:AC.
      * destruct IH as (I1 & I2). split; [exact I1|]. intros u' [X|X]; [injection X as -> _; exact TN|exact (I2 u' X)].
      * destruct (assoc str_eqb name (c_named c')) as [(u, q)|].
        -- destruct IH as (o1 & o2 & -> & N1 & N2 & N3). exists ((t, p) :: o1), o2. split; [reflexivity|]. split; [exact N1|]. split; [|exact N3]. intros u' q' [X|X]; [injection X as -> _; exact TN|exact (N2 u' q' X)].
        -- intros u' q' [X|X]; [injection X as -> _; exact TN|exact (IH u' q' X)].
Qed.
Lemma filter_none : forall {A} f (l : list A), (forall x, In x l -> f x = false) -> filter f l = [].
Proof. intros A f l H. induction l as [|x l IH]; [reflexivity|]. cbn [filter]. rewrite (H x (or_introl eq_refl)). apply IH. intros y Y. apply H. right. exact Y. Qed.
Lemma filter_all : forall {A} f (l : list A), (forall x, In x l -> f x = true) -> filter f l = l.
Proof. intros A f l H. induction l as [|x l IH]; [reflexivity|]. cbn [filter]. rewrite (H x (or_introl eq_refl)). f_equal. apply IH. intros y Y. apply H. right. exact Y. Qed.
Definition at_prec (p : precedence) (tp : template * precedence) : bool := prec_eq p (snd tp).
Lemma filter_listed : forall (v : list (address * list template)) a own, NoDup (map fst v) -> In (a, own) v -> filter (at_prec (code a)) (listed v) = tagged (code a) own.
Proof.
  intros v a own N I. destruct (in_split _ _ I) as (lo & hi & ->). rewrite map_app in N. cbn [map fst] in N. apply NoDup_remove_2 in N. rewrite listed_app. change ((a, own) :: hi) with ([(a, own)] ++ hi). rewrite listed_app, !filter_app.
  assert (NO : forall w, ~ In a (map fst w) -> filter (at_prec (code a)) (listed w) = []).
  { intros w W. apply filter_none. intros (t, p) X. apply in_listed in X. destruct X as (b & o & B & -> & _). unfold at_prec. cbn [snd]. destruct (prec_eq (code a) (code b)) eqn:E; [|reflexivity]. apply prec_eq_ok in E. apply code_inj in E. subst b. destruct W. exact (in_map fst _ _ B). }
  rewrite (NO lo), (NO hi) by (intros H; apply N; apply in_app_iff; auto). rewrite app_nil_r. cbn [app]. unfold listed. cbn [rev app map concat fst snd]. rewrite app_nil_r. apply filter_all. intros (t, p) X. unfold tagged in X. apply in_map_iff in X. destruct X as (u & E & _). injection E as -> <-. unfold at_prec. apply prec_eq_refl.
Qed.
Lemma tagged_split : forall p (own : list template) (x : list (template * precedence)) t q y, tagged p own = x ++ (t, q) :: y -> own = map fst x ++ t :: map fst y.
Proof.
  intros p own x t q y E. assert (F : own = map fst (tagged p own)) by (unfold tagged; rewrite map_map; cbn [fst]; symmetry; apply map_id). rewrite F, E, map_app. reflexivity.
Qed.
Lemma listed_falls : forall (v : list (address * list template)), StronglySorted rises (map fst v) -> StronglySorted falls (listed v).
Proof.
  induction v as [|(a, own) v IH]; intros S; [constructor|]. cbn [map fst] in S. inversion S as [|? ? S1 F]; subst. change ((a, own) :: v) with ([(a, own)] ++ v). rewrite listed_app.
  assert (AP : forall l m, StronglySorted falls l -> StronglySorted falls m -> (forall x y, In x l -> In y m -> falls x y) -> StronglySorted falls (l ++ m)).
  { intros l m HL HM H. induction HL as [|x l HL IHL FL]; [exact HM|]. cbn. constructor; [apply IHL; intros y z Y Z; apply H; [right; exact Y|exact Z]|]. apply Forall_app. split; [exact FL|]. apply Forall_forall. intros y Y. apply H; [left; reflexivity|exact Y]. }
  assert (OWN : listed [(a, own)] = tagged (code a) own) by (unfold listed; cbn [rev app map concat fst snd]; apply app_nil_r). rewrite OWN. apply AP; [exact (IH S1)| |].
  - unfold tagged. clear. induction own as [|t own IHo]; [constructor|]. cbn [map]. constructor; [exact IHo|]. apply Forall_forall. intros (u, q) X. apply in_map_iff in X. destruct X as (w & E & _). injection E as -> <-. apply lt_irrefl.
  - intros (t, p) (u, q) X Y. apply in_listed in X. destruct X as (b & o & B & -> & _). unfold tagged in Y. apply in_map_iff in Y. destruct Y as (w & E & _). injection E as -> <-. unfold falls. cbn [snd]. apply lt_asym. rewrite Forall_forall in F. apply F. exact (in_map fst _ _ B).
Qed.
Lemma named_lemma : forall s c, load s = Val (Some c) -> forall name, name <> [] ->
  match called c name with
  | Some t => named (visit [] (tree_of s)) name t
  | None => forall a own u, In (a, own) (visit [] (tree_of s)) -> In u own -> tm_name u <> name
  end.
Proof.
  intros s c L name NE. destruct (loaded s c L) as (c0 & A & EN & _). set (v := visit [] (tree_of s)) in *. pose proof (v_nodup s) as ND. fold v in ND. unfold called. rewrite EN.
  pose proof (adds_named _ _ _ A (listed_falls v (visit_rises (tree_of s) [])) name NE) as H. cbn [c_named assoc] in H. specialize (H ltac:(discriminate)). destruct (assoc str_eqb name (c_named c0)) as [(t, p)|]; cbn [option_map fst].
  - destruct H as (o1 & o2 & E & TN & N1 & N2). assert (I : In (t, p) (listed v)) by (rewrite E; apply in_app_iff; right; left; reflexivity). apply in_listed in I. destruct I as (a & own & V & -> & _). destruct (in_split _ _ V) as (lo & hi & EV). exists lo, a, own, hi. split; [exact EV|]. split.
    + intros b o u B U. assert (VB : In (b, o) v) by (rewrite EV; apply in_app_iff; right; right; exact B). assert (HI : prec_lt (code a) (code b) = true).
      { pose proof (visit_rises (tree_of s) []) as SR. fold v in SR. rewrite EV, map_app in SR. cbn [map fst] in SR. clear - SR B. induction (map fst lo) as [|y l IH]; cbn [app] in SR; inversion SR as [|? ? S1 F1]; subst; [|exact (IH S1)]. rewrite Forall_forall in F1. apply F1. exact (in_map fst _ _ B). }
      assert (IU : In (u, code b) (listed v)) by (apply in_listed; eauto). rewrite E in IU. apply in_app_iff in IU. destruct IU as [IU|[IU|IU]]; [exact (N1 u _ IU)|assert (X : code a = code b) by congruence; rewrite X, lt_irrefl in HI; discriminate|]. exfalso.
      pose proof (listed_falls v (visit_rises (tree_of s) [])) as SF. rewrite E in SF. clear - SF IU HI. induction o1 as [|y l IH]; cbn [app] in SF; inversion SF as [|? ? S1 F1]; subst; [|exact (IH S1)]. rewrite Forall_forall in F1. specialize (F1 _ IU). unfold falls in F1. cbn [snd] in F1. congruence.
    + pose proof (filter_listed v a own ND V) as FL. rewrite E, filter_app in FL. cbn [filter] in FL. unfold at_prec at 2 in FL. cbn [snd] in FL. rewrite prec_eq_refl in FL. symmetry in FL. apply tagged_split in FL. do 2 eexists. split; [exact FL|]. split; [exact TN|]. intros u [U|U]; apply in_map_iff in U; destruct U as ((u', q) & <- & U); apply filter_In in U; destruct U as (U & Q); cbn [fst].
      * exact (N1 u' q U).
      * unfold at_prec in Q. cbn [snd] in Q. apply prec_eq_ok in Q. subst q. exact (N2 u' U).
  - intros a own u V U. apply (H u (code a)). apply in_listed. eauto.
Qed.

(** * Loading *)
Lemma assoc_some_in : forall name (m : list (str * (template * precedence))) e, assoc str_eqb name m = Some e -> In e (map snd m).
Proof. intros name m e H. apply (assoc_in _ str_eqb_ok) in H. exact (in_map snd _ _ H). Qed.
Lemma adds_loads : forall out c done, (forall name t p, name <> [] -> assoc str_eqb name (c_named c) = Some (t, p) -> tm_name t = name /\ In (t, p) done) ->
  (forall d1 t d2 u d3 p, done ++ out = d1 ++ (t, p) :: d2 ++ (u, p) :: d3 -> tm_name t = tm_name u -> tm_name t = []) -> exists c', add_templates c out = Some c'.
Proof.
  induction out as [|(t, p) out IH]; intros c done I D; [eexists; reflexivity|]. cbn [add_templates]. destruct (add_template c (t, p)) as [c1|] eqn:A.
  - apply (IH c1 (done ++ [(t, p)])); [|rewrite <- app_assoc; exact D]. intros name u q NE X. rewrite (add_named c t p c1 A name NE) in X. destruct (str_eqb name (tm_name t)) eqn:S.
    + apply str_eqb_ok in S. destruct (assoc str_eqb name (c_named c)) as [(u', q')|] eqn:AC; [destruct (prec_gt q' p)|]; injection X as <- <-; try (split; [congruence|apply in_app_iff; right; left; reflexivity]). destruct (I name u' q' NE AC) as (J1 & J2). split; [exact J1|apply in_app_iff; left; exact J2].
    + destruct (I name u q NE X) as (J1 & J2). split; [exact J1|apply in_app_iff; left; exact J2].
  - exfalso. apply add_clash in A. destruct A as (NE & u & q & AC & ->). destruct (I _ u p NE AC) as (J1 & J2). destruct (in_split _ _ J2) as (d1 & d2 & ->). apply NE. rewrite <- J1. apply (D d1 u d2 t out p); [rewrite <- app_assoc; reflexivity|exact J1].
Qed.
Lemma sortable_ok : forall l, Forall nice l -> sortable l = true.
Proof. intros l H. unfold sortable. apply orb_true_iff. right. apply forallb_forall. rewrite Forall_forall in H. intros x X. rewrite (H x X). reflexivity. Qed.
Lemma sortable_all : forall rs, NoDup (map fst rs) -> (forall p, Forall (fun ml => Forall nice (snd ml)) (or_empty (assoc prec_eq p rs))) -> all_sortable rs = true.
Proof.
  intros rs N H. unfold all_sortable. apply forallb_forall. intros (p, ms) I. apply forallb_forall. intros (m, l) J. cbn [snd] in *. apply sortable_ok. specialize (H p). assert (E : assoc prec_eq p rs = Some ms).
  { clear - N I. induction rs as [|(p', ms') rs IH]; [contradiction|]. cbn [map fst] in N. inversion N as [|? ? N1 N2]; subst. cbn [assoc]. destruct I as [I|I]; [injection I as -> ->; rewrite prec_eq_refl; reflexivity|]. destruct (prec_eq p p') eqn:E; [|exact (IH N2 I)]. apply prec_eq_ok in E. subst p'. destruct N1. exact (in_map fst _ _ I). }
  rewrite E in H. cbn [or_empty] in H. rewrite Forall_forall in H. exact (H _ J).
Qed.
Definition fine_rules (rs : list (precedence * mode_templates)) : Prop := Forall (fun pm => Forall (fun ml => Forall nice (snd ml)) (snd pm)) rs.
Lemma push_fine : forall p t rs q, fine_rules rs -> nice (q, t) -> fine_rules (push_rule p t rs q).
Proof.
  intros p t rs q H NQ. assert (M : forall ms, Forall (fun ml : str * list match_template => Forall nice (snd ml)) ms -> Forall (fun ml => Forall nice (snd ml)) (update str_eqb (tm_mode t) (fun l => or_empty l ++ [(q, t)]) ms)).
  { intros ms F. induction F as [|(m, l) ms F1 F IH]; [repeat constructor; exact NQ|]. cbn [update]. destruct (str_eqb (tm_mode t) m); constructor; auto. cbn [snd or_empty] in *. apply Forall_app. split; [exact F1|repeat constructor; exact NQ]. }
  unfold push_rule, fine_rules in *. induction H as [|(p', ms) rs F1 F IH]; [constructor; [apply (M [] (Forall_nil _))|constructor]|]. cbn [update]. destruct (prec_eq p p'); constructor; auto. cbn [snd] in *. apply M. exact F1.
Qed.
Lemma adds_fine : forall out c c', add_templates c out = Some c' -> fine_rules (c_rules c) -> (forall t p r, In (t, p) out -> In r (own_rules t) -> nice r) -> fine_rules (c_rules c').
Proof.
  induction out as [|(t, p) out IH]; intros c c' E F N; cbn [add_templates] in E; [injection E as <-; exact F|]. destruct (add_template c (t, p)) as [c1|] eqn:A; [|discriminate]. apply (IH c1 c' E); [|intros u q r U; apply (N u q r); right; exact U]. rewrite (add_rules _ _ _ A). cbn [fst snd].
  assert (NP : forall r, In r (own_rules t) -> nice r) by (intros r; apply (N t p r); left; reflexivity). clear - F NP. unfold own_rules in NP. revert F NP. generalize (c_rules c). induction (tm_patterns t) as [|q qs IH]; intros rs F NP; [exact F|]. cbn [fold_left]. apply IH; [apply push_fine; [exact F|apply NP; left; reflexivity]|intros r R; apply NP; right; exact R].
Qed.
Lemma load_lemma : forall s, (forall a own, In (a, own) (visit [] (tree_of s)) -> distinct_names own /\ no_nan own) -> exists c, load s = Val (Some c).
Proof.
  intros s H. unfold load. rewrite compile_lemma. set (v := visit [] (tree_of s)) in *. change (concat (map (fun x => map (fun t => (t, code (fst x))) (snd x)) (rev v))) with (listed v). pose proof (v_nodup s) as ND. fold v in ND.
  destruct (adds_loads (listed v) (Compiled [] []) []) as (c & A).
  - intros name t p _ X. discriminate.
  - intros d1 t d2 u d3 p E EN. cbn [app] in E. assert (I : In (t, p) (listed v)) by (rewrite E; apply in_app_iff; right; left; reflexivity). apply in_listed in I. destruct I as (a & own & V & -> & _). pose proof (filter_listed v a own ND V) as FL. rewrite E, filter_app in FL. cbn [filter] in FL. unfold at_prec at 2 in FL. cbn [snd] in FL. rewrite prec_eq_refl, filter_app in FL. cbn [filter] in FL. unfold at_prec at 3 in FL. cbn [snd] in FL. rewrite prec_eq_refl in FL. symmetry in FL. apply tagged_split in FL. rewrite map_app in FL. cbn [map fst] in FL. exact (proj1 (H a own V) _ _ _ _ _ FL EN).
  - rewrite A. unfold prepare. assert (S : all_sortable (c_rules c) = true); [|rewrite S; eexists; reflexivity]. apply sortable_all; [apply (adds_rules _ _ _ A); constructor|]. pose proof (adds_fine _ _ _ A (Forall_nil _)) as F. assert (FR : fine_rules (c_rules c)).
    { apply F. intros t p r I R. apply in_listed in I. destruct I as (a & own & V & _ & T). assert (X : In r (rules own)) by (unfold rules; apply in_concat; exists (own_rules t); split; [apply in_map_iff; eexists; split; [reflexivity|exact T]|exact R]). pose proof (proj2 (H a own V) r X) as NN. unfold nice. destruct (p_priority (fst r)); try reflexivity. congruence. }
    intros p. assert (X : forall o, assoc prec_eq p (c_rules c) = o -> Forall (fun ml => Forall nice (snd ml)) (or_empty o)); [|exact (X _ eq_refl)]. intros [ms|] E; [|constructor]. apply (assoc_in _ prec_eq_ok) in E. unfold fine_rules in FR. rewrite Forall_forall in FR. exact (FR _ E).
Qed.

(** * The two ways to choose *)
Lemma applied_scope : forall v P Q mode x t a, (forall a, P a <-> Q a) -> applied v P mode x t a -> applied v Q mode x t a.
Proof. intros v P Q mode x t a E (lo & own & hi & A & B & C & D). exists lo, own, hi. split; [exact A|]. split; [apply E; exact B|]. split; [|exact D]. intros b o r I S. apply (C b o r I). apply E. exact S. Qed.
Lemma none_scope : forall v P Q mode x, (forall a, P a <-> Q a) -> none_applicable v P mode x -> none_applicable v Q mode x.
Proof. intros v P Q mode x E H b o r I S. apply (H b o r I). apply E. exact S. Qed.
Lemma apply_templates_lemma : forall s c, load s = Val (Some c) -> forall mode x, match choose c frozen_precedence mode x with
  | Some (t, p) => exists a, p = code a /\ applied (visit [] (tree_of s)) (fun _ => True) mode x t a
  | None => none_applicable (visit [] (tree_of s)) (fun _ => True) mode x
  end.
Proof.
  intros s c L mode x. pose proof (choose_lemma s c L frozen_precedence mode x) as H. assert (E : forall a, is_descendant frozen_precedence (code a) = true <-> True) by (intros a; split; [auto|reflexivity]). destruct (choose c frozen_precedence mode x) as [(t, p)|].
  - destruct H as (a & -> & A). exists a. split; [reflexivity|]. exact (applied_scope _ _ _ _ _ _ _ E A).
  - exact (none_scope _ _ _ _ _ E H).
Qed.
Lemma apply_imports_lemma : forall s c, load s = Val (Some c) -> forall g mode x, match choose c (code g) mode x with
  | Some (t, p) => exists a, p = code a /\ applied (visit [] (tree_of s)) (imports_from g) mode x t a
  | None => none_applicable (visit [] (tree_of s)) (imports_from g) mode x
  end.
Proof.
  intros s c L g mode x. pose proof (choose_lemma s c L (code g) mode x) as H. destruct (choose c (code g) mode x) as [(t, p)|].
  - destruct H as (a & -> & A). exists a. split; [reflexivity|]. exact (applied_scope _ _ _ _ _ _ _ (code_descendant g) A).
  - exact (none_scope _ _ _ _ _ (code_descendant g) H).
Qed.
