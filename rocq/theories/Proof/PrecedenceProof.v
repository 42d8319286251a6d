From Coq Require Import Sorted Permutation.
From Verif.Model Require Import Base Precedence.
From Verif.Spec Require Import PrecedenceSpec.

(** * The order *)
Lemma prec_eq_ok : forall l r, prec_eq l r = true <-> l = r.
Proof.
  induction l as [|a l IH]; intros [|b r]; cbn [prec_eq]; split; intros H; try discriminate; try reflexivity.
  - apply andb_true_iff in H. destruct H as (A & B). apply Z.eqb_eq in A. apply IH in B. congruence.
  - injection H as -> H. apply IH in H. rewrite H, Z.eqb_refl. reflexivity.
Qed.
Lemma prec_eq_refl : forall l, prec_eq l l = true. Proof. intros l. apply prec_eq_ok. reflexivity. Qed.
Lemma lt_irrefl : forall l, prec_lt l l = false. Proof. intros l. unfold prec_lt. rewrite prec_eq_refl. reflexivity. Qed.
Lemma lt_loop : forall l r, prec_lt l r = true <-> l <> r /\ less_loop l r = true.
Proof.
  intros l r. unfold prec_lt. destruct (prec_eq l r) eqn:E.
  - apply prec_eq_ok in E. split; [discriminate|intros (A & _); congruence].
  - split; [intros H; split; [intros ->; rewrite prec_eq_refl in E; discriminate|exact H]|intros (_ & H); exact H].
Qed.
Lemma lt_cons : forall a l b r, prec_lt (a :: l) (b :: r) = true <-> a < b \/ a = b /\ prec_lt l r = true.
Proof.
  intros a l b r. rewrite !lt_loop. cbn [less_loop]. destruct (Z.ltb_spec a b); destruct (Z.ltb_spec b a); try lia.
  - split; [auto|intros _; split; [intros E; injection E as -> _; lia|reflexivity]].
  - assert (a = b) by lia. subst b. split.
    + intros (N & L). right. split; [reflexivity|]. split; [congruence|exact L].
    + intros [L|(_ & N & L)]; [lia|]. split; [congruence|exact L].
Qed.
Lemma lt_nil : forall l, prec_lt [] l = false. Proof. intros [|b l]; reflexivity. Qed.
Lemma lt_to_nil : forall l, prec_lt l [] = true <-> l <> []. Proof. intros [|a l]; split; try reflexivity; try discriminate; congruence. Qed.
Lemma lt_trans : forall a b c, prec_lt a b = true -> prec_lt b c = true -> prec_lt a c = true.
Proof.
  induction a as [|x a IH]; intros [|y b] [|z c] A B; rewrite ?lt_nil in *; try discriminate; try reflexivity.
  apply lt_cons in A. apply lt_cons in B. apply lt_cons. destruct A as [A|(-> & A)], B as [B|(-> & B)]; try lia; auto. right. split; [reflexivity|exact (IH b c A B)].
Qed.
Lemma lt_total : forall a b, prec_lt a b = true \/ a = b \/ prec_lt b a = true.
Proof.
  induction a as [|x a IH]; intros [|y b]; auto. rewrite !lt_cons. destruct (IH b) as [H|[->|H]]; destruct (Z.lt_total x y) as [X|[->|X]]; auto.
Qed.
Lemma lt_asym : forall a b, prec_lt a b = true -> prec_lt b a = false.
Proof. intros a b H. destruct (prec_lt b a) eqn:E; [|reflexivity]. pose proof (lt_trans a b a H E) as X. rewrite lt_irrefl in X. discriminate. Qed.
Lemma gt_ok : forall a b, prec_gt a b = true <-> prec_lt b a = true.
Proof.
  intros a b. unfold prec_gt. destruct (lt_total a b) as [H|[->|H]].
  - rewrite H, (lt_asym a b H), andb_false_r. reflexivity.
  - rewrite lt_irrefl, prec_eq_refl. reflexivity.
  - rewrite H, (lt_asym b a H). destruct (prec_eq a b) eqn:E; [|tauto]. apply prec_eq_ok in E. subst b. rewrite lt_irrefl in H. discriminate.
Qed.
Lemma lt_app : forall p a b, prec_lt (p ++ a) (p ++ b) = prec_lt a b.
Proof.
  intros p a b. induction p as [|x p IH]; [reflexivity|]. cbn [app]. destruct (prec_lt a b) eqn:E.
  - apply lt_cons. auto.
  - destruct (prec_lt (x :: p ++ a) (x :: p ++ b)) eqn:F; [|reflexivity]. apply lt_cons in F. destruct F as [F|(_ & F)]; [lia|congruence].
Qed.
Lemma start_ok : forall l o, (length l <= length o)%nat -> (same_start l o = true <-> exists c, o = l ++ c).
Proof.
  induction l as [|a l IH]; intros o L; cbn [same_start]; [split; [exists o; reflexivity|reflexivity]|]. destruct o as [|b o]; [cbn in L; lia|]. cbn in L. rewrite andb_true_iff, (IH o) by lia. split.
  - intros (E & c & ->). apply Z.eqb_eq in E. subst b. exists c. reflexivity.
  - intros (c & E). injection E as -> ->. rewrite Z.eqb_refl. eauto.
Qed.
Lemma descendant_ok : forall l o, is_descendant l o = true <-> exists i c, o = l ++ i :: c.
Proof.
  intros l o. unfold is_descendant. destruct (Nat.leb_spec (length o) (length l)) as [L|L].
  - split; [discriminate|]. intros (i & c & ->). rewrite app_length in L. cbn in L. lia.
  - rewrite start_ok by lia. split; [|intros (i & c & ->); eauto]. intros (c & ->). destruct c as [|i c]; [rewrite app_nil_r in L; lia|eauto].
Qed.
Lemma code_app : forall a b, code (a ++ b) = code a ++ map (fun i => Z.of_nat i + 1) b.
Proof. intros a b. unfold code. rewrite map_app. reflexivity. Qed.
Lemma code_inj : forall a b, code a = code b -> a = b.
Proof.
  intros a b E. injection E as E. revert b E. induction a as [|x a IH]; intros [|y b] E; cbn in E; try discriminate; [reflexivity|]. injection E as X E. f_equal; [lia|exact (IH b E)].
Qed.
Lemma code_descendant : forall a b, is_descendant (code a) (code b) = true <-> imports_from a b.
Proof.
  intros a b. rewrite descendant_ok. split.
  - intros (i & c & E). unfold code in E. cbn [app] in E. injection E as E. revert b E. induction a as [|x a IH]; intros [|y b] E; cbn in E; try discriminate.
    + exists y, b. reflexivity.
    + injection E as X E. destruct (IH b E) as (j & d & ->). exists j, d. cbn. f_equal. lia.
  - intros (i & c & ->). rewrite code_app. cbn [map]. eauto.
Qed.

(** * Compiling *)
Section Compile.
  Context {T : Type}.
  (** The stylesheets that are imported, as they are. *)
  Fixpoint lists_of (i : item T) : list (list (item T)) :=
    match i with Declares _ => [] | Includes l => concat (map lists_of l) | Imports l => [l] end.
  Section Item.
    Variable P : item T -> Prop.
    Hypothesis PD : forall t, P (Declares t).
    Hypothesis PI : forall l, Forall P l -> P (Includes l).
    Hypothesis PM : forall l, Forall P l -> P (Imports l).
    Fixpoint item_ind2 (i : item T) : P i :=
      let go := fix go (l : list (item T)) : Forall P l := match l with [] => Forall_nil P | x :: l => Forall_cons x (item_ind2 x) (go l) end in
      match i with Declares t => PD t | Includes l => PI l (go l) | Imports l => PM l (go l) end.
  End Item.
  Lemma imported_lists : forall i : item T, imported_of i = map tree_of (lists_of i).
  Proof.
    induction i as [t|l H|l H] using item_ind2; [reflexivity| |reflexivity]. cbn [imported_of lists_of]. induction H as [|x l E H IH]; [reflexivity|]. cbn [map concat]. rewrite map_app, E, IH. reflexivity.
  Qed.
  Lemma imported_all : forall l : list (item T), concat (map imported_of l) = map tree_of (concat (map lists_of l)).
  Proof. induction l as [|x l IH]; [reflexivity|]. cbn [map concat]. rewrite map_app, imported_lists, IH. reflexivity. Qed.
  (** The pending imports of a stylesheet of precedence [p] that has [k] already. *)
  Fixpoint numbered (p : precedence) (k : Z) (ls : list (list (item T))) : list (list (item T) * precedence) :=
    match ls with [] => [] | l :: ls => (l, p ++ [k + 1]) :: numbered p (k + 1) ls end.
  Lemma numbered_app : forall p ls ms k, numbered p k (ls ++ ms) = numbered p k ls ++ numbered p (k + Z.of_nat (length ls)) ms.
  Proof.
    intros p ls ms. induction ls as [|l ls IH]; intros k; cbn [app numbered length]; [f_equal; lia|]. rewrite IH. do 3 f_equal. lia.
  Qed.
  Definition tagged (p : precedence) (l : list T) : list (T * precedence) := map (fun t => (t, p)) l.
  Lemma tagged_app : forall p l m, tagged p (l ++ m) = tagged p l ++ tagged p m. Proof. intros. apply map_app. Qed.
  Definition read (own : list T) (ls : list (list (item T))) (r : reading T) : reading T :=
    Reading (r_prec r) (r_kids r + Z.of_nat (length ls)) (r_pending r ++ numbered (r_prec r) (r_kids r) ls) (r_out r ++ tagged (r_prec r) own).
  Lemma read_read : forall o1 l1 o2 l2 r, read o2 l2 (read o1 l1 r) = read (o1 ++ o2) (l1 ++ l2) r.
  Proof.
    intros o1 l1 o2 l2 r. unfold read. cbn [r_prec r_kids r_pending r_out]. rewrite numbered_app, tagged_app, app_length, <- !app_assoc. f_equal. lia.
  Qed.
  Lemma read_none : forall r, read [] [] r = r.
  Proof. intros [p k q o]. unfold read. cbn. rewrite !app_nil_r. f_equal. lia. Qed.
  Lemma read_item_ok : forall i r, read_item i r = read (own_of i) (lists_of i) r.
  Proof.
    induction i as [t|l H|l H] using item_ind2; intros r.
    - unfold read. cbn. rewrite app_nil_r. f_equal. lia.
    - cbn [read_item own_of lists_of]. revert r. induction H as [|x l E H IH]; intros r; [symmetry; apply read_none|]. cbn [fold_left map concat]. rewrite E, IH, read_read. reflexivity.
    - unfold read. cbn. rewrite app_nil_r. reflexivity.
  Qed.
  Lemma read_items_ok : forall l r, read_items l r = read (concat (map own_of l)) (concat (map lists_of l)) r.
  Proof.
    induction l as [|x l IH]; intros r; [symmetry; apply read_none|]. unfold read_items in *. cbn [fold_left map concat]. rewrite read_item_ok, IH, read_read. reflexivity.
  Qed.

  (** All declarations below, in the order in which they are added. *)
  Fixpoint added (p : precedence) (t : tree T) : list (T * precedence) :=
    match t with
    | Tree own l => tagged p own ++ (fix go (k : Z) (l : list (tree T)) : list (T * precedence) :=
        match l with [] => [] | t :: l => go (k + 1) l ++ added (p ++ [k + 1]) t end) 0 l
    end.
  Fixpoint added_all (p : precedence) (k : Z) (l : list (tree T)) : list (T * precedence) :=
    match l with [] => [] | t :: l => added_all p (k + 1) l ++ added (p ++ [k + 1]) t end.
  Lemma added_eq : forall p own l, added p (Tree own l) = tagged p own ++ added_all p 0 l.
  Proof. intros p own l. cbn [added]. f_equal. generalize 0. induction l as [|t l IH]; intros k; [reflexivity|]. cbn [added_all]. rewrite <- IH. reflexivity. Qed.
  Definition added_pending (q : list (list (item T) * precedence)) : list (T * precedence) := concat (map (fun lp => added (snd lp) (tree_of (fst lp))) (rev q)).
  Lemma added_numbered : forall p ls k, added_pending (numbered p k ls) = added_all p k (map tree_of ls).
  Proof.
    intros p ls. induction ls as [|l ls IH]; intros k; [reflexivity|]. unfold added_pending in *. cbn [numbered rev map added_all]. rewrite map_app, concat_app, IH. cbn [map concat fst snd]. rewrite app_nil_r. reflexivity.
  Qed.
  Lemma pending_app : forall a b, added_pending (a ++ b) = added_pending b ++ added_pending a.
  Proof. intros a b. unfold added_pending. rewrite rev_app_distr, map_app, concat_app. reflexivity. Qed.
  Definition weight (q : list (list (item T) * precedence)) : nat := list_sum (map (fun lp => S (list_sum (map imports (fst lp)))) q).
  Lemma weight_app : forall a b, weight (a ++ b) = (weight a + weight b)%nat.
  Proof. intros a b. unfold weight. rewrite map_app, list_sum_app. reflexivity. Qed.
  Lemma weight_item : forall i : item T, imports i = list_sum (map (fun l => S (list_sum (map imports l))) (lists_of i)).
  Proof.
    induction i as [t|l H|l H] using item_ind2; [reflexivity| |cbn; rewrite Nat.add_0_r; reflexivity]. cbn [imports lists_of]. induction H as [|x l E H IH]; [reflexivity|]. cbn [map concat]. rewrite map_app, list_sum_app. cbn [list_sum fold_right]. rewrite E. f_equal. exact IH.
  Qed.
  Lemma weight_numbered : forall p l k, weight (numbered p k (concat (map lists_of l))) = list_sum (map imports l).
  Proof.
    intros p l k. assert (W : forall ls k, weight (numbered p k ls) = list_sum (map (fun l => S (list_sum (map imports l))) ls)).
    { induction ls as [|m ls IH]; intros j; [reflexivity|]. unfold weight in *. cbn [numbered map list_sum fold_right fst]. f_equal. apply IH. }
    rewrite W. induction l as [|x l IH]; [reflexivity|]. cbn [map concat]. rewrite map_app, list_sum_app. cbn [list_sum fold_right]. rewrite <- weight_item. f_equal. exact IH.
  Qed.
  Lemma unwind_ok : forall fuel r, (weight (r_pending r) <= fuel)%nat -> exists r', unwind fuel r = Some r' /\ r_out r' = r_out r ++ added_pending (r_pending r).
  Proof.
    induction fuel as [|fuel IH]; intros [p k q o] W; cbn [r_pending r_out] in *.
    - destruct q as [|x q]; [|exfalso; unfold weight in W; cbn [map list_sum fold_right] in W; lia]. exists (Reading p k [] o). split; [reflexivity|]. cbn. rewrite app_nil_r. reflexivity.
    - destruct q as [|x0 q0] using rev_ind; [exists (Reading p k [] o); split; [reflexivity|cbn; rewrite app_nil_r; reflexivity]|]. clear IHq0. destruct x0 as (l & pl). cbn [unwind r_pending r_out].
      rewrite app_length. cbn [length]. replace (length q0 + 1 - 1)%nat with (length q0) by lia. rewrite nth_error_app2, Nat.sub_diag by lia. cbn [nth_error]. rewrite read_items_ok. unfold read. cbn [r_prec r_kids r_pending r_out].
      rewrite <- app_assoc. rewrite firstn_app, Nat.sub_diag, firstn_all. cbn [firstn]. rewrite app_nil_r. replace (skipn (S (length q0)) (q0 ++ [(l, pl)] ++ numbered pl 0 (concat (map lists_of l)))) with (numbered pl 0 (concat (map lists_of l))).
      + rewrite weight_app in W. unfold weight at 2 in W. cbn [map list_sum fold_right fst] in W. destruct (IH (Reading pl (0 + Z.of_nat (length (concat (map lists_of l)))) (q0 ++ numbered pl 0 (concat (map lists_of l))) (o ++ tagged pl (concat (map own_of l))))) as (r' & E & O).
        { cbn [r_pending]. rewrite weight_app, weight_numbered. unfold list_sum. lia. }
        exists r'. split; [exact E|]. cbn [r_out r_pending] in O. rewrite O, !pending_app, added_numbered, <- imported_all. unfold added_pending at 2. cbn [rev app map concat fst snd]. unfold tree_of. rewrite added_eq, app_nil_r, <- !app_assoc. reflexivity.
      + rewrite skipn_app, skipn_all2 by lia. replace (S (length q0) - length q0)%nat with 1%nat by lia. reflexivity.
  Qed.
  Lemma compile_added : forall l, compile l = Some (added initial_precedence (tree_of l)).
  Proof.
    intros l. unfold compile. rewrite read_items_ok. destruct (unwind_ok (list_sum (map imports l)) (read (concat (map own_of l)) (concat (map lists_of l)) (Reading initial_precedence 0 [] []))) as (r' & -> & O).
    - unfold read. cbn [r_prec r_kids r_pending app]. rewrite weight_numbered. lia.
    - f_equal. rewrite O. unfold read. cbn [r_prec r_kids r_pending r_out app]. rewrite added_numbered, <- imported_all. unfold tree_of. rewrite added_eq. reflexivity.
  Qed.

  (** * The traversal *)
  Fixpoint visit_all (a : address) (i : nat) (l : list (tree T)) : list (address * list T) :=
    match l with [] => [] | t :: l => visit (a ++ [i]) t ++ visit_all a (S i) l end.
  Lemma visit_eq : forall a own (l : list (tree T)), visit a (Tree own l) = visit_all a 0 l ++ [(a, own)].
  Proof. intros a own l. cbn [visit]. f_equal. generalize 0%nat. induction l as [|t l IH]; intros i; [reflexivity|]. cbn [visit_all]. rewrite <- IH. reflexivity. Qed.
  Section Tree.
    Variable P : tree T -> Prop.
    Hypothesis PT : forall own l, Forall P l -> P (Tree own l).
    Fixpoint tree_ind2 (t : tree T) : P t :=
      match t with Tree own l => PT own l ((fix go (l : list (tree T)) : Forall P l := match l with [] => Forall_nil P | x :: l => Forall_cons x (tree_ind2 x) (go l) end) l) end.
  End Tree.
  Definition listed (v : list (address * list T)) : list (T * precedence) := concat (map (fun x => tagged (code (fst x)) (snd x)) (rev v)).
  Lemma listed_app : forall v w, listed (v ++ w) = listed w ++ listed v.
  Proof. intros v w. unfold listed. rewrite rev_app_distr, map_app, concat_app. reflexivity. Qed.
  Lemma added_listed : forall t a, added (code a) t = listed (visit a t).
  Proof.
    induction t as [own l H] using tree_ind2. intros a. rewrite added_eq, visit_eq, listed_app. unfold listed at 1. cbn [rev app map concat fst snd]. rewrite app_nil_r. f_equal.
    assert (G : forall i, added_all (code a) (Z.of_nat i) l = listed (visit_all a i l)).
    { induction H as [|t l E H IH]; intros i; [reflexivity|]. cbn [added_all visit_all]. rewrite listed_app, <- E, code_app. cbn [map]. replace (Z.of_nat i + 1) with (Z.of_nat (S i)) at 1 by lia. rewrite IH. reflexivity. }
    exact (G O).
  Qed.
  Lemma compile_lemma : forall l : list (item T), compile l = Some (concat (map (fun x => map (fun t => (t, code (fst x))) (snd x)) (rev (visit [] (tree_of l))))).
  Proof. intros l. rewrite compile_added. change initial_precedence with (code []). rewrite added_listed. reflexivity. Qed.

  Definition rises (a b : address) : Prop := prec_lt (code a) (code b) = true.
  Lemma visit_below : forall (t : tree T) a b, In b (map fst (visit a t)) -> exists c, b = a ++ c.
  Proof.
    induction t as [own l H] using tree_ind2. intros a b I. rewrite visit_eq, map_app, in_app_iff in I. destruct I as [I|[<-|[]]]; [|exists []; rewrite app_nil_r; reflexivity].
    revert I. generalize 0%nat. induction H as [|t l E H IH]; intros i I; [contradiction|]. cbn [visit_all] in I. rewrite map_app, in_app_iff in I. destruct I as [I|I]; [|exact (IH (S i) I)]. destruct (E _ _ I) as (c & ->). exists (i :: c). rewrite <- app_assoc. reflexivity.
  Qed.
  Lemma visit_all_below : forall (l : list (tree T)) a i b, In b (map fst (visit_all a i l)) -> exists j c, b = a ++ j :: c /\ (i <= j)%nat.
  Proof.
    induction l as [|t l IH]; intros a i b I; [contradiction|]. cbn [visit_all] in I. rewrite map_app, in_app_iff in I. destruct I as [I|I].
    - destruct (visit_below _ _ _ I) as (c & ->). exists i, c. rewrite <- app_assoc. split; [reflexivity|lia].
    - destruct (IH a (S i) b I) as (j & c & -> & L). exists j, c. split; [reflexivity|lia].
  Qed.
  Lemma ss_app : forall (R : address -> address -> Prop) l m, StronglySorted R l -> StronglySorted R m -> (forall x y, In x l -> In y m -> R x y) -> StronglySorted R (l ++ m).
  Proof.
    intros R l m HL HM H. induction HL as [|x l HL IH F]; [exact HM|]. cbn. constructor.
    - apply IH. intros y z Y Z. apply H; [right; exact Y|exact Z].
    - apply Forall_app. split; [exact F|]. apply Forall_forall. intros y Y. apply H; [left; reflexivity|exact Y].
  Qed.
  Lemma visit_rises : forall (t : tree T) a, StronglySorted rises (map fst (visit a t)).
  Proof.
    induction t as [own l H] using tree_ind2. intros a. rewrite visit_eq, map_app. apply ss_app.
    - generalize 0%nat. induction H as [|t l E H IH]; intros i; [constructor|]. cbn [visit_all]. rewrite map_app. apply ss_app; [apply E|apply IH|]. intros x y X Y. destruct (visit_below _ _ _ X) as (c & ->). destruct (visit_all_below _ _ _ _ Y) as (j & c' & -> & L).
      unfold rises. rewrite <- app_assoc, !code_app, lt_app. cbn [app map]. apply lt_cons. left. lia.
    - repeat constructor.
    - intros x y X [<-|[]]. destruct (visit_all_below _ _ _ _ X) as (j & c & -> & _). change (prec_lt (code (a ++ j :: c)) (code a) = true). rewrite code_app. rewrite <- (app_nil_r (code a)) at 2. rewrite lt_app. apply lt_to_nil. discriminate.
  Qed.
End Compile.

(** * What follows for addresses *)
Lemma tree_rises : forall T (l : list (item T)), StronglySorted (fun a b => prec_lt (code a) (code b) = true) (map fst (visit [] (tree_of l))).
Proof. intros T l. exact (visit_rises (tree_of l) []). Qed.
Lemma importing_beats : forall a b, imports_from a b -> prec_lt (code b) (code a) = true.
Proof.
  intros a b (i & c & ->). unfold code. rewrite map_app. change (0 :: map (fun i => Z.of_nat i + 1) a) with ([0] ++ map (fun i => Z.of_nat i + 1) a). unfold prec_lt. cbn [app map prec_eq less_loop]. rewrite Z.eqb_refl, Z.ltb_irrefl. cbn [andb]. induction a as [|x a IH]; [reflexivity|]. cbn [app map prec_eq less_loop]. rewrite Z.eqb_refl, Z.ltb_irrefl. cbn [andb]. exact IH.
Qed.
Lemma later_beats : forall a i j b c, (i < j)%nat -> prec_lt (code (a ++ i :: b)) (code (a ++ j :: c)) = true.
Proof.
  intros a i j b c L. unfold code, prec_lt. rewrite !map_app. cbn [map prec_eq less_loop]. rewrite Z.eqb_refl, Z.ltb_irrefl. cbn [andb]. induction a as [|x a IH]; cbn [app map prec_eq less_loop].
  - destruct (Z.eqb_spec (Z.of_nat i + 1) (Z.of_nat j + 1)); [lia|]. cbn [andb]. destruct (Z.ltb_spec (Z.of_nat i + 1) (Z.of_nat j + 1)); [reflexivity|lia].
  - rewrite Z.eqb_refl, Z.ltb_irrefl. cbn [andb]. exact IH.
Qed.
