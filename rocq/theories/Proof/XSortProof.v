From Coq Require Import String SpecFloat Sorted Permutation.
From Verif.Model Require Import Base Containers XNode XNodeSet XNumber Template XSort.
From Verif.Spec Require Import XOrder XNodeSetSpec XSortSpec.
From Verif.Proof Require Import Tac ContainersProof XNodeSetProof XCompareProof TemplateProof.
From Coq Require Import List.
Import ListNotations.
Open Scope Z_scope.

(** * Strict weak orders *)
Definition weak {A} (less : A -> A -> bool) : Prop :=
  (forall x y, less x y = true -> less y x = false) /\ (forall x y z, less y x = false -> less z y = false -> less z x = false).
Definition flip {A} (less : A -> A -> bool) (x y : A) : bool := less y x.
Definition lex {A} (a b : A -> A -> bool) (x y : A) : bool := a x y || (negb (a y x) && b x y).
Lemma weak_flip : forall A (less : A -> A -> bool), weak less -> weak (flip less).
Proof. intros A less (H1 & H2). unfold flip. split; [intros x y; apply H1|]. intros x y z X Y. exact (H2 z y x Y X). Qed.
Lemma weak_lex : forall A (a b : A -> A -> bool), weak a -> weak b -> weak (lex a b).
Proof.
  intros A a b (A1 & A2) (B1 & B2). unfold lex. split.
  - intros x y H. destruct (a x y) eqn:E; [rewrite (A1 x y E); reflexivity|]. cbn [orb] in H. apply andb_true_iff in H. destruct H as (H & B). apply negb_true_iff in H. rewrite H, (B1 x y B). reflexivity.
  - intros x y z X Y. apply orb_false_iff in X, Y. destruct X as (X & BX), Y as (Y & BY). rewrite (A2 x y z X Y). cbn [orb]. destruct (a x z) eqn:E; [reflexivity|]. cbn [negb andb]. rewrite (A2 y z x Y E) in BX. rewrite (A2 z x y E X) in BY. cbn [negb andb] in *. exact (B2 x y z BX BY).
Qed.
Lemma weak_pull : forall A B (f : A -> B) (less : B -> B -> bool), weak less -> weak (fun x y => less (f x) (f y)).
Proof. intros A B f less (H1 & H2). split; [intros x y; apply H1|intros x y z; apply H2]. Qed.
Lemma weak_none : forall A, weak (fun _ _ : A => false).
Proof. intros A. split; auto. Qed.
Lemma weak_text : weak str_ltb.
Proof.
  split; [intros x y; apply str_ltb_asym|]. intros x y z X Y. destruct (str_ltb z x) eqn:E; [|reflexivity]. destruct (str_ltb x y) eqn:F; [rewrite (str_ltb_trans z x y E F) in Y; discriminate|]. rewrite (str_ltb_total x y F X) in E. congruence.
Qed.
(** * Numbers *)
Definition num_lt (a b : spec_float) : bool := if is_nan a then negb (is_nan b) else if is_nan b then false else SFltb a b.
Lemma ltb_asym : forall a b, is_nan a = false -> is_nan b = false -> SFltb a b = true -> SFltb b a = false.
Proof. intros a b A B H. apply ltb_key in H; auto. destruct (SFltb b a) eqn:E; [|reflexivity]. apply ltb_key in E; auto. exfalso. destruct (key a) as ((a1, a2), a3), (key b) as ((b1, b2), b3). unfold klt in *. lia. Qed.
Lemma weak_number : weak num_lt.
Proof.
  unfold num_lt. split.
  - intros x y. destruct (is_nan x) eqn:X, (is_nan y) eqn:Y; cbn; try congruence. apply ltb_asym; assumption.
  - intros x y z. destruct (is_nan x) eqn:X, (is_nan y) eqn:Y, (is_nan z) eqn:Z; cbn; try congruence. intros A B. destruct (SFltb z x) eqn:E; [|reflexivity]. exfalso. apply ltb_key in E; auto.
    assert (A' : ~ klt (key y) (key x)) by (intros H; apply ltb_key in H; auto; congruence). assert (B' : ~ klt (key z) (key y)) by (intros H; apply ltb_key in H; auto; congruence).
    destruct (key x) as ((a1, a2), a3), (key y) as ((b1, b2), b3), (key z) as ((c1, c2), c3). unfold klt in *. lia.
Qed.
Lemma eqb_lt : forall a b, is_nan a = false -> is_nan b = false -> SFeqb a b = negb (SFltb a b) && negb (SFltb b a).
Proof.
  intros a b A B. unfold SFeqb. pose proof (ltb_key a b A B) as L1. pose proof (ltb_key b a B A) as L2. destruct (compare_key a b A B) as (c & -> & K). destruct (key a) as ((a1, a2), a3), (key b) as ((b1, b2), b3). unfold klt in *. destruct c.
  - injection K as -> -> ->. destruct (SFltb a b); [exfalso; destruct L1 as (L1 & _); specialize (L1 eq_refl); lia|]. destruct (SFltb b a); [exfalso; destruct L2 as (L2 & _); specialize (L2 eq_refl); lia|]. reflexivity.
  - rewrite (proj2 L1 K). reflexivity.
  - assert (X : b1 < a1 \/ b1 = a1 /\ (b2 < a2 \/ b2 = a2 /\ b3 < a3)) by lia. rewrite (proj2 L2 X). rewrite andb_false_r. reflexivity.
Qed.
Definition sub_of (sub : option bool) : bool := match sub with Some b => b | None => false end.
Lemma ascending_ok : forall v1 v2 sub, number_sort v1 v2 sub nan_ascending (fun a b => SFltb a b) = num_lt v1 v2 || negb (num_lt v2 v1) && sub_of sub.
Proof.
  intros v1 v2 sub. unfold number_sort, num_lt, nan_ascending. destruct (is_nan v1) eqn:N1, (is_nan v2) eqn:N2; cbn [andb orb negb].
  - destruct sub; reflexivity.
  - destruct sub; cbn; [|reflexivity]. destruct (SFeqb v1 v2) eqn:E; [|reflexivity]. destruct v1; discriminate.
  - destruct sub; cbn; [|reflexivity]. destruct (SFeqb v1 v2) eqn:E; [|reflexivity]. destruct v2; try discriminate; destruct v1; discriminate.
  - destruct sub as [b|]; cbn [sub_of]; [|rewrite andb_false_r, orb_false_r; reflexivity]. rewrite (eqb_lt v1 v2 N1 N2). destruct (SFltb v1 v2) eqn:L1; [reflexivity|]. destruct (SFltb v2 v1); reflexivity.
Qed.
Lemma descending_ok : forall v1 v2 sub, number_sort v1 v2 sub nan_descending (fun a b => SFltb b a) = num_lt v2 v1 || negb (num_lt v1 v2) && sub_of sub.
Proof.
  intros v1 v2 sub. unfold number_sort, num_lt, nan_descending. destruct (is_nan v1) eqn:N1, (is_nan v2) eqn:N2; cbn [andb orb negb].
  - destruct sub; reflexivity.
  - destruct sub; cbn; [|reflexivity]. destruct (SFeqb v1 v2) eqn:E; [|reflexivity]. destruct v1; discriminate.
  - destruct sub; cbn; [|reflexivity]. destruct (SFeqb v1 v2) eqn:E; [|reflexivity]. destruct v2; try discriminate; destruct v1; discriminate.
  - destruct sub as [b|]; cbn [sub_of]; [|rewrite andb_false_r, orb_false_r; reflexivity]. rewrite (eqb_lt v1 v2 N1 N2). destruct (SFltb v1 v2) eqn:L1; [rewrite (ltb_asym v1 v2 N1 N2 L1); reflexivity|]. destruct (SFltb v2 v1); reflexivity.
Qed.
Lemma strings_ok : forall v1 v2 sub, string_sort v1 v2 sub (fun a b => str_ltb a b) = str_ltb v1 v2 || negb (str_ltb v2 v1) && sub_of sub.
Proof.
  intros v1 v2 [b|]; unfold string_sort; cbn [sub_of]; [|rewrite andb_false_r, orb_false_r; reflexivity]. destruct (str_eqb v1 v2) eqn:E.
  - apply str_eqb_ok in E. subst v2. rewrite str_ltb_irrefl. reflexivity.
  - destruct (str_ltb v1 v2) eqn:L1; [reflexivity|]. destruct (str_ltb v2 v1) eqn:L2; [reflexivity|]. rewrite (str_ltb_total v1 v2 L1 L2), (proj2 (str_eqb_ok _ _) eq_refl) in E. discriminate.
Qed.
Lemma strings_down : forall v1 v2 sub, string_sort v1 v2 sub (fun a b => str_ltb b a) = str_ltb v2 v1 || negb (str_ltb v1 v2) && sub_of sub.
Proof.
  intros v1 v2 [b|]; unfold string_sort; cbn [sub_of]; [|rewrite andb_false_r, orb_false_r; reflexivity]. destruct (str_eqb v1 v2) eqn:E.
  - apply str_eqb_ok in E. subst v2. rewrite str_ltb_irrefl. reflexivity.
  - destruct (str_ltb v2 v1) eqn:L1; [reflexivity|]. destruct (str_ltb v1 v2) eqn:L2; [reflexivity|]. rewrite (str_ltb_total v1 v2 L2 L1), (proj2 (str_eqb_ok _ _) eq_refl) in E. discriminate.
Qed.
(** * The comparison is lexicographic *)
Definition less1 (s : sort_element) (f : sort_fn) (last : Z) : xnode -> xnode -> bool :=
  match f with
  | NumberAscending => fun x y => num_lt (se_number s x 1 last) (se_number s y 1 last)
  | NumberDescending => fun x y => num_lt (se_number s y 1 last) (se_number s x 1 last)
  | StringAscending => fun x y => str_ltb (se_text s x 1 last) (se_text s y 1 last)
  | StringDescending => fun x y => str_ltb (se_text s y 1 last) (se_text s x 1 last)
  end.
Lemma less1_weak : forall s f last, weak (less1 s f last).
Proof.
  intros s f last. destruct f; unfold less1.
  - exact (weak_pull _ _ (fun x => se_number s x 1 last) _ weak_number).
  - exact (weak_pull _ _ (fun x => se_number s x 1 last) _ (weak_flip _ _ weak_number)).
  - exact (weak_pull _ _ (fun x => se_text s x 1 last) _ weak_text).
  - exact (weak_pull _ _ (fun x => se_text s x 1 last) _ (weak_flip _ _ weak_text)).
Qed.
Lemma less_lex : forall s f r last x y, sort_less ((s, f) :: r) last x y = lex (less1 s f last) (sort_less r last) x y.
Proof.
  intros s f r last x y. cbn [sort_less]. assert (S : sub_of match r with [] => None | _ => Some (sort_less r last x y) end = sort_less r last x y) by (destruct r; reflexivity). unfold lex, less1. destruct f.
  - rewrite ascending_ok, S. reflexivity.
  - rewrite descending_ok, S. reflexivity.
  - rewrite strings_ok, S. reflexivity.
  - rewrite strings_down, S. reflexivity.
Qed.
Lemma less_weak : forall ks last, weak (sort_less ks last).
Proof.
  intros ks last. induction ks as [|(s, f) r IH]; [exact (weak_none _)|]. destruct (weak_lex _ _ _ (less1_weak s f last) IH) as (H1 & H2). split.
  - intros x y. rewrite !less_lex. apply H1.
  - intros x y z. rewrite !less_lex. apply H2.
Qed.
Lemma less_strict_weak : forall ks last l, strict_weak (sort_less ks last) l.
Proof.
  intros ks last l. destruct (less_weak ks last) as (H1 & H2). split; [|split].
  - intros x _. destruct (sort_less ks last x x) eqn:E; [|reflexivity]. rewrite (H1 x x E) in E. discriminate.
  - intros x y z _ _ _ A B. destruct (sort_less ks last x z) eqn:E; [reflexivity|]. rewrite (H2 y z x (H1 _ _ B) E) in A. discriminate.
  - intros x y z _ _ _ A B C D. split; [exact (H2 z y x C A)|exact (H2 x y z B D)].
Qed.
(** * The specification *)
Lemma number_before_ok : forall a b, number_before a b <-> num_lt a b = true.
Proof.
  intros a b. unfold number_before, num_lt. split.
  - intros [(-> & N)|L]; [destruct b; try reflexivity; congruence|]. destruct (is_nan a) eqn:A; [destruct a; try discriminate; destruct b; discriminate|]. destruct (is_nan b) eqn:B; [destruct b; try discriminate; destruct a; discriminate|exact L].
  - destruct (is_nan a) eqn:A.
    + intros B. left. destruct a; try discriminate. split; [reflexivity|]. intros ->. discriminate.
    + destruct (is_nan b); [discriminate|]. right. assumption.
Qed.
Lemma text_before_ok : forall a b, text_before a b <-> str_ltb a b = true.
Proof.
  intros a b. split.
  - intros H. induction H as [c b|c d a b L|c a b H IH]; cbn [str_ltb]; [reflexivity|destruct (Z.ltb_spec c d); [reflexivity|lia]|]. rewrite Z.ltb_irrefl. exact IH.
  - revert b. induction a as [|c a IH]; intros [|d b] H; cbn [str_ltb] in H; try discriminate; [constructor|]. destruct (Z.ltb_spec c d); [constructor; assumption|]. destruct (Z.ltb_spec d c); [discriminate|]. assert (c = d) by lia. subst d. apply TextSame. exact (IH b H).
Qed.
Lemma key_before_ok : forall s f, valid s -> position_free s -> set_context s = Some f -> forall last n x px y py, key_before s n x px y py <-> less1 s f last x y = true.
Proof.
  intros s f (D & O & C) P E last n x px y py. unfold set_context in E. destruct (negb (is_allowed _ _ (se_data_type s))); [discriminate|]. destruct (negb (is_allowed _ _ (se_order s))); [discriminate|]. destruct (negb (is_allowed _ _ (se_case_order s))); [discriminate|]. injection E as <-. unfold key_before.
  destruct (P x px n 1 last) as (P1 & P2), (P y py n 1 last) as (P3 & P4). rewrite P1, P2, P3, P4. clear - O. assert (DE : str_eqb (ascii_str "descending") (ascii_str "ascending") = false) by reflexivity. assert (ED : str_eqb (ascii_str "ascending") (ascii_str "descending") = false) by reflexivity. assert (DD : str_eqb (ascii_str "descending") (ascii_str "descending") = true) by reflexivity. assert (EE : str_eqb (ascii_str "ascending") (ascii_str "ascending") = true) by reflexivity.
  destruct O as [<-|[<-|[]]]; rewrite ?DE, ?ED, ?DD, ?EE; destruct (str_eqb (se_data_type s) (ascii_str "number")); unfold less1; (apply number_before_ok || apply text_before_ok).
Qed.
Lemma sorted_before_ok : forall l ks, Forall valid l -> Forall position_free l -> set_contexts l = Some ks -> forall last n x px y py, sorted_before l n x px y py <-> sort_less ks last x y = true.
Proof.
  induction l as [|s l IH]; intros ks V P E last n x px y py; cbn [set_contexts] in E; [injection E as <-; cbn; split; [contradiction|discriminate]|]. inversion V as [|? ? V1 V2]; subst. inversion P as [|? ? P1 P2]; subst. destruct (set_context s) as [f|] eqn:SC; [|discriminate]. destruct (set_contexts l) as [r|] eqn:SR; [|discriminate]. injection E as <-. rewrite less_lex. cbn [sorted_before]. rewrite (key_before_ok s f V1 P1 SC last), (key_before_ok s f V1 P1 SC last), (IH r V2 P2 eq_refl last). unfold lex. rewrite orb_true_iff, andb_true_iff, negb_true_iff. destruct (less1 s f last y x); split; intros H; intuition congruence.
Qed.
Lemma set_context_ok : forall s, set_context s <> None <-> valid s.
Proof.
  intros s. unfold set_context, valid. assert (A : forall a b v, is_allowed a b v = true <-> In v [a; b]). { intros a b v. unfold is_allowed. rewrite orb_true_iff, !str_eqb_ok. cbn. intuition. }
  rewrite <- !A. destruct (is_allowed _ _ (se_data_type s)); cbn [negb]; [|intuition congruence]. destruct (is_allowed _ _ (se_order s)); cbn [negb]; [|intuition congruence]. destruct (is_allowed _ _ (se_case_order s)); cbn [negb]; [|intuition congruence]. intuition congruence.
Qed.
Lemma set_contexts_ok : forall l, set_contexts l <> None <-> Forall valid l.
Proof.
  induction l as [|s l IH]; [split; [constructor|discriminate]|]. cbn [set_contexts]. split.
  - intros H. destruct (set_context s) as [f|] eqn:E; [|congruence]. destruct (set_contexts l); [|congruence]. constructor; [apply set_context_ok; congruence|apply IH; congruence].
  - intros H. inversion H as [|? ? V1 V2]; subst. apply set_context_ok in V1. apply IH in V2. destruct (set_context s); [|congruence]. destruct (set_contexts l); congruence.
Qed.
(** * Stability *)
Lemma StronglySorted_impl_in : forall {A} (P Q : A -> A -> Prop) l, (forall a b, In a l -> In b l -> P a b -> Q a b) -> StronglySorted P l -> StronglySorted Q l.
Proof.
  intros A P Q l H S. induction S as [|x l S IH F]; [constructor|]. constructor; [apply IH; intros a b X Y; apply H; right; assumption|]. rewrite Forall_forall in *. intros y Y. apply H; [left; reflexivity|right; exact Y|exact (F y Y)].
Qed.
Lemma stable : forall (less : xnode -> xnode -> bool) l, weak less -> StronglySorted (fun x y => less x y = true \/ (less y x = false /\ before l x y)) (sort_by less l).
Proof.
  intros less l (W1 & W2). induction l as [|x l IH]; [constructor|]. cbn [sort_by].
  assert (E : forall a b, before l a b -> before (x :: l) a b) by (intros a b (u & v & w & ->); exists (x :: u), v, w; reflexivity). assert (F : forall b, In b l -> before (x :: l) x b) by (intros b B; destruct (in_split _ _ B) as (u & w & ->); exists [], u, w; reflexivity).
  assert (I : forall y, In y (sort_by less l) -> In y l) by (intros y Y; apply (Permutation_in _ (Permutation_sym (sort_perm less l))); exact Y). revert IH I. generalize (sort_by less l) as s. intros s H I. induction H as [|y s H IHs FA]; [repeat constructor|]. rewrite Forall_forall in FA. cbn [Template.insert_by]. destruct (less y x) eqn:L.
  - constructor; [apply IHs; intros z Z; apply I; right; exact Z|]. apply Forall_forall. intros z Z. apply (Permutation_in _ (Permutation_sym (insert_perm less x s))) in Z. destruct Z as [<-|Z]; [left; exact L|]. destruct (FA z Z) as [A|(A & B)]; [left; exact A|right; split; [exact A|exact (E _ _ B)]].
  - assert (M : forall z, In z s -> less z x = false). { intros z Z. destruct (FA z Z) as [A|(A & _)]; [exact (W2 x y z L (W1 _ _ A))|exact (W2 x y z L A)]. }
    constructor; [constructor|].
    + revert H. apply StronglySorted_impl_in. intros a b _ _ [A|(A & B)]; [left; exact A|right; split; [exact A|exact (E _ _ B)]].
    + apply Forall_forall. intros z Z. destruct (FA z Z) as [A|(A & B)]; [left; exact A|right; split; [exact A|exact (E _ _ B)]].
    + constructor; [right; split; [exact L|apply F; apply I; left; reflexivity]|]. apply Forall_forall. intros z Z. right. split; [exact (M z Z)|apply F; apply I; right; exact Z].
Qed.

Lemma before_sorted : forall (R : xnode -> xnode -> Prop) l x y, StronglySorted R l -> before l x y -> R x y.
Proof.
  intros R l x y S (a & b & c & ->). induction a as [|z a IH]; cbn [app] in S; inversion S as [|? ? S1 F]; subst; [|exact (IH S1)]. rewrite Forall_forall in F. apply F. apply in_app_iff. right. left. reflexivity.
Qed.
Lemma sort_lemma : forall ss f l last s, l <> [] -> Forall valid l -> Forall position_free l -> exists r, sort_nodes ss f l last s = Some r /\ Permutation (s_nodes s) (s_nodes r) /\
  StronglySorted (fun x y => forall n px py, sorted_before l n x px y py \/ (~ sorted_before l n y py x px /\ before (s_nodes s) x y)) (s_nodes r).
Proof.
  intros ss f l last s NE V P. unfold sort_nodes. destruct l as [|k l]; [congruence|]. remember (k :: l) as ls. destruct (set_contexts ls) as [ks|] eqn:E; [|apply set_contexts_ok in V; congruence]. eexists. split; [reflexivity|]. cbn [s_nodes]. split; [apply sort_perm|]. generalize (stable _ (s_nodes s) (less_weak ks last)). apply StronglySorted_impl_in. intros x y _ _ H n px py. destruct H as [H|(H & EA)]; [left|right; split; [|exact EA]].
  - apply (sorted_before_ok ls ks V P E last). exact H.
  - intros B. apply (sorted_before_ok ls ks V P E last) in B. congruence.
Qed.
Lemma sort_document : forall ss f l last s, l <> [] -> Forall valid l -> Forall position_free l -> StronglySorted (precedes f) (s_nodes s) -> exists r, sort_nodes ss f l last s = Some r /\ Permutation (s_nodes s) (s_nodes r) /\
  StronglySorted (fun x y => forall n px py, sorted_before l n x px y py \/ (~ sorted_before l n y py x px /\ precedes f x y)) (s_nodes r).
Proof.
  intros ss f l last s NE V P D. destruct (sort_lemma ss f l last s NE V P) as (r & E & PE & S). exists r. split; [exact E|]. split; [exact PE|]. revert S. apply StronglySorted_impl_in. intros x y _ _ H n px py. destruct (H n px py) as [A|(A & B)]; [left; exact A|right; split; [exact A|exact (before_sorted _ _ _ _ D B)]].
Qed.
Lemma invalid_lemma : forall ss f l last s, ~ Forall valid l -> sort_nodes ss f l last s = None.
Proof. intros ss f l last s H. unfold sort_nodes. destruct l as [|k l]; [destruct H; constructor|]. destruct (set_contexts (k :: l)) eqn:E; [|reflexivity]. destruct H. apply set_contexts_ok. congruence. Qed.

Lemma unsorted_lemma : forall ss f last s, sorts ss -> documents f -> made ss f s -> exists r, sort_nodes ss f [] last s = Some r /\ (forall x, In x (s_nodes r) <-> In x (s_nodes s)) /\ StronglySorted (precedes f) (s_nodes r).
Proof.
  intros ss f last s SS D M. unfold sort_nodes. destruct M as (b & ops & F & ->). destruct (set_lemma ss f b ops SS D F) as (A & _ & _ & O & _ & I). cbv zeta in *. eexists. split; [reflexivity|]. destruct (is_forward _) eqn:E; [|split; [exact I|exact O]]. split; [reflexivity|]. unfold is_forward in E. apply andb_true_iff in E. destruct E as (E1 & E2). specialize (A E1). rewrite E2 in A. exact A.
Qed.
