From Coq Require Import Sorted.
From Verif.Model Require Import Base XNode.
From Verif.Spec Require Import XOrder.
From Verif.Proof Require Import Tac ContainersProof.

Lemma xtree_ind2 (P : xtree -> Prop) (H : forall i a k, Forall P a -> Forall P k -> P (Xt i a k)) : forall t, P t.
Proof.
  fix IH 1. intros [i a k]. apply H.
  - induction a as [|x a IHa]; constructor; auto.
  - induction k as [|x k IHk]; constructor; auto.
Qed.
Fixpoint orders (p : path) (i : nat) (l : list xtree) : list path :=
  match l with [] => [] | k :: r => order k (Kid i :: p) ++ orders p (S i) r end.
Lemma order_eq : forall i a k p, order (Xt i a k) p = p :: attributes_of p 0 a ++ orders p 0 k.
Proof. intros. cbn [order]. do 2 f_equal. generalize O. induction k as [|x k IH]; intros n; [reflexivity|]. cbn [orders]. rewrite <- IH. reflexivity. Qed.
Lemma small_eq : forall i a k, small (Xt i a k) <-> Z.of_nat (length a) <= 999 /\ Z.of_nat (length k) <= 2147483 /\ Forall small k.
Proof.
  intros i a k. cbn [small]. split; intros (A & K & F); (split; [exact A|split; [exact K|]]).
  - clear - F. induction k as [|x k IH]; [constructor|]. destruct F as (F1 & F2). constructor; [exact F1|apply IH; exact F2].
  - clear - F. induction k as [|x k IH]; [exact I|]. inversion F as [|? ? F1 F2]; subst. split; [exact F1|exact (IH F2)].
Qed.

(** * Positions *)
Lemma back_count_eq : forall i, Z.of_nat i <= 2147482 -> back_count i = 1000 * (Z.of_nat i + 1).
Proof.
  induction i as [|i IH]; intros L; [reflexivity|]. cbn [back_count]. rewrite IH by lia. unfold wrap32. rewrite Z.mod_small by lia. lia.
Qed.
Lemma as_int_small : forall z, -2147483648 < z < 2147483648 -> as_int z = z.
Proof.
  intros z Z. unfold as_int, wrap32. destruct (Z_lt_le_dec z 0) as [N|N].
  - replace (z mod 4294967296) with (z + 4294967296). 2: { apply Zmod_unique with (q := -1); lia. } destruct (z + 4294967296 <? 2147483648) eqn:E; lia.
  - rewrite Z.mod_small by lia. destruct (z <? 2147483648) eqn:E; lia.
Qed.
Definition fit (z : Z) : Prop := 0 <= z <= 2147483000.
Lemma compare_refl : forall a, compare_positions a a = 0.
Proof. induction a as [|x a IH]; [reflexivity|]. cbn. rewrite Z.eqb_refl. exact IH. Qed.
Lemma compare_app : forall c a b, compare_positions (c ++ a) (c ++ b) = compare_positions a b.
Proof. induction c as [|x c IH]; intros a b; [reflexivity|]. cbn. rewrite Z.eqb_refl. apply IH. Qed.
Lemma compare_first : forall x y a b, fit x -> fit y -> x < y -> compare_positions (x :: a) (y :: b) < 0.
Proof. intros x y a b X Y L. cbn. destruct (x =? y) eqn:E; [lia|]. unfold fit in *. rewrite as_int_small; lia. Qed.
Lemma compare_anti : forall a b, Forall fit a -> Forall fit b -> compare_positions a b < 0 -> compare_positions b a > 0.
Proof.
  induction a as [|x a IH]; intros [|y b] A B L; cbn in *; try lia.
  inversion A; inversion B; subst. rewrite (Z.eqb_sym y x). destruct (x =? y) eqn:E; [auto|]. unfold fit in *. rewrite as_int_small in * by lia. lia.
Qed.
Lemma compare_trans : forall a b c, Forall fit a -> Forall fit b -> Forall fit c -> compare_positions a b < 0 -> compare_positions b c < 0 -> compare_positions a c < 0.
Proof.
  induction a as [|x a IH]; intros [|y b] [|z c] A B C L M; cbn in *; try lia.
  inversion A; inversion B; inversion C; subst. unfold fit in *.
  destruct (x =? y) eqn:E1, (y =? z) eqn:E2, (x =? z) eqn:E3; rewrite ?as_int_small in * by lia; try lia. apply (IH b c); auto.
Qed.

(** * The order of a tree *)
Definition lt (x y : path) : Prop := compare_positions (positions x) (positions y) < 0.
Lemma lt_prefix : forall l p, l <> [] -> lt p (l ++ p).
Proof.
  intros l p N. unfold lt. assert (E : exists m, positions (l ++ p) = positions p ++ m /\ (l <> [] -> m <> [])).
  { clear N. induction l as [|s l (m & E & M)]; [exists []; rewrite app_nil_r; split; [reflexivity|auto]|]. exists (m ++ [child_position s]). split; [cbn; rewrite E, app_assoc; reflexivity|]. destruct m; discriminate. }
  destruct E as (m & E & M). rewrite E. rewrite <- (app_nil_r (positions p)) at 1. rewrite compare_app. specialize (M N). destruct m; [contradiction|reflexivity].
Qed.
Lemma lt_branch : forall l m s s' p, fit (child_position s) -> fit (child_position s') -> child_position s < child_position s' -> lt (l ++ s :: p) (m ++ s' :: p).
Proof.
  intros l m s s' p F F' L. unfold lt.
  assert (E : forall l s, exists r, positions (l ++ s :: p) = positions p ++ child_position s :: r).
  { clear. intros l s. induction l as [|x l (r & E)]; [exists []; reflexivity|]. exists (r ++ [child_position x]). cbn [app positions]. rewrite E, <- app_assoc. reflexivity. }
  destruct (E l s) as (r & ->). destruct (E m s') as (r' & ->). rewrite compare_app. apply compare_first; assumption.
Qed.
Lemma in_attributes : forall p l i x, In x (attributes_of p i l) <-> exists j, (i <= j < i + length l)%nat /\ x = Att j :: p.
Proof.
  intros p l. induction l as [|a l IH]; intros i x; cbn [attributes_of length]; [split; [intros []|intros (j & J & _); lia]|]. cbn [In]. rewrite IH. split.
  - intros [<-|(j & J & E)]; [exists i; split; [lia|reflexivity]|exists j; split; [lia|exact E]].
  - intros (j & J & E). destruct (Nat.eq_dec j i) as [X|X]; [left; subst; reflexivity|right; exists j; split; [lia|exact E]].
Qed.
Lemma in_order_suffix : forall t p x, In x (order t p) -> exists l, x = l ++ p.
Proof.
  induction t as [i a k _ IH] using xtree_ind2; intros p x I. rewrite order_eq in I. destruct I as [<-|I]; [exists []; reflexivity|].
  apply in_app_or in I. destruct I as [I|I]; [apply in_attributes in I; destruct I as (j & _ & ->); exists [Att j]; reflexivity|].
  revert I. generalize O. induction IH as [|t k IHt IH IHk]; intros n I; [contradiction|]. cbn [orders] in I. apply in_app_or in I.
  destruct I as [I|I]; [|apply (IHk (S n)); exact I]. destruct (IHt _ _ I) as (l & ->). exists (l ++ [Kid n]). rewrite <- app_assoc. reflexivity.
Qed.
Lemma in_orders : forall l p i x, In x (orders p i l) <-> exists j k, nth_error l j = Some k /\ In x (order k (Kid (i + j) :: p)).
Proof.
  induction l as [|t l IH]; intros p i x; cbn [orders]; [split; [intros []|intros ([|j] & k & E & _); discriminate]|]. rewrite in_app_iff, IH. split.
  - intros [I|(j & k & E & I)]; [exists O, t; rewrite Nat.add_0_r; auto|exists (S j), k; rewrite Nat.add_succ_r; auto].
  - intros ([|j] & k & E & I); [left; injection E as ->; rewrite Nat.add_0_r in I; exact I|right; exists j, k; cbn in E; rewrite Nat.add_succ_r in I; auto].
Qed.
Lemma sorted_app : forall {A} (R : A -> A -> Prop) l m, StronglySorted R l -> StronglySorted R m -> (forall x y, In x l -> In y m -> R x y) -> StronglySorted R (l ++ m).
Proof.
  intros A R l m L M H. induction L as [|x l L IH F]; [exact M|]. cbn. constructor; [apply IH; intros; apply H; [right; assumption|assumption]|].
  apply Forall_app. split; [exact F|]. apply Forall_forall. intros y Y. apply H; [left; reflexivity|exact Y].
Qed.
Lemma order_sorted : forall t p, small t -> StronglySorted lt (order t p).
Proof.
  induction t as [i a k _ IH] using xtree_ind2; intros p S. apply small_eq in S. destruct S as (SA & SK & F). rewrite order_eq.
  assert (KF : forall j, (j < length k)%nat -> fit (child_position (Kid j)) /\ child_position (Kid j) = 1000 * (Z.of_nat j + 1)).
  { intros j J. cbn [child_position]. rewrite back_count_eq by lia. unfold fit. lia. }
  assert (AF : forall j, (j < length a)%nat -> fit (child_position (Att j)) /\ child_position (Att j) = Z.of_nat j + 1).
  { intros j J. cbn [child_position]. unfold wrap32. rewrite Z.mod_small by lia. unfold fit. lia. }
  constructor.
  - apply sorted_app.
    + assert (G : forall l n, (n + length l <= length a)%nat -> StronglySorted lt (attributes_of p n l)).
      { induction l as [|x l IHl]; intros n L; cbn [attributes_of length] in *; constructor; [apply IHl; lia|]. apply Forall_forall. intros y Y. apply in_attributes in Y. destruct Y as (j & J & ->).
        apply (lt_branch [] []); [apply AF; lia|apply AF; lia|]. rewrite (proj2 (AF n ltac:(lia))), (proj2 (AF j ltac:(lia))). lia. }
      apply G. lia.
    + assert (G : forall l n, Forall (fun t => forall p, small t -> StronglySorted lt (order t p)) l -> Forall small l -> (n + length l <= length k)%nat -> StronglySorted lt (orders p n l)).
      { induction l as [|x l IHl]; intros n G1 G2 L; cbn [orders length] in *; [constructor|]. inversion G1; inversion G2; subst. apply sorted_app; [auto|apply IHl; auto; lia|].
        intros u v U V. apply in_order_suffix in U. destruct U as (lu & ->). apply in_orders in V. destruct V as (j & kj & E & V). assert (j < length l)%nat by (apply nth_error_Some; congruence). apply in_order_suffix in V. destruct V as (lv & ->).
        apply lt_branch; [apply KF; lia|apply KF; lia|]. rewrite (proj2 (KF n ltac:(lia))), (proj2 (KF (S n + j)%nat ltac:(lia))). lia. }
      apply G; [exact IH|exact F|lia].
    + intros x y X Y. apply in_attributes in X. destruct X as (j & J & ->). apply in_orders in Y. destruct Y as (m & km & E & Y). assert (m < length k)%nat by (apply nth_error_Some; congruence). apply in_order_suffix in Y. destruct Y as (ly & ->).
      apply (lt_branch []); [apply AF; lia|apply KF; lia|]. rewrite (proj2 (AF j ltac:(lia))), (proj2 (KF (0 + m)%nat ltac:(lia))). lia.
  - apply Forall_forall. intros x X. apply in_app_or in X. destruct X as [X|X].
    + apply in_attributes in X. destruct X as (j & _ & ->). apply (lt_prefix [Att j]). discriminate.
    + apply in_orders in X. destruct X as (j & kj & _ & X). apply in_order_suffix in X. destruct X as (l & ->). replace (l ++ Kid (0 + j) :: p) with ((l ++ [Kid (0 + j)]) ++ p) by (rewrite <- app_assoc; reflexivity). apply lt_prefix. destruct l; discriminate.
Qed.
Lemma order_fit : forall t p, small t -> Forall fit (positions p) -> forall x, In x (order t p) -> Forall fit (positions x).
Proof.
  induction t as [i a k _ IH] using xtree_ind2; intros p S FP x I. apply small_eq in S. destruct S as (SA & SK & F). rewrite order_eq in I. destruct I as [<-|I]; [exact FP|].
  apply in_app_or in I. destruct I as [I|I].
  - apply in_attributes in I. destruct I as (j & J & ->). cbn [positions]. apply Forall_app. split; [exact FP|]. constructor; [|constructor]. cbn. unfold wrap32. rewrite Z.mod_small by lia. unfold fit. lia.
  - apply in_orders in I. destruct I as (j & kj & E & I). assert (j < length k)%nat by (apply nth_error_Some; congruence). rewrite Forall_forall in IH, F. apply nth_error_In in E. apply (IH _ E (Kid (0 + j) :: p)); [apply F; exact E| |exact I].
    cbn [positions]. apply Forall_app. split; [exact FP|]. constructor; [|constructor]. cbn [child_position]. rewrite back_count_eq by lia. unfold fit. lia.
Qed.
Lemma sorted_before : forall {A} (R : A -> A -> Prop) l x y, StronglySorted R l -> before l x y -> R x y.
Proof.
  intros A R l x y S (l1 & l2 & l3 & ->). induction l1 as [|z l1 IH]; cbn in S; [|inversion S; auto]. inversion S as [|? ? _ F]; subst. rewrite Forall_app in F. destruct F as (_ & F). inversion F. assumption.
Qed.
Lemma before_cases : forall {A} (l : list A) x y, In x l -> In y l -> x = y \/ before l x y \/ before l y x.
Proof.
  intros A l x y X Y. apply in_split in X. destruct X as (l1 & l2 & ->). apply in_app_or in Y. destruct Y as [Y|[Y|Y]]; [right; right|left; exact Y|right; left].
  - apply in_split in Y. destruct Y as (a & b & ->). exists a, b, l2. rewrite <- app_assoc. reflexivity.
  - apply in_split in Y. destruct Y as (a & b & ->). exists l1, a, b. reflexivity.
Qed.
Lemma lt_irrefl : forall x, ~ lt x x.
Proof. intros x L. unfold lt in L. rewrite compare_refl in L. lia. Qed.
Lemma root_fit : Forall fit (positions []).
Proof. constructor; [unfold fit; cbn; unfold wrap32; lia|constructor]. Qed.

(** * compareNodes *)
Lemma xstep_eqb_ok : forall a b, xstep_eqb a b = true <-> a = b.
Proof.
  intros [i|i|i p u] [j|j|j q v]; cbn; try (split; [discriminate|intros E; discriminate]).
  - rewrite Nat.eqb_eq. split; [intros ->; reflexivity|intros E; injection E as ->; reflexivity].
  - rewrite Nat.eqb_eq. split; [intros ->; reflexivity|intros E; injection E as ->; reflexivity].
  - rewrite !Bool.andb_true_iff, Nat.eqb_eq. split; [intros ((-> & E) & E'); apply str_eqb_true in E, E'; subst; reflexivity|]. intros E. injection E as -> -> ->. split; [split; [reflexivity|]|]; apply str_eqb_true; reflexivity.
Qed.
Lemma path_eqb_ok : forall a b, path_eqb a b = true <-> a = b.
Proof.
  induction a as [|x a IH]; intros [|y b]; cbn; try (split; [discriminate|intros E; discriminate]); [tauto|]. rewrite Bool.andb_true_iff, IH, xstep_eqb_ok. split; [intros (-> & ->); reflexivity|intros E; injection E as -> ->; auto].
Qed.
Lemma xnode_eqb_ok : forall a b, xnode_eqb a b = true <-> a = b.
Proof. intros [m p] [n q]. unfold xnode_eqb. cbn. rewrite Bool.andb_true_iff, Nat.eqb_eq, path_eqb_ok. split; [intros (-> & ->); reflexivity|intros E; injection E as -> ->; auto]. Qed.
Lemma compare_same : forall f d x y, compare_nodes f (d, x) (d, y) = if path_eqb x y then 0 else compare_positions (positions x) (positions y).
Proof. intros. unfold compare_nodes, xnode_eqb. cbn [fst snd]. rewrite !Nat.eqb_refl. cbn [andb negb]. reflexivity. Qed.
Lemma order_lemma : forall f d x y, small (f_tree f d) -> In x (order (f_tree f d) []) -> In y (order (f_tree f d) []) ->
  (compare_nodes f (d, x) (d, y) < 0 <-> before (order (f_tree f d) []) x y) /\
  (compare_nodes f (d, x) (d, y) = 0 <-> x = y) /\
  (compare_nodes f (d, x) (d, y) > 0 <-> before (order (f_tree f d) []) y x).
Proof.
  intros f d x y S X Y. set (l := order (f_tree f d) []) in *. assert (SO := order_sorted _ [] S). fold l in SO.
  assert (FX := order_fit _ [] S root_fit x X). assert (FY := order_fit _ [] S root_fit y Y).
  rewrite compare_same. destruct (path_eqb x y) eqn:E.
  - apply path_eqb_ok in E. subst y. assert (N : ~ before l x x) by (intros B; apply (sorted_before _ _ _ _ SO) in B; apply (lt_irrefl x B)). repeat split; intros; try lia; contradiction.
  - assert (NE : x <> y) by (intros ->; rewrite (proj2 (path_eqb_ok y y) eq_refl) in E; discriminate).
    destruct (before_cases l x y X Y) as [B|[B|B]]; [contradiction| |]; pose proof (sorted_before _ _ _ _ SO B) as L; unfold lt in L.
    + assert (N : ~ before l y x) by (intros C; apply (sorted_before _ _ _ _ SO) in C; apply compare_anti in L; auto; unfold lt in C; lia). repeat split; intros; try lia; try assumption; contradiction.
    + assert (N : ~ before l x y) by (intros C; apply (sorted_before _ _ _ _ SO) in C; apply compare_anti in L; auto; unfold lt in C; lia). apply compare_anti in L; auto. repeat split; intros; try lia; try assumption; contradiction.
Qed.
Lemma sorted_nodup : forall l, StronglySorted lt l -> NoDup l.
Proof. intros l S. induction S as [|x l S IH F]; constructor; [|exact IH]. intros I. rewrite Forall_forall in F. apply (lt_irrefl x). apply F. exact I. Qed.
(** For the nodes of documents. *)
Definition in_document (f : forest) (x : xnode) : Prop :=
  f_doc f (fst x) = fst x /\ small (f_tree f (fst x)) /\ In (snd x) (order (f_tree f (fst x)) []).
Lemma documents_lemma : forall f, (forall i j, f_addr f i = f_addr f j -> i = j) ->
  (forall x, in_document f x -> nodes_less_than f x x = false) /\
  (forall x y, in_document f x -> in_document f y -> nodes_less_than f x y = true \/ x = y \/ nodes_less_than f y x = true) /\
  (forall x y z, in_document f x -> in_document f y -> in_document f z -> nodes_less_than f x y = true -> nodes_less_than f y z = true -> nodes_less_than f x z = true).
Proof.
  intros f INJ. unfold nodes_less_than.
  assert (DIFF : forall x y, in_document f x -> in_document f y -> fst x <> fst y -> compare_nodes f x y = if f_addr f (fst x) <? f_addr f (fst y) then 1 else -1).
  { intros x y (DX & _) (DY & _) N. unfold compare_nodes, xnode_eqb. rewrite DX, DY. apply Nat.eqb_neq in N. rewrite N. reflexivity. }
  split; [|split].
  - intros [d x] _. rewrite compare_same. rewrite (proj2 (path_eqb_ok x x) eq_refl). reflexivity.
  - intros x y X Y. destruct (Nat.eq_dec (fst x) (fst y)) as [E|N].
    + destruct x as [d x], y as [d' y]. cbn [fst] in E. subst d'. destruct X as (_ & S & X). destruct Y as (_ & _ & Y). cbn [fst snd] in *.
      destruct (order_lemma f d x y S X Y) as (A & B & C). destruct (order_lemma f d y x S Y X) as (A' & _).
      destruct (before_cases _ _ _ X Y) as [L|[L|L]]; [right; left; subst; reflexivity|left; apply A in L; lia|right; right; apply A' in L; lia].
    + rewrite (DIFF x y X Y N), (DIFF y x Y X (not_eq_sym N)). assert (f_addr f (fst x) <> f_addr f (fst y)) by (intros E; apply INJ in E; contradiction).
      destruct (f_addr f (fst x) <? f_addr f (fst y)) eqn:E1, (f_addr f (fst y) <? f_addr f (fst x)) eqn:E2; try lia; auto.
  - intros x y z X Y Z L M.
    destruct (Nat.eq_dec (fst x) (fst y)) as [E1|N1], (Nat.eq_dec (fst y) (fst z)) as [E2|N2].
    + destruct x as [d x], y as [d' y], z as [d'' z]. cbn [fst] in E1, E2. subst d' d''. destruct X as (_ & S & X), Y as (_ & _ & Y), Z as (_ & _ & Z). cbn [fst snd] in *.
      rewrite compare_same in *. destruct (path_eqb x y) eqn:EX; [lia|]. destruct (path_eqb y z) eqn:EY; [lia|].
      assert (T : compare_positions (positions x) (positions z) < 0). { apply (compare_trans _ (positions y)); try lia; apply (order_fit _ [] S root_fit); assumption. }
      destruct (path_eqb x z) eqn:EZ; [|lia]. apply path_eqb_ok in EZ. subst z. rewrite compare_refl in T. lia.
    + rewrite (DIFF x z X Z) by congruence. rewrite (DIFF y z Y Z N2) in M. rewrite E1. exact M.
    + rewrite (DIFF x z X Z) by congruence. rewrite (DIFF x y X Y N1) in L. rewrite <- E2. exact L.
    + rewrite (DIFF x y X Y N1) in L. rewrite (DIFF y z Y Z N2) in M. destruct (f_addr f (fst x) <? f_addr f (fst y)) eqn:E1; [lia|]. destruct (f_addr f (fst y) <? f_addr f (fst z)) eqn:E2; [lia|].
      assert (A1 : f_addr f (fst x) <> f_addr f (fst y)) by (intros E; apply INJ in E; contradiction). assert (A2 : f_addr f (fst y) <> f_addr f (fst z)) by (intros E; apply INJ in E; contradiction).
      rewrite (DIFF x z X Z) by (intros E; rewrite E in *; lia). destruct (f_addr f (fst x) <? f_addr f (fst z)) eqn:E3; lia.
Qed.
