From Verif.Model Require Import Base XNode XAxis.
From Verif.Spec Require Import XOrder XAxisSpec.
From Verif.Proof Require Import Tac ContainersProof XOrderProof XAxisProof XAxisWalks.

(** * Preceding, when no two text nodes are next to each other *)
Definition na (p : path) : bool := negb (attb p).
Definition dns (p : path) (i : nat) (l : list xtree) : list path := filter na (orders p i l).
Definition dn (u : xtree) (p : path) : list path := filter na (order u p).
Lemma dns_app : forall p l m, dns p 0 (l ++ m) = dns p 0 l ++ dns p (length l) m.
Proof. intros p l m. unfold dns. rewrite orders_app, filter_app. reflexivity. Qed.
Lemma dns_one : forall p i k, dns p i [k] = dn k (Kid i :: p).
Proof. intros p i k. unfold dns. cbn [orders]. rewrite app_nil_r. reflexivity. Qed.
Lemma dn_eq : forall i a k p, kids_only p -> dn (Xt i a k) p = p :: dns p 0 k.
Proof.
  intros i a k p K. unfold dn. rewrite order_eq. cbn [filter]. unfold na at 1. rewrite (kids_attb _ K). cbn [negb]. f_equal. rewrite filter_app. replace (filter na (attributes_of p 0 a)) with (@nil path); [reflexivity|].
  generalize O. clear. induction a as [|x a IH]; intros n; [reflexivity|]. exact (IH (S n)).
Qed.
Lemma normal_na : forall t l, normal t -> (forall y, In y l -> In y (order t [])) -> filter (good t) l = filter na l.
Proof.
  intros t l N H. induction l as [|y l IH]; [reflexivity|]. cbn [filter]. rewrite IH by (intros z Z; apply H; right; exact Z). unfold good, na. rewrite (N y) by (apply H; left; reflexivity). reflexivity.
Qed.
Lemma normal_previous : forall t q w m k, normal t -> kids_only q -> subtree t q = Some w -> nth_error (t_kids w) m = Some k -> find_previous_sibling t (Kid (S m) :: q) = Some (Kid m :: q).
Proof.
  intros t q w m k N K W E. unfold find_previous_sibling. cbn [prev_sibling]. destruct (is_text t (Kid m :: q)) eqn:T; cbn [negb]; [|reflexivity]. rewrite W. do 3 f_equal.
  destruct m as [|m]; [reflexivity|]. cbn [back_texts]. destruct (nth_error (t_kids w) m) as [k'|] eqn:E'; [|reflexivity]. destruct (tree_is_text k') eqn:T'; [|reflexivity].
  exfalso. assert (I : In (Kid (S m) :: q) (order t [])). { apply in_order. left. split; [exact K|]. exists k. cbn [subtree]. rewrite W. exact E. }
  specialize (N _ I). unfold continues in N. rewrite T in N. cbn [andb prev_sibling] in N. unfold is_text in N. cbn [subtree] in N. rewrite W, E', T' in N. discriminate.
Qed.
Fixpoint lasts (p : path) (i : nat) (l : list xtree) : path :=
  match l with [] => p | k :: r => match r with [] => last_descendant k (Kid i :: p) | _ => lasts p (S i) r end end.
Lemma last_eq : forall i a k p, last_descendant (Xt i a k) p = lasts p 0 k.
Proof. intros i a k p. cbn [last_descendant]. generalize O. induction k as [|x k IH]; intros n; [reflexivity|]. cbn [lasts]. destruct k; [reflexivity|]. apply IH. Qed.
Lemma lasts_last : forall l k p i, lasts p i (l ++ [k]) = last_descendant k (Kid (i + length l) :: p).
Proof.
  induction l as [|x l IH]; intros k p i; [cbn; rewrite Nat.add_0_r; reflexivity|]. cbn [app lasts length]. destruct (l ++ [k]) eqn:E; [destruct l; discriminate|]. rewrite <- E, IH. do 2 f_equal. f_equal. lia.
Qed.
Definition state : Type := path * option path.
Definition as_moved (l : list state) (e : option path * option path) : option path * option path := match l with [] => e | (x, a) :: _ => (Some x, a) end.
Fixpoint schain (t : xtree) (l : list state) (e : option path * option path) : Prop :=
  match l with [] => True | (x, a) :: r => previous_in_document t a x = as_moved r e /\ schain t r e end.
Lemma schain_app : forall t l1 l2 e, schain t l1 (as_moved l2 e) -> schain t l2 e -> schain t (l1 ++ l2) e.
Proof.
  intros t l1 l2 e. induction l1 as [|[x a] [|[y b] l1] IH]; intros C1 C2; [exact C2| |].
  - destruct C1 as (C1 & _). split; [exact C1|exact C2].
  - destruct C1 as (C0 & C1). split; [exact C0|]. apply IH; auto.
Qed.
Definition tag (a : option path) (l : list path) : list state := map (fun y => (y, a)) l.
Lemma firstn_S : forall {A} (l : list A) n x, nth_error l n = Some x -> firstn (S n) l = firstn n l ++ [x] /\ length (firstn n l) = n.
Proof. intros A l n x E. destruct (nth_split3 _ _ _ E) as (E1 & L). split; [|exact L]. rewrite E1 at 1. rewrite firstn_app, L. replace (S n - n)%nat with 1%nat by lia. rewrite firstn_all2 by lia. reflexivity. Qed.
Lemma previous_kid : forall t q w a m k, normal t -> kids_only q -> subtree t q = Some w -> nth_error (t_kids w) m = Some k -> previous_in_document t a (Kid (S m) :: q) = (Some (last_below t (Kid m :: q)), a).
Proof. intros t q w a m k N K W E. cbn [previous_in_document]. rewrite (normal_previous t q w m k N K W E). reflexivity. Qed.
Lemma previous_list : forall t a P w C e, normal t -> kids_only P -> subtree t P = Some w -> previous_in_document t (Some a) (Kid 0 :: P) = as_moved C e -> schain t C e ->
  forall n, (n <= length (t_kids w))%nat ->
  (forall m k, nth_error (t_kids w) m = Some k -> schain t (tag (Some a) (rev (dn k (Kid m :: P)))) (previous_in_document t (Some a) (Kid m :: P)) /\ hd_error (rev (dn k (Kid m :: P))) = Some (last_below t (Kid m :: P))) ->
  schain t (tag (Some a) (rev (dns P 0 (firstn n (t_kids w)))) ++ C) e /\ previous_in_document t (Some a) (Kid n :: P) = as_moved (tag (Some a) (rev (dns P 0 (firstn n (t_kids w)))) ++ C) e.
Proof.
  intros t a P w C e N K W EC SC n. induction n as [|n IH]; intros L HK; [split; [exact SC|exact EC]|].
  destruct (nth_error (t_kids w) n) as [k|] eqn:E; [|apply nth_error_None in E; lia]. destruct (firstn_S _ _ _ E) as (F & LF). rewrite F, dns_app, LF, dns_one, rev_app_distr. unfold tag in *. rewrite map_app, <- app_assoc.
  destruct (IH ltac:(lia) HK) as (I1 & I2). destruct (HK n k E) as (H1 & H2). split.
  - apply schain_app; [|exact I1]. exact (eq_ind _ (fun r => schain t _ r) H1 _ I2).
  - rewrite (previous_kid t P w (Some a) n k N K W E). destruct (rev (dn k (Kid n :: P))) as [|y l]; [discriminate|]. cbn in H2. injection H2 as ->. reflexivity.
Qed.
Lemma previous_node : forall t, normal t -> forall k P a, kids_only P -> subtree t P = Some k -> (length a < length P)%nat ->
  schain t (tag (Some a) (rev (dn k P))) (previous_in_document t (Some a) P) /\ hd_error (rev (dn k P)) = Some (last_below t P).
Proof.
  intros t N. induction k as [i at_ k _ IH] using xtree_ind2. intros P a K U L. rewrite dn_eq by exact K. cbn [rev]. unfold tag. rewrite map_app. fold (tag (Some a) (rev (dns P 0 k))). cbn [map]. rewrite Forall_forall in IH.
  assert (HK : forall m x, nth_error k m = Some x -> schain t (tag (Some a) (rev (dn x (Kid m :: P)))) (previous_in_document t (Some a) (Kid m :: P)) /\ hd_error (rev (dn x (Kid m :: P))) = Some (last_below t (Kid m :: P))).
  { intros m x E. apply (IH x (nth_error_In _ _ E)); [exact K|cbn [subtree]; rewrite U; exact E|cbn [length]; lia]. }
  assert (P0 : previous_in_document t (Some a) (Kid 0 :: P) = (Some P, Some a)).
  { cbn [previous_in_document find_previous_sibling prev_sibling parent opt_path_eqb]. assert (E : path_eqb P a = false) by (destruct (path_eqb P a) eqn:E; [|reflexivity]; apply path_eqb_ok in E; rewrite E in L; lia). unfold find_previous_sibling. cbn [prev_sibling parent]. unfold opt_path_eqb. rewrite E. reflexivity. }
  pose proof (previous_list t a P (Xt i at_ k) [(P, Some a)] (previous_in_document t (Some a) P) N K U P0 (conj eq_refl I) (length k) (le_n _) HK) as (H1 & _). cbn [t_kids] in H1. rewrite firstn_all in H1. split; [exact H1|].
  unfold last_below. rewrite U, last_eq. destruct k as [|k0 k1 _] using rev_ind; [reflexivity|]. rewrite lasts_last. cbn [Nat.add]. rewrite dns_app, rev_app_distr, dns_one.
  assert (E : nth_error (k1 ++ [k0]) (length k1) = Some k0) by (rewrite nth_error_app2, Nat.sub_diag by lia; reflexivity).
  destruct (HK (length k1) k0 E) as (_ & H2). unfold last_below in H2. cbn [subtree] in H2. rewrite U in H2. cbn [t_kids] in H2. rewrite E in H2. destruct (rev (dn k0 (Kid (length k1) :: P))); [discriminate|]. exact H2.
Qed.
Fixpoint pl (t : xtree) (p : path) : list state :=
  match p with
  | Kid i :: q => match subtree t q with Some w => tag (Some q) (rev (dns q 0 (firstn i (t_kids w)))) ++ pl t q | None => [] end
  | _ => []
  end.
Lemma pl_chain : forall t x u, normal t -> kids_only x -> subtree t x = Some u -> schain t (pl t x) (None, None) /\ previous_in_document t (parent x) x = as_moved (pl t x) (None, None).
Proof.
  intros t x. induction x as [|s x IH]; intros u N K U; [split; [exact I|reflexivity]|]. destruct s as [i| |]; try contradiction. cbn [subtree] in U. cbn [pl parent]. destruct (subtree t x) as [w|] eqn:W; [|discriminate]. destruct (IH w N K eq_refl) as (I1 & I2).
  apply (previous_list t x x w); auto.
  - cbn [previous_in_document]. unfold find_previous_sibling. cbn [prev_sibling parent opt_path_eqb]. assert (E : path_eqb x x = true) by (apply path_eqb_ok; reflexivity). rewrite E. cbn [negb]. destruct x as [|[j| |] x]; try contradiction; [reflexivity|]. cbn [parent] in I2 |- *. exact I2.
  - assert (i < length (t_kids w))%nat by (apply nth_error_Some; congruence). lia.
  - intros m k E. apply previous_node; auto. cbn [subtree]. rewrite W. exact E.
Qed.
Fixpoint pre (t : xtree) (p : path) : list path :=
  match p with
  | Kid i :: q => match subtree t q with Some w => pre t q ++ dns q 0 (firstn i (t_kids w)) | None => [] end
  | _ => []
  end.
Lemma pl_pre : forall t x, map fst (pl t x) = rev (pre t x).
Proof.
  intros t. induction x as [|[i| |] x IH]; try reflexivity. cbn [pl pre]. destruct (subtree t x) as [w|]; [|reflexivity]. rewrite map_app, rev_app_distr. f_equal; [|exact IH]. unfold tag. rewrite map_map. apply map_id.
Qed.
Lemma run_states : forall t o lft l fuel, schain t l (None, None) -> (length l <= fuel)%nat ->
  run_walker fuel t (Some (Walker Preceding o (fst (as_moved l (None, None))) (snd (as_moved l (None, None))) lft)) = Nodes (map fst l).
Proof.
  intros t o lft. induction l as [|[x a] l IH]; intros fuel C L; [destruct fuel; reflexivity|]. destruct fuel as [|f]; [cbn in L; lia|]. destruct C as (C1 & C2). cbn [run_walker w_current as_moved fst snd map]. unfold advance. cbn [w_axis w_ancestor]. rewrite C1.
  specialize (IH f C2 ltac:(cbn in L; lia)). destruct (as_moved l (None, None)) as [n anc]. cbn [fst snd] in IH. cbn [w_origin w_left]. rewrite IH. reflexivity.
Qed.
Lemma preceding_run : forall t x u o first fuel, normal t -> kids_only x -> subtree t x = Some u -> (length (pre t x) <= fuel)%nat ->
  (o = x /\ is_kind t o Xattribute = false \/ (exists i, o = Att i :: x) /\ is_kind t o Xattribute = true) ->
  enumerate fuel t first Preceding o = Nodes (rev (pre t x)).
Proof.
  intros t x u o first fuel N K U L O. destruct (pl_chain t x u N K U) as (C & P). rewrite <- (pl_pre t x). unfold enumerate, start.
  replace (if is_kind t o Xattribute then owner_element o else Some o) with (Some x) by (destruct O as [(-> & ->)|((i & ->) & ->)]; reflexivity). rewrite P.
  pose proof (run_states t o [] (pl t x) fuel C) as RS. destruct (as_moved (pl t x) (None, None)) as [n anc]. apply RS. pose proof (f_equal (@length path) (pl_pre t x)) as PL. rewrite map_length, rev_length in PL. exact (eq_ind_r (fun n => (n <= fuel)%nat) L PL).
Qed.
Lemma earlier_in : forall t x u, kids_only x -> subtree t x = Some u -> forall y, In y (earlier t x) -> In y (order t []).
Proof. intros t x u K U y Y. rewrite (order_split t x u K U), in_app_iff. left. exact Y. Qed.
Lemma pre_picks : forall t z, shape_ok t -> normal t -> forall x u, kids_only x -> subtree t x = Some u -> (exists m, z = m ++ x) ->
  picks (fun y => ~ is_attribute y /\ ~ is_above y z) (filter (fun p => negb (continues t p)) (earlier t x)) (pre t x).
Proof.
  intros t z SH N. induction x as [|s x IH]; intros u K U (m & ->); [constructor|]. destruct s as [i| |]; try contradiction. pose proof (earlier_in t (Kid i :: x) u K U) as EI. cbn [subtree] in U. cbn [earlier pre] in *. destruct (subtree t x) as [w|] eqn:W; [|discriminate].
  destruct w as [iw a k]. cbn [t_kids] in *. rewrite filter_app. apply picks_app.
  - apply (IH (Xt iw a k) K eq_refl). exists (m ++ [Kid i]). rewrite <- app_assoc. reflexivity.
  - change (x :: attributes_of x 0 a ++ orders x 0 (firstn i k)) with ([x] ++ attributes_of x 0 a ++ orders x 0 (firstn i k)) in *. rewrite !filter_app.
    change (dns x 0 (firstn i k)) with ([] ++ [] ++ dns x 0 (firstn i k)). apply picks_app; [|apply picks_app].
    + apply picks_none. intros y [<-|[]] _ (_ & X). apply X. exists (m ++ [Kid i]). split; [destruct m; discriminate|rewrite <- app_assoc; reflexivity].
    + apply picks_none. intros y Y _ (X & _). apply X. apply in_attributes in Y. destruct Y as (j & _ & ->). exists j, x. reflexivity.
    + unfold dns. rewrite <- (normal_na t); [|exact N|intros y Y; apply EI; rewrite !in_app_iff; tauto]. apply picks_part. intros y Y. rewrite good_c.
      assert (~ is_above y (m ++ Kid i :: x)); [|tauto]. intros (n & _ & E). apply in_orders in Y. destruct Y as (j & kj & NJ & Y). apply nth_firstn in NJ. apply in_order_suffix in Y. destruct Y as (l & ->). rewrite app_assoc in E. apply suffix_eq in E; [|reflexivity]. destruct E as (_ & E). injection E as E. lia.
Qed.
Lemma preceding_picks : forall t x u, shape_ok t -> normal t -> kids_only x -> subtree t x = Some u -> picks (on_axis t Preceding x) (nodes t) (pre t x).
Proof.
  intros t x u SH N K U. unfold nodes. rewrite (order_split t x u K U), !filter_app. rewrite <- (app_nil_r (pre t x)). apply picks_app.
  - eapply picks_ext; [|apply (pre_picks t x SH N x u K U); exists []; reflexivity]. intros y Y. cbn [on_axis]. apply filter_In in Y. destruct Y as (Y & _).
    assert (before (order t []) y x) by (destruct (order_head x u) as (r & E & _); apply (earlier_before t x u K U); [exact Y|rewrite E; left; reflexivity]). tauto.
  - rewrite <- filter_app. apply picks_none. intros y Y _ (_ & B & _). apply in_app_or in Y. destruct Y as [Y|Y].
    + destruct (here_before t x u K U y Y) as [->|B']; [exact (not_before_self t x B)|exact (no_cycle t _ _ B B')].
    + apply (no_cycle t _ _ B). destruct (order_head x u) as (r & E & _). apply (after_before t x u K U); [rewrite E; left; reflexivity|exact Y].
Qed.
Lemma attribute_preceding_picks : forall t e w i, shape_ok t -> normal t -> kids_only e -> subtree t e = Some w -> (i < length (t_attrs w))%nat -> picks (on_axis t Preceding (Att i :: e)) (nodes t) (pre t e).
Proof.
  intros t e w i SH N K W L. destruct (attribute_place t e w i K W L) as (a & b & c & E & EC & AB & ABC). set (x := Att i :: e) in *. unfold nodes. rewrite E.
  assert (B1 : forall y, In y (earlier t e ++ e :: a) -> before (order t []) y x).
  { intros y Y. rewrite E. apply in_split in Y. destruct Y as (l & m & ->). exists l, m, (b ++ c ++ after t e). rewrite <- app_assoc. reflexivity. }
  assert (B2 : forall y, In y (b ++ c ++ after t e) -> before (order t []) x y).
  { intros y Y. rewrite E. apply in_split in Y. destruct Y as (l & m & EE). exists (earlier t e ++ e :: a), l, m. rewrite EE. reflexivity. }
  change (e :: a) with ([e] ++ a). rewrite !filter_app. rewrite <- (app_nil_r (pre t e)). apply picks_app.
  - rewrite <- (app_nil_r (pre t e)). apply picks_app.
    + eapply picks_ext; [|apply (pre_picks t x SH N e w K W); exists [Att i]; reflexivity]. intros y Y. apply filter_In in Y. destruct Y as (Y & _). cbn [on_axis]. assert (before (order t []) y x) by (apply B1; rewrite in_app_iff; tauto). tauto.
    + change (@nil path) with (@nil path ++ []). apply picks_app; apply picks_none.
      * intros y [<-|[]] _ (_ & _ & X). apply X. exists [Att i]. split; [discriminate|reflexivity].
      * intros y Y _ (X & _). apply X. apply AB. left. exact Y.
  - apply picks_none. intros y [<-|Y] _ (_ & B & _); [exact (not_before_self t _ B)|exact (no_cycle t _ _ B (B2 y Y))].
Qed.
