From Verif.Model Require Import Base XNode XAxis.
From Verif.Spec Require Import XOrder XAxisSpec.
From Verif.Proof Require Import Tac ContainersProof XOrderProof XAxisProof.

Ltac apps := repeat progress (cbn [app]; rewrite <- ?app_assoc).
Lemma picks_ext : forall {A} (P Q : A -> Prop) l m, (forall y, In y l -> (P y <-> Q y)) -> picks P l m -> picks Q l m.
Proof.
  intros A P Q l m H C. induction C as [|x l m X C IH|x l m X C IH]; [constructor|apply picks_in|apply picks_out]; try (apply IH; intros; apply H; right; assumption).
  - apply H; [left; reflexivity|exact X].
  - intros Y. apply X. apply H; [left; reflexivity|exact Y].
Qed.
Lemma picks_eq : forall {A} (l : list A) x, NoDup l -> In x l -> picks (fun y => y = x) l [x].
Proof.
  intros A l x N. induction N as [|y l Y N IH]; intros I; [contradiction|]. destruct I as [->|I].
  - apply picks_in; [reflexivity|]. clear - Y. induction l as [|z l IH]; [constructor|]. apply picks_out; [intros ->; apply Y; left; reflexivity|]. apply IH. intros I. apply Y. right. exact I.
  - apply picks_out; [|apply IH; exact I]. intros ->. contradiction.
Qed.
Lemma picks_nothing : forall {A} (P : A -> Prop) l, (forall y, In y l -> ~ P y) -> picks P l [].
Proof. intros A P l H. induction l as [|x l IH]; [constructor|]. apply picks_out; [apply H; left; reflexivity|]. apply IH. intros y Y. apply H. right. exact Y. Qed.
Lemma attb_ok : forall y, attb y = true <-> is_attribute y.
Proof. intros [|[i|i|i a b] q]; cbn; split; try discriminate; try (intros (j & r & E); discriminate); auto. intros _. exists i, q. reflexivity. Qed.
Lemma good_c : forall t y, good t y = true <-> negb (continues t y) = true /\ ~ is_attribute y.
Proof. intros t y. unfold good. rewrite andb_true_iff, <- attb_ok. destruct (attb y); cbn; intuition congruence. Qed.

(** * Where a node is *)
Lemma kids_only_app : forall l p, kids_only (l ++ p) -> kids_only l /\ kids_only p.
Proof. induction l as [|[i|i|] l IH]; intros p K; cbn in *; try contradiction; auto. Qed.
Lemma below_in : forall t x u l, subtree t x = Some u -> In (l ++ x) (order t []) -> kids_only x -> In (l ++ x) (order u x).
Proof.
  intros t x u l U I KX. apply in_order in I. apply in_order_at. destruct I as [(K & w & W)|(i & q & E & K & w & W)].
  - left. exists l. split; [reflexivity|]. split; [apply kids_only_app in K; tauto|]. rewrite subtree_app, U in W. eauto.
  - destruct l as [|s l]; [cbn in E; rewrite E in KX; contradiction|]. cbn in E. injection E as -> <-. right. exists i, l. split; [reflexivity|]. split; [apply kids_only_app in K; tauto|]. change (Att i :: l) with ((Att i :: l)). change ((Att i :: l) ++ x) with ((Att i :: l) ++ x) in W. rewrite subtree_app, U in W. eauto.
Qed.
Lemma nodup_mid : forall {A} (a b c : list A), NoDup (a ++ b ++ c) -> (forall x, In x a -> In x b -> False) /\ (forall x, In x b -> In x c -> False) /\ (forall x, In x a -> In x c -> False).
Proof.
  intros A a b c N. induction a as [|x a IH]; cbn in N.
  - split; [intros; contradiction|]. split; [|intros; contradiction]. induction b as [|x b IH]; [intros; contradiction|]. cbn in N. inversion N as [|? ? N1 N2]; subst. intros y [->|Y] Z; [apply N1; apply in_or_app; auto|exact (IH N2 y Y Z)].
  - inversion N as [|? ? N1 N2]; subst. destruct (IH N2) as (I1 & I2 & I3). split; [|split; [exact I2|]]; intros y [->|Y] Z; eauto; apply N1; rewrite !in_app_iff; auto.
Qed.
  Lemma order_head : forall x u, exists r, order u x = x :: r /\ forall y, In y r -> is_above x y.
  Proof.
    intros x [i a k]. rewrite order_eq. eexists. split; [reflexivity|]. intros y Y.
    assert (Y' : In y (order (Xt i a k) x)) by (rewrite order_eq; right; exact Y). apply in_order_suffix in Y'. destruct Y' as (l & ->). exists l. split; [|reflexivity]. intros ->. pose proof (order_nodup (Xt i a k) x) as N. rewrite order_eq in N. inversion N; contradiction.
  Qed.
Section Place.
  Context (t : xtree) (x : path) (u : xtree) (K : kids_only x) (U : subtree t x = Some u).
  Lemma outside : forall y, In y (earlier t x) \/ In y (after t x) -> ~ exists l, y = l ++ x.
  Proof.
    intros y I (l & ->). pose proof (order_nodup t []) as N. rewrite (order_split _ _ _ K U) in N. destruct (nodup_mid _ _ _ N) as (N1 & N2 & _).
    assert (B : In (l ++ x) (order u x)) by (apply (below_in t); auto; rewrite (order_split _ _ _ K U), !in_app_iff; tauto). destruct I; eauto.
  Qed.
  Lemma in_here : In x (order t []).
  Proof. destruct (order_head x u) as (r & E & _). rewrite (order_split _ _ _ K U), E, !in_app_iff. right. left. left. reflexivity. Qed.
  Lemma earlier_before : forall y z, In y (earlier t x) -> In z (order u x) -> before (order t []) y z.
  Proof. intros y z Y Z. rewrite (order_split _ _ _ K U). apply in_split in Y. destruct Y as (a & b & ->). apply in_split in Z. destruct Z as (c & d & ->). exists a, (b ++ c), (d ++ after t x). apps; reflexivity. Qed.
  Lemma after_before : forall y z, In y (order u x) -> In z (after t x) -> before (order t []) y z.
  Proof. intros y z Y Z. rewrite (order_split _ _ _ K U). apply in_split in Y. destruct Y as (a & b & ->). apply in_split in Z. destruct Z as (c & d & ->). exists (earlier t x ++ a), (b ++ c), d. apps; reflexivity. Qed.
  Lemma earlier_after : forall y z, In y (earlier t x) -> In z (after t x) -> before (order t []) y z.
  Proof. intros y z Y Z. rewrite (order_split _ _ _ K U). apply in_split in Y. destruct Y as (a & b & ->). apply in_split in Z. destruct Z as (c & d & ->). exists a, (b ++ order u x ++ c), d. apps; reflexivity. Qed.
  Lemma here_before : forall y, In y (order u x) -> y = x \/ before (order t []) x y.
  Proof.
    intros y Y. destruct (order_head x u) as (r & E & _). rewrite E in Y. destruct Y as [->|Y]; [left; reflexivity|]. right. rewrite (order_split _ _ _ K U), E. apply in_split in Y. destruct Y as (c & d & ->). exists (earlier t x), c, (d ++ after t x). apps; reflexivity.
  Qed.
End Place.
Lemma not_before_self : forall t x, before (order t []) x x -> False.
Proof. intros t x B. exact (before_unique _ _ _ (order_nodup t []) B B). Qed.
Lemma no_cycle : forall t x y, before (order t []) x y -> before (order t []) y x -> False.
Proof. intros t x y. apply before_unique. apply order_nodup. Qed.
Lemma above_len : forall x y, is_above x y -> (length x < length y)%nat.
Proof. intros x y (l & N & ->). rewrite app_length. destruct l; [contradiction|cbn; lia]. Qed.

(** * Descendant *)
Lemma head_good : forall t x u, shape_ok t -> kids_only x -> subtree t x = Some u -> exists r, order u x = x :: r /\ filter (good t) r = cns x 0 false (t_kids u) /\ forall y, In y r -> is_above x y.
Proof.
  intros t x u SH K U. destruct (order_head x u) as (r & E & A). exists r. split; [exact E|]. split; [|exact A]. destruct u as [i a k]. rewrite order_eq in E. injection E as <-. rewrite filter_app, filter_att. cbn [app t_kids]. apply (good_orders' t (Xt i a k)); auto.
Qed.
Lemma descendant_picks : forall t x u, shape_ok t -> kids_only x -> subtree t x = Some u -> picks (on_axis t Descendant x) (nodes t) (cns x 0 false (t_kids u)).
Proof.
  intros t x u SH K U. destruct (head_good t x u SH K U) as (r & E & G & A). unfold nodes. rewrite (order_split t x u K U), !filter_app. rewrite <- (app_nil_l (cns x 0 false (t_kids u))), <- (app_nil_r (cns x 0 false (t_kids u))).
  apply picks_app; [|apply picks_app].
  - apply picks_none. intros y Y _ (_ & l & _ & ->). exact (outside t x u K U (l ++ x) (or_introl Y) (ex_intro _ l eq_refl)).
  - rewrite E. rewrite <- G. replace (filter (good t) r) with ([] ++ filter (good t) r) by reflexivity. change (x :: r) with ([x] ++ r). rewrite filter_app. apply picks_app.
    + apply picks_none. intros y [<-|[]] _ (_ & X). apply above_len in X. lia.
    + apply picks_part. intros y Y. rewrite good_c. cbn [on_axis]. specialize (A y Y). tauto.
  - apply picks_none. intros y Y _ (_ & l & _ & ->). exact (outside t x u K U (l ++ x) (or_intror Y) (ex_intro _ l eq_refl)).
Qed.
Lemma kid_kind : forall t i p k, shape_ok t -> kids_only p -> subtree t (Kid i :: p) = Some k -> is_kind t (Kid i :: p) Xattribute = false /\ is_kind t (Kid i :: p) Xdocument = false.
Proof. intros t i p k SH K U. destruct (kid_good t i p k SH K U) as (A & B). unfold is_kind. rewrite U. destruct (t_kind k); try contradiction; auto. Qed.
Lemma kids_kind : forall t x u, shape_ok t -> t_kind t <> Xattribute -> kids_only x -> subtree t x = Some u -> is_kind t x Xattribute = false.
Proof.
  intros t [|[i| |] x] u SH R K U; try contradiction; [|apply (kid_kind t i x u); auto]. unfold is_kind. cbn. destruct (t_kind t); auto; contradiction.
Qed.
Lemma first_cns : forall t x u, subtree t x = Some u -> first_child t x = hd_error (cns x 0 false (t_kids u)).
Proof. intros t x u U. unfold first_child. rewrite U. destruct u as [i a [|[ik ak kk] k]]; [reflexivity|]. cbn [t_kids cns andb]. rewrite cn_eq. reflexivity. Qed.
Lemma descendant_run : forall t x u fuel first, shape_ok t -> t_kind t <> Xattribute -> kids_only x -> subtree t x = Some u -> (length (cns x 0 false (t_kids u)) <= fuel)%nat ->
  enumerate fuel t first Descendant x = Nodes (cns x 0 false (t_kids u)).
Proof.
  intros t x u fuel first SH R K U L. unfold enumerate, start. rewrite (kids_kind t x u SH R K U), (first_cns t x u U). apply (run_chain t Descendant x None [] (fun c => next_descendant t c x)).
  - intros w c E1 E2. unfold advance. rewrite E1, E2. reflexivity.
  - rewrite <- (up_self t x). change (t_kids u) with (skipn 0 (t_kids u)). apply (chain_kids t SH); auto.
    intros i p k KP UP LP. unfold next_descendant, out. cbn [parent up_from]. destruct (first_child t (Kid i :: p)); reflexivity.
  - exact L.
Qed.
Lemma descendant_self_run : forall t x u fuel first, shape_ok t -> t_kind t <> Xattribute -> kids_only x -> subtree t x = Some u -> (length (x :: cns x 0 false (t_kids u)) <= fuel)%nat ->
  enumerate fuel t first DescendantOrSelf x = Nodes (x :: cns x 0 false (t_kids u)).
Proof.
  intros t x u fuel first SH R K U L. unfold enumerate, start. change (Some x) with (hd_error (x :: cns x 0 false (t_kids u))). apply (run_chain t DescendantOrSelf x None [] (fun c => walk_down t c (Some x))).
  - intros w c E1 E2. unfold advance. rewrite E1, E2. reflexivity.
  - split.
    + unfold walk_down. rewrite (kids_kind t x u SH R K U), (first_cns t x u U). destruct (cns x 0 false (t_kids u)) as [|y l]; cbn [hd_error]; [|reflexivity]. assert (E : path_eqb x x = true) by (apply path_eqb_ok; reflexivity). cbn [opt_path_eqb]. rewrite E. reflexivity.
    + rewrite <- (up_self t x). change (t_kids u) with (skipn 0 (t_kids u)). apply (chain_kids t SH); auto.
      intros i p k KP UP LP. unfold walk_down, out. destruct (kid_kind t i p k SH KP UP) as (-> & _). cbn [parent up_from]. destruct (first_child t (Kid i :: p)); [reflexivity|].
      assert (E : path_eqb (Kid i :: p) x = false). { destruct (path_eqb (Kid i :: p) x) eqn:E; [|reflexivity]. apply path_eqb_ok in E. exfalso. rewrite <- E in LP. cbn in LP. lia. } cbn [opt_path_eqb]. rewrite E. reflexivity.
  - exact L.
Qed.
Lemma nodes_in : forall t x, In x (nodes t) <-> In x (order t []) /\ continues t x = false.
Proof. intros t x. unfold nodes. rewrite filter_In. destruct (continues t x); intuition discriminate. Qed.
Lemma nodes_nodup : forall t, NoDup (nodes t).
Proof. intros t. apply NoDup_filter. apply order_nodup. Qed.
Lemma descendant_self_picks : forall t x u, shape_ok t -> kids_only x -> subtree t x = Some u -> continues t x = false -> picks (on_axis t DescendantOrSelf x) (nodes t) (x :: cns x 0 false (t_kids u)).
Proof.
  intros t x u SH K U C. destruct (head_good t x u SH K U) as (r & E & G & A). unfold nodes. rewrite (order_split t x u K U), !filter_app. rewrite <- (app_nil_l (x :: cns x 0 false (t_kids u))), <- (app_nil_r (x :: cns x 0 false (t_kids u))).
  apply picks_app; [|apply picks_app].
  - apply picks_none. intros y Y _ [(_ & l & _ & ->)| ->]; [exact (outside t x u K U (l ++ x) (or_introl Y) (ex_intro _ l eq_refl))|exact (outside t x u K U x (or_introl Y) (ex_intro _ [] eq_refl))].
  - rewrite E. rewrite <- G. change (x :: r) with ([x] ++ r). rewrite filter_app. change (x :: filter (good t) r) with ([x] ++ filter (good t) r). apply picks_app.
    + cbn [filter]. rewrite C. cbn [negb]. apply picks_in; [right; reflexivity|constructor].
    + apply picks_part. intros y Y. rewrite good_c. cbn [on_axis]. specialize (A y Y). assert (y <> x) by (intros ->; apply above_len in A; lia). tauto.
  - apply picks_none. intros y Y _ [(_ & l & _ & ->)| ->]; [exact (outside t x u K U (l ++ x) (or_intror Y) (ex_intro _ l eq_refl))|exact (outside t x u K U x (or_intror Y) (ex_intro _ [] eq_refl))].
Qed.

(** * Following *)
Lemma following_picks : forall t x u, shape_ok t -> kids_only x -> subtree t x = Some u -> picks (on_axis t Following x) (nodes t) (fp t x).
Proof.
  intros t x u SH K U. unfold nodes. rewrite (order_split t x u K U), !filter_app. change (fp t x) with ([] ++ [] ++ fp t x). apply picks_app; [|apply picks_app].
  - apply picks_none. intros y Y _ (_ & B & _). destruct (order_head x u) as (r & E & _). apply (no_cycle t x y B). apply (earlier_before t x u K U); [exact Y|rewrite E; left; reflexivity].
  - apply picks_none. intros y Y _ (_ & B & N). destruct (in_order_suffix _ _ _ Y) as (l & ->). destruct l as [|s l]; [exact (not_before_self t x B)|]. apply N. exists (s :: l). split; [discriminate|reflexivity].
  - rewrite <- (filter_after t x SH K). apply picks_part. intros y Y. rewrite good_c. cbn [on_axis].
    assert (before (order t []) x y) by (destruct (order_head x u) as (r & E & _); apply (after_before t x u K U); [rewrite E; left; reflexivity|exact Y]).
    assert (~ is_above x y) by (intros (l & _ & ->); exact (outside t x u K U (l ++ x) (or_intror Y) (ex_intro _ l eq_refl))). tauto.
Qed.
Lemma attribute_after : forall t i e w, kids_only e -> subtree t e = Some w -> In (Att i :: e) (order t []) -> In (Att i :: e) (order w e).
Proof. intros t i e w K W I. exact (below_in t e w [Att i] W I K). Qed.
Lemma attribute_place : forall t e w i, kids_only e -> subtree t e = Some w -> (i < length (t_attrs w))%nat ->
  exists a b c, order t [] = (earlier t e ++ e :: a) ++ (Att i :: e) :: b ++ c ++ after t e /\ c = orders e 0 (t_kids w) /\ (forall y, In y a \/ In y b -> is_attribute y) /\ (forall y, In y a \/ In y b \/ In y c -> exists l, l <> [] /\ y = l ++ e).
Proof.
  intros t e w i K W L. rewrite (order_split t e w K W). destruct w as [iw at_ k]. cbn [t_attrs t_kids] in *.
  assert (I : In (Att i :: e) (attributes_of e 0 at_)) by (apply in_attributes; exists i; split; [lia|reflexivity]). apply in_split in I. destruct I as (a & b & E).
  exists a, b, (orders e 0 k). rewrite order_eq, E. split; [apps; reflexivity|]. split; [reflexivity|].
  assert (AB : forall y, In y a \/ In y b -> exists j, y = Att j :: e).
  { intros y Y. assert (Y' : In y (attributes_of e 0 at_)) by (rewrite E, in_app_iff; cbn; tauto). apply in_attributes in Y'. destruct Y' as (j & _ & ->). exists j. reflexivity. }
  split.
  - intros y Y. destruct (AB y Y) as (j & ->). exists j, e. reflexivity.
  - intros y [Y|[Y|Y]]; [destruct (AB y (or_introl Y)) as (j & ->); exists [Att j]; split; [discriminate|reflexivity]|destruct (AB y (or_intror Y)) as (j & ->); exists [Att j]; split; [discriminate|reflexivity]|].
    apply in_orders in Y. destruct Y as (j & kj & _ & Y). apply in_order_suffix in Y. destruct Y as (l & ->). exists (l ++ [Kid (0 + j)]). split; [destruct l; discriminate|rewrite <- app_assoc; reflexivity].
Qed.
Lemma attribute_following_picks : forall t e w i, shape_ok t -> kids_only e -> subtree t e = Some w -> (i < length (t_attrs w))%nat ->
  picks (on_axis t Following (Att i :: e)) (nodes t) (cns e 0 false (t_kids w) ++ fp t e).
Proof.
  intros t e w i SH K W L. destruct (attribute_place t e w i K W L) as (a & b & c & E & EC & AB & ABC). set (x := Att i :: e) in *. unfold nodes. rewrite E.
  assert (B1 : forall y, In y (earlier t e ++ e :: a) -> before (order t []) y x).
  { intros y Y. rewrite E. apply in_split in Y. destruct Y as (l & m & ->). exists l, m, (b ++ c ++ after t e). rewrite <- app_assoc. reflexivity. }
  assert (B2 : forall y, In y (b ++ c ++ after t e) -> before (order t []) x y).
  { intros y Y. rewrite E. apply in_split in Y. destruct Y as (l & m & EE). exists (earlier t e ++ e :: a), l, m. rewrite EE. reflexivity. }
  change (x :: b ++ c ++ after t e) with ([x] ++ b ++ c ++ after t e). rewrite (filter_app _ (earlier t e ++ e :: a)). rewrite !(filter_app _ [x]), (filter_app _ b), (filter_app _ c).
  change (cns e 0 false (t_kids w) ++ fp t e) with ([] ++ [] ++ [] ++ cns e 0 false (t_kids w) ++ fp t e). apply picks_app; [|apply picks_app; [|apply picks_app; [|apply picks_app]]].
  - apply picks_none. intros y Y _ (_ & B & _). exact (no_cycle t _ _ B (B1 y Y)).
  - apply picks_none. intros y [<-|[]] _ (_ & B & _). exact (not_before_self t _ B).
  - apply picks_none. intros y Y _ (N & _). apply N. apply AB. right. exact Y.
  - assert (G : filter (good t) c = cns e 0 false (t_kids w)) by (rewrite EC; apply (good_orders' t w); auto). rewrite <- G. apply picks_part. intros y Y. rewrite good_c. cbn [on_axis].
    assert (before (order t []) x y) by (apply B2; rewrite !in_app_iff; tauto).
    assert (~ is_above x y). { intros (l & _ & EY). subst c. apply in_orders in Y. destruct Y as (j & kj & _ & Y). apply in_order_suffix in Y. destruct Y as (m & EM). rewrite EY in EM. apply suffix_eq in EM; [|reflexivity]. destruct EM as (_ & EM). unfold x in EM. discriminate. } tauto.
  - rewrite <- (filter_after t e SH K). apply picks_part. intros y Y. rewrite good_c. cbn [on_axis].
    assert (before (order t []) x y) by (apply B2; rewrite !in_app_iff; tauto).
    assert (~ is_above x y). { intros (l & _ & ->). unfold x in Y. refine (outside t e w K W (l ++ Att i :: e) (or_intror Y) _). exists (l ++ [Att i]). rewrite <- app_assoc. reflexivity. } tauto.
Qed.
Lemma following_next : forall t i p k, shape_ok t -> t_kind t = Xdocument -> kids_only p -> subtree t (Kid i :: p) = Some k ->
  walk_down t (Kid i :: p) (owner_document t (Kid i :: p)) = match first_child t (Kid i :: p) with Some n => To (Some n) | None => out t [] (Kid i :: p) end.
Proof.
  intros t i p k SH R K U. unfold walk_down, owner_document, out. destruct (kid_kind t i p k SH K U) as (-> & ->). rewrite R. cbn [xkind_eqb]. destruct (first_child t (Kid i :: p)); [reflexivity|]. cbn [opt_path_eqb path_eqb parent up_from]. reflexivity.
Qed.
Lemma fp_chain : forall t x u, shape_ok t -> t_kind t = Xdocument -> kids_only x -> subtree t x = Some u ->
  chain (fun c => walk_down t c (owner_document t c)) (fp t x) (To None) /\ (tree_is_text u = false -> up t (Some []) x = To (hd_error (fp t x))) /\ first_following_of t x = To (hd_error (fp t x)).
Proof.
  intros t x. induction x as [|s x IH]; intros u SH R K U.
  - split; [exact I|]. split; [intros _; apply up_self|]. cbn in U. injection U as <-. unfold first_following_of, find_next_sibling. unfold is_text. cbn [subtree]. unfold tree_is_text. rewrite R. cbn. unfold owner_document, is_kind. cbn [subtree]. rewrite R. reflexivity.
  - destruct s as [i| |]; try contradiction. pose proof U as U0. cbn [subtree] in U. cbn [fp]. destruct (subtree t x) as [w|] eqn:W; [|discriminate].
    assert (WT : tree_is_text w = false). { apply notext_kids; [apply (shape_sub t x); auto|]. intros E. rewrite E in U. destruct i; discriminate. }
    destruct (IH w SH R K eq_refl) as (C & UP & _). specialize (UP WT).
    assert (FL : flag_at w (S i) = tree_is_text u) by (cbn [flag_at]; rewrite U; reflexivity). rewrite FL.
    assert (HD : To (hd_error (cns x (S i) (tree_is_text u) (skipn (S i) (t_kids w)) ++ fp t x)) = out t [] (Kid i :: x)).
    { rewrite (out_next t [] x w i u W U). change (up t (Some []) x = To (hd_error (fp t x))) in UP. unfold path in *. rewrite UP. destruct (cns x (S i) (tree_is_text u) (skipn (S i) (t_kids w))); reflexivity. }
    split; [|split].
    + apply chain_app; [|exact C]. replace (match fp t x with [] => To None | y :: _ => To (Some y) end) with (up t (Some []) x) by (rewrite UP; destruct (fp t x); reflexivity).
      apply (chain_kids t SH); auto; [|cbn; lia]. intros j p k KP UP' _. apply (following_next t j p k); auto.
    + intros T. rewrite HD, up_kid. cbn [opt_path_eqb path_eqb]. unfold out, find_next_sibling, is_text. rewrite U0, T. reflexivity.
    + rewrite HD. unfold first_following_of, out. destruct (find_next_sibling t (Kid i :: x)); [reflexivity|]. cbn [parent up_from]. unfold owner_document. destruct (kid_kind t i x u SH K U0) as (_ & ->). rewrite R. reflexivity.
Qed.
Lemma following_run : forall t x u fuel first, shape_ok t -> t_kind t = Xdocument -> kids_only x -> subtree t x = Some u -> (length (fp t x) <= fuel)%nat -> enumerate fuel t first Following x = Nodes (fp t x).
Proof.
  intros t x u fuel first SH R K U L. destruct (fp_chain t x u SH R K U) as (C & _ & F). unfold enumerate, start, first_following. rewrite (kids_kind t x u SH ltac:(congruence) K U), F. cbn [at_]. apply (run_chain t Following x None [] (fun c => walk_down t c (owner_document t c))); auto.
  intros w c E1 E2. unfold advance. rewrite E1. reflexivity.
Qed.
Lemma attribute_kind : forall t i e w a, shape_ok t -> kids_only e -> subtree t e = Some w -> nth_error (t_attrs w) i = Some a -> is_kind t (Att i :: e) Xattribute = true /\ t_attrs a = [] /\ t_kind w = Xelement.
Proof.
  intros t i e w a SH K W N. unfold is_kind. cbn [subtree]. rewrite W, N. pose proof (shape_sub t e w SH K W) as SW. destruct w as [iw aw kw]. apply shape_eq in SW. destruct SW as (A & _ & F & _). rewrite Forall_forall in F. cbn [t_attrs] in N. destruct (F a (nth_error_In _ _ N)) as (F1 & F2). rewrite F1. split; [reflexivity|]. split; [exact F2|]. apply A. intros ->. destruct i; discriminate.
Qed.
Lemma attribute_following_run : forall t e w a i fuel first, shape_ok t -> t_kind t = Xdocument -> kids_only e -> subtree t e = Some w -> nth_error (t_attrs w) i = Some a -> (length (cns e 0 false (t_kids w) ++ fp t e) <= fuel)%nat ->
  enumerate fuel t first Following (Att i :: e) = Nodes (cns e 0 false (t_kids w) ++ fp t e).
Proof.
  intros t e w a i fuel first SH R K W N L. destruct (fp_chain t e w SH R K W) as (C & UP & F). destruct (attribute_kind t i e w a SH K W N) as (A & _ & WE). unfold enumerate, start, first_following. rewrite A. cbn [owner_element]. rewrite (first_cns t e w W), F.
  assert (WT : tree_is_text w = false) by (unfold tree_is_text; rewrite WE; reflexivity). specialize (UP WT).
  replace (match hd_error (cns e 0 false (t_kids w)) with Some n => To (Some n) | None => To (hd_error (fp t e)) end) with (To (hd_error (cns e 0 false (t_kids w) ++ fp t e))) by (destruct (cns e 0 false (t_kids w)); reflexivity).
  cbn [at_]. apply (run_chain t Following (Att i :: e) None [] (fun c => walk_down t c (owner_document t c))); auto.
  - intros v c E1 E2. unfold advance. rewrite E1. reflexivity.
  - apply chain_app; [|exact C]. replace (match fp t e with [] => To None | y :: _ => To (Some y) end) with (up t (Some []) e) by (rewrite UP; destruct (fp t e); reflexivity).
    change (t_kids w) with (skipn 0 (t_kids w)). apply (chain_kids t SH); auto; [|cbn; lia]. intros j p k KP UP' _. apply (following_next t j p k); auto.
Qed.
