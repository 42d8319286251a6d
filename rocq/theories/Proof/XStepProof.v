From Coq Require Import SpecFloat Sorted Permutation.
From Verif.Model Require Import Base Containers XNode XAxis XNodeSet XCompare XStep.
From Verif.Spec Require Import XOrder XAxisSpec XNodeSetSpec XCompareSpec XStepSpec.
From Verif.Proof Require Import Tac ContainersProof XOrderProof XAxisProof XAxisWalks XAxisSimple XNodeSetProof XCompareProof XIntProof.

(** * Predicates *)
Lemma eqb_sym : forall a b, SFeqb a b = SFeqb b a.
Proof. intros a b. unfold SFeqb. rewrite (compare_sym a b). destruct (SFcompare a b) as [[]|]; reflexivity. Qed.
Lemma holds_bool : forall v p, (match v with VNum _ => False | _ => True end) -> (as_bool v = true <-> holds v p).
Proof. intros v p V. rewrite truth_ok. destruct v; try contradiction; reflexivity. Qed.
Lemma passes_ok : forall p v, 1 <= p < 4294967296 -> (passes p v = true <-> holds v p).
Proof.
  intros p v P. destruct v as [b|n|s|s]; try (apply holds_bool; exact Logic.I). unfold passes, holds. rewrite eqb_sym. destruct (SFeqb n (of_Z p)) eqn:E.
  - apply eqb_ok in E. split; [intros _; exact E|]. intros _. unfold numbers in E. assert (F : SFcompare (of_Z p) (of_Z 0) = Some Gt) by (rewrite compare_int; [f_equal; apply Z.compare_gt_iff; lia|red; lia|red; lia]).
    cbn [as_bool]. destruct n as [[]|[]| |[] m e]; try reflexivity; exfalso; rewrite compare_sym in E; destruct (of_Z p) as [[]|[]| |[] m' e']; cbn in E, F; discriminate.
  - split; [discriminate|]. intros H. apply eqb_ok in H. congruence.
Qed.
Lemma as_int_small : forall z, 0 <= z < 2147483648 -> as_int z = z.
Proof. intros z B. unfold as_int, wrap32. rewrite Z.mod_small by lia. destruct (z <? 2147483648) eqn:E; [reflexivity|lia]. Qed.
Lemma wrap_small : forall z, 0 <= z < 4294967296 -> wrap32 z = z.
Proof. intros z B. apply Z.mod_small. lia. Qed.

(** Values that have the same meaning: sets with the same nodes. *)
Definition alike (v w : value) : Prop :=
  match v, w with VSet a, VSet b => forall x, In x (s_nodes a) <-> In x (s_nodes b) | _, _ => v = w end.
Lemma alike_refl : forall v, alike v v.
Proof. intros [b|n|s|s]; cbn; reflexivity. Qed.
Lemma same_empty : forall {A} (l m : list A), (forall x, In x l <-> In x m) -> (l = [] <-> m = []).
Proof. intros A l m H. split; intros ->; [destruct m as [|y m]; [reflexivity|]; destruct (proj2 (H y) (or_introl eq_refl))|destruct l as [|y l]; [reflexivity|]; destruct (proj1 (H y) (or_introl eq_refl))]. Qed.
Lemma alike_truth : forall v w, alike v w -> truth v = truth w.
Proof. intros [b|n|s|s] [b'|n'|s'|s'] H; cbn in H; try discriminate; try (injection H as ->; reflexivity). apply same_empty in H. cbn [truth]. destruct (s_nodes s), (s_nodes s'); try reflexivity; destruct H as (H1 & H2); try (discriminate (H1 eq_refl)); discriminate (H2 eq_refl). Qed.
Lemma alike_holds : forall v w p, alike v w -> (holds v p <-> holds w p).
Proof. intros v w p H. pose proof (alike_truth v w H) as T. destruct v as [b|n|s|s], w as [b'|n'|s'|s']; cbn in H; try discriminate; cbn [holds] in *; try (rewrite T; reflexivity). injection H as ->. reflexivity. Qed.

(** An expression computes what a meaning says, at the nodes that are all right. *)
Definition refines (ok : xnode -> Prop) (q : expression) (m : meaning) : Prop := forall x position last v,
  ok x -> q x position last = Got v -> exists w, m x position last w /\ alike v w.

Lemma keep_lemma : forall ok q m, refines ok q m -> forall last, last < 2147483648 -> forall l p res r, Forall ok l -> 1 <= p -> p + Z.of_nat (length l) - 1 <= last ->
  keep q last p l res = Got r -> exists n, kept m last p l n /\ s_nodes r = s_nodes res ++ n /\ incl n l.
Proof.
  intros ok q m RF last B. induction l as [|x l IH]; intros p res r F P L K.
  - cbn in K. injection K as <-. exists []. split; [constructor|]. rewrite app_nil_r. split; [reflexivity|apply incl_nil_l].
  - inversion F as [|? ? F1 F2]; subst. cbn [length] in L. cbn [keep] in K. destruct (q x (as_int p) (as_int last)) as [v| | |] eqn:Q; cbn [andthen] in K; try discriminate. rewrite wrap_small in K by lia. rewrite !as_int_small in Q by lia.
    destruct (RF x p last v F1 Q) as (w & W & AL). apply IH in K; [|exact F2|lia|lia]. destruct K as (n & KN & E & I). pose proof (alike_holds v w p AL) as HW. pose proof (passes_ok p v ltac:(lia)) as PO. destruct (passes p v).
    + exists (x :: n). split; [eapply kept_in; [exact W|apply HW, PO; reflexivity|exact KN]|]. split; [rewrite E; cbn [push_node s_nodes]; rewrite <- app_assoc; reflexivity|]. intros y [<-|Y]; [left; reflexivity|right; apply I; exact Y].
    + exists n. split; [eapply kept_out; [exact W| |exact KN]|]. * intros H. apply HW, PO in H. discriminate. * split; [exact E|apply incl_tl; exact I].
Qed.
Lemma incl_forall : forall {A} (P : A -> Prop) l m, incl m l -> Forall P l -> Forall P m.
Proof. intros A P l m I F. rewrite Forall_forall in *. intros x X. apply F. apply I. exact X. Qed.
Lemma kept_length : forall q size p l m, kept q size p l m -> (length m <= length l)%nat.
Proof. intros q size p l m K. induction K; cbn; lia. Qed.
Lemma predicates_lemma : forall ok qs ms, Forall2 (refines ok) qs ms -> forall s r, Forall ok (s_nodes s) -> Z.of_nat (length (s_nodes s)) < 2147483648 ->
  apply_predicates qs s = Got r -> filtered ms (s_nodes s) (s_nodes r) /\ incl (s_nodes r) (s_nodes s) /\ (s_sorted r = true -> s = r).
Proof.
  intros ok qs ms F2. induction F2 as [|q m qs ms RF F2 IH]; intros s r F L A.
  - cbn in A. injection A as <-. split; [constructor|]. split; [apply incl_refl|reflexivity].
  - cbn [apply_predicates] in A. destruct (s_nodes s) as [|x l] eqn:E.
    + injection A as <-. rewrite E. split; [|split; [apply incl_refl|reflexivity]]. clear - F2. apply filtered_by with (m := []); [constructor|]. induction F2; [constructor|]. eapply filtered_by with (m := []); [constructor|exact IHF2].
    + rewrite <- E in *. clear x l E. destruct (apply_predicate q s) as [s1| | |] eqn:Q; cbn [andthen] in A; try discriminate. unfold apply_predicate in Q. pose proof Q as Q0.
      eapply keep_lemma in Q; [|exact RF|lia|exact F|lia|lia]. destruct Q as (n & K & E & I). cbn [new_set s_nodes app] in E. subst n. pose proof (kept_length _ _ _ _ _ K) as KL. apply IH in A; [|eapply incl_forall; eauto|lia]. destruct A as (A & I2 & SO). split; [|split].
      * eapply filtered_by; [exact K|exact A].
      * eapply incl_tran; eauto.
      * intros S. specialize (SO S). exfalso. assert (NS : forall q last l p res r, s_sorted res = false -> keep q last p l res = Got r -> s_sorted r = false).
        { clear. intros q last. induction l as [|x l IH]; intros p res r H K; [cbn in K; injection K as <-; exact H|]. cbn [keep] in K. destruct (q x (as_int p) (as_int last)); cbn [andthen] in K; try discriminate. apply IH in K; [exact K|]. destruct (passes p a); [reflexivity|exact H]. }
        apply NS in Q0; [|reflexivity]. congruence.
Qed.

(** * Node tests *)
Lemma empty_ok : forall s, empty s = true <-> s = [].
Proof. intros [|c s]; cbn; split; congruence. Qed.
Lemma test_ok : forall a s u, a <> Namespace -> t_kind u <> Xnamespace ->
  (a = Attribute -> match s with Named name => name <> xmlns | NamedIn prefix _ _ | AnyIn prefix _ => prefix <> xmlns | _ => True end) ->
  (matches (get_test a s) u = true <-> node_passes a s (t_info u)).
Proof.
  intros a s u NA NK AT. unfold t_kind in NK. assert (EN : element_or_namespace (i_kind (t_info u)) = true <-> i_kind (t_info u) = Xelement) by (destruct (i_kind (t_info u)); cbn; split; congruence).
  assert (AK : is_attribute_kind (i_kind (t_info u)) = true <-> i_kind (t_info u) = Xattribute) by (destruct (i_kind (t_info u)); cbn; split; congruence).
  assert (X : forall z, z <> xmlns -> str_eqb z xmlns = false) by (intros z Z; destruct (str_eqb z xmlns) eqn:E; [apply str_eqb_true in E; contradiction|reflexivity]).
  destruct (is_attribute_axis a) eqn:EA.
  - destruct a; try discriminate. specialize (AT eq_refl). destruct s as [name|prefix uri name| |prefix uri| | | |target]; unfold get_test; cbn [is_attribute_axis node_passes principal]; try rewrite (X _ AT); unfold matches.
    + rewrite !andb_true_iff, AK, str_eqb_true, empty_ok. intuition.
    + rewrite !andb_true_iff, AK, !str_eqb_true. intuition.
    + exact AK.
    + rewrite !andb_true_iff, AK, !str_eqb_true. intuition.
    + tauto.
    + unfold tree_is_text, t_kind. destruct (i_kind (t_info u)); split; try tauto; try discriminate; try (intros [|]; discriminate); reflexivity.
    + destruct (i_kind (t_info u)); split; congruence.
    + destruct (i_kind (t_info u)); split; try (intros (? & _); discriminate); try discriminate. * destruct (empty target) eqn:E; [apply empty_ok in E; auto|]. rewrite str_eqb_true. auto. * intros (_ & [->|E]); [reflexivity|]. destruct (empty target); [reflexivity|]. apply str_eqb_true. exact E.
  - assert (PR : principal a = Xelement) by (destruct a; try reflexivity; try discriminate; contradiction).
    destruct s as [name|prefix uri name| |prefix uri| | | |target]; unfold get_test; rewrite ?EA; unfold node_passes; rewrite ?PR; unfold matches.
    + rewrite !andb_true_iff, EN, str_eqb_true, empty_ok. intuition.
    + rewrite !andb_true_iff, EN, !str_eqb_true. intuition.
    + exact EN.
    + rewrite !andb_true_iff, EN, !str_eqb_true. intuition.
    + tauto.
    + unfold tree_is_text, t_kind. destruct (i_kind (t_info u)); split; try tauto; try discriminate; try (intros [|]; discriminate); reflexivity.
    + destruct (i_kind (t_info u)); split; congruence.
    + destruct (i_kind (t_info u)); split; try (intros (? & _); discriminate); try discriminate. * destruct (empty target) eqn:E; [apply empty_ok in E; auto|]. rewrite str_eqb_true. auto. * intros (_ & [->|E]); [reflexivity|]. destruct (empty target); [reflexivity|]. apply str_eqb_true. exact E.
Qed.
Lemma filter_picks : forall {A} (P : A -> Prop) (b : A -> bool) l, (forall x, In x l -> (b x = true <-> P x)) -> picks P l (filter b l).
Proof.
  intros A P b l. induction l as [|x l IH]; intros H; [constructor|]. cbn [filter]. pose proof (H x (or_introl eq_refl)) as HX. destruct (b x).
  - apply picks_in; [apply HX; reflexivity|apply IH; intros y Y; apply H; right; exact Y].
  - apply picks_out; [intros P1; apply HX in P1; discriminate|apply IH; intros y Y; apply H; right; exact Y].
Qed.
Lemma picks_incl : forall {A} (P : A -> Prop) l m, picks P l m -> (forall x, In x m <-> In x l /\ P x).
Proof.
  intros A P l m K. induction K as [|x l m PX K IH|x l m PX K IH]; intros y; [cbn; tauto| |].
  - cbn [In]. rewrite IH. split; [intros [<-|(A1 & A2)]; auto|intros ([<-|A1] & A2); auto].
  - cbn [In]. rewrite IH. split; [intros (A1 & A2); auto|intros ([<-|A1] & A2); [contradiction|auto]].
Qed.

(** * Steps *)
Lemma counted_texts : forall l i, Forall (fun k => tree_is_text k = true) l -> counted i true l = [].
Proof. induction l as [|k l IH]; intros i F; [reflexivity|]. inversion F as [|? ? F1 F2]; subst. cbn [counted]. rewrite F1. cbn. apply IH. exact F2. Qed.
Lemma axis_in : forall t a x l, axis_list t a x l -> forall y, In y l <-> In y (nodes t) /\ on_axis t a x y.
Proof. intros t a x l A y. unfold axis_list in A. rewrite <- (picks_incl _ _ _ A y). destruct (axis_forward a); [reflexivity|apply in_rev]. Qed.
Lemma axis_nodup : forall t a x l, axis_list t a x l -> (length l <= length (order t []))%nat.
Proof. intros t a x l A. unfold axis_list in A. apply picks_length in A. pose proof (nodes_length t). destruct (axis_forward a); [lia|]. rewrite rev_length in A. lia. Qed.
Lemma below_attribute : forall t l i q, l <> [] -> In (l ++ Att i :: q) (order t []) -> False.
Proof.
  intros t l i q N I. apply in_order in I. destruct I as [(K & _)|(j & e & E & K & _)]; [eapply att_suffix; eauto|]. destruct l as [|s l]; [contradiction|]. cbn in E. injection E as _ E. rewrite <- E in K. eapply att_suffix; eauto.
Qed.
Lemma attribute_flag : forall t a (from : bool) x y, In x (nodes t) -> In y (nodes t) -> on_axis t a x y -> (from = false -> ~ is_attribute x) -> to_attribute a from = false -> ~ is_attribute y.
Proof.
  intros t a from x y X Y O FL TA (i & q & ->). apply nodes_in in X. destruct X as (X & _). destruct a; cbn [to_attribute] in TA; try discriminate; cbn [on_axis] in O.
  - destruct O as (l & N & ->). eapply below_attribute; eauto.
  - destruct O as [(l & N & ->)|E]; [eapply below_attribute; eauto|]. subst x. apply (FL TA). exists i, q. reflexivity.
  - apply (proj1 O). exists i, q. reflexivity.
  - apply (proj1 O). exists i, q. reflexivity.
  - destruct O as [(N & _)|E]; [apply N; exists i, q; reflexivity|]. subst x. apply (FL TA). exists i, q. reflexivity.
  - apply (proj1 O). exists i, q. reflexivity.
  - destruct O as (? & ? & ? & _ & E & _). discriminate.
  - contradiction.
  - destruct O as (s & ->). apply (below_attribute t [s] i q); [discriminate|exact X].
  - apply (proj1 O). exists i, q. reflexivity.
  - destruct O as (? & ? & ? & _ & E & _). discriminate.
  - subst x. apply (FL TA). exists i, q. reflexivity.
Qed.

(** The child axis of an attribute gives its text, which no other test than text() and node()
    takes. *)
Lemma attribute_child : forall t i p u fuel, subtree t (Att i :: p) = Some u -> Forall (fun k => t_kind k = Xtext) (t_kids u) -> (1 <= fuel)%nat ->
  exists l, enumerate fuel t 0 Child (Att i :: p) = Nodes l /\ Forall (fun y => exists k, subtree t y = Some k /\ t_kind k = Xtext) l.
Proof.
  intros t i p u fuel U F L. set (x := Att i :: p) in *. exists (map (kid_at x) (counted 0 false (t_kids u))). split.
  - unfold enumerate, start. replace (first_child t x) with (hd_error (map (kid_at x) (counted 0 false (t_kids u)))) by (rewrite (first_cns t x u U), hd_cns, hd_map; reflexivity).
    apply (run_chain t Child x None [] (fun c => To (find_next_sibling t c))); [intros w c E1 E2; unfold advance, at_; rewrite E1; reflexivity|apply (next_chain t x u); auto|].
    rewrite map_length. destruct (t_kids u) as [|k l]; [cbn; lia|]. inversion F as [|? ? F1 F2]; subst. cbn [counted andb]. replace (tree_is_text k) with true by (unfold tree_is_text; rewrite F1; reflexivity). rewrite counted_texts; [cbn; lia|]. eapply Forall_impl; [|exact F2]. intros k' K'. cbn beta in K'. unfold tree_is_text. rewrite K'. reflexivity.
  - rewrite Forall_forall in *. intros y Y. apply in_map_iff in Y. destruct Y as (j & <- & J). apply counted_bounds in J. cbn [Nat.add] in J. unfold kid_at. cbn [subtree] in *. change (match subtree t p with Some u0 => nth_error (t_attrs u0) i | None => None end) with (subtree t x). rewrite U.
    destruct (nth_error (t_kids u) j) as [k|] eqn:E; [|apply nth_error_None in E; lia]. exists k. split; [reflexivity|]. apply F. apply nth_error_In with j. exact E.
Qed.

Section Document.
  Variables (ss : sorter) (f : forest) (d : nat).
  Hypothesis SS : sorts ss.
  Hypothesis DOC : documents f.
  Hypothesis OWN : f_doc f d = d.
  Let t := f_tree f d.
  Hypothesis WD : whole_document t.
  (** A node of the document; [from] says that it may be an attribute. *)
  Definition fine (from : bool) (x : xnode) : Prop := fst x = d /\ In (snd x) (nodes t) /\ (from = false -> ~ is_attribute (snd x)).
  Lemma fine_more : forall b x, fine b x -> fine true x.
  Proof. intros b x (A & B & _). split; [exact A|split; [exact B|discriminate]]. Qed.
  Lemma fine_node : forall b x, fine b x -> node_of f x.
  Proof. intros b x (A & B & _). unfold node_of. rewrite A. split; [exact OWN|]. split; [exact (proj1 (proj2 (proj2 WD)))|]. apply nodes_in in B. apply B. Qed.
  Lemma tree_fuel : tree_size t = length (order t []).
  Proof. symmetry. apply size_eq. Qed.
  Lemma push_all_nodes : forall l s, s_nodes (push_all l s) = s_nodes s ++ l /\ s_forward (push_all l s) = s_forward s /\ (s_sorted s = false -> s_sorted (push_all l s) = false).
  Proof. induction l as [|x l IH]; intros s; [cbn; rewrite app_nil_r; auto|]. cbn [push_all fold_left]. destruct (IH (push_node x s)) as (A & B & C). unfold push_all in *. rewrite A, B. cbn [push_node s_nodes s_forward]. rewrite <- app_assoc. split; [reflexivity|]. split; [reflexivity|]. intros _. apply C. reflexivity. Qed.

  (** What a step gives from one node. *)
  Definition from_one (a : axis) (n : node_test) (qs : list expression) (x : xnode) : list xnode :=
    match enumerate_over f a n qs x (new_set true) with Got r => s_nodes r | _ => [] end.
  Lemma over_one : forall a n qs x results r, s_sorted results = false -> enumerate_over f a n qs x results = Got r ->
    s_nodes r = s_nodes results ++ from_one a n qs x /\ s_sorted r = false.
  Proof.
    intros a n qs x results r SF E. unfold from_one, enumerate_over in *. destruct (enumerate (tree_size (f_tree f (fst x))) (f_tree f (fst x)) 0 a (snd x)) as [l| |]; try discriminate.
    set (tested := map _ _) in *. clearbody tested. assert (SF' : forall s, s_sorted s = false -> s_nodes (set_forward (axis_forward a) s) = s_nodes s /\ s_sorted (set_forward (axis_forward a) s) = false) by (intros s S; unfold set_forward; destruct (Bool.eqb _ _); auto). destruct qs as [|q qs].
    - injection E as <-. destruct (push_all_nodes tested (set_forward (axis_forward a) results)) as (A & _ & C). destruct (push_all_nodes tested (set_forward (axis_forward a) (new_set true))) as (A' & _ & _). destruct (SF' results SF) as (N & S). destruct (SF' (new_set true) eq_refl) as (N' & _). rewrite A, A', N, N'. split; [reflexivity|]. apply C. exact S.
    - destruct (apply_predicates (q :: qs) (push_all tested (new_set (axis_forward a)))) as [m| | |]; cbn [andthen] in *; try discriminate. injection E as <-. unfold insert_nodes. cbn [s_nodes s_sorted]. split; [|reflexivity]. rewrite !firstn_all, !skipn_all, !app_nil_r.
      destruct (SF' results SF) as (N & S). destruct (SF' (new_set true) eq_refl) as (N' & _). rewrite N, N'. cbn [new_set s_nodes length firstn skipn app]. rewrite ?firstn_nil, ?skipn_nil, ?app_nil_r. reflexivity.
  Qed.
  Lemma step_lemma : forall a s qs ms (from : bool) x results r, fine from x -> step_allowed t from a s -> Forall2 (refines (fine (to_attribute a from))) qs ms ->
    enumerate_over f a (get_test a s) qs x results = Got r ->
    step_list f a s ms x (from_one a (get_test a s) qs x) /\ Forall (fine (to_attribute a from)) (from_one a (get_test a s) qs x).
  Proof.
    intros a s qs ms from x results r FX (NN & PP & CH & AT) RF E. destruct WD as (TK & SH & SM & SZ & NK & TX). destruct FX as (D & IN & FL).
    assert (RK : t_kind t <> Xattribute) by (rewrite TK; discriminate).
    (* the nodes of the axis *)
    assert (EN : exists la lt, axis_list t a (snd x) la /\ (exists l, enumerate (tree_size t) t 0 a (snd x) = Nodes l /\ filter (fun p => match subtree t p with Some u => matches (get_test a s) u | None => false end) l = lt) /\
      picks (fun p => exists u, subtree t p = Some u /\ node_passes a s (t_info u)) la lt).
    { assert (TEST : forall la, axis_list t a (snd x) la -> picks (fun p => exists u, subtree t p = Some u /\ node_passes a s (t_info u)) la (filter (fun p => match subtree t p with Some u => matches (get_test a s) u | None => false end) la)).
      { intros la AL. apply filter_picks. intros y Y. apply (axis_in t a (snd x) la AL) in Y. destruct Y as (Y & _). apply nodes_in in Y. destruct Y as (Y & _).
        destruct (subtree t y) as [u|] eqn:U. - rewrite test_ok; [|exact NN|exact (NK y u Y U)|exact AT]. split; [intros P; exists u; auto|intros (u' & E' & P); congruence]. - split; [discriminate|]. intros (u & U' & _). discriminate. }
      assert (DEC : provided t a (snd x) \/ (a = Child /\ is_attribute (snd x))).
      { destruct (attb (snd x)) eqn:AB; [apply attb_ok in AB|assert (~ is_attribute (snd x)) by (intros H; apply attb_ok in H; congruence)].
        - destruct a; try (left; split; [discriminate|split; [discriminate|split; [intros _; exact TK|exact PP]]]); auto; contradiction.
        - left. split; [exact NN|]. split; [auto|]. split; [intros _; exact TK|exact PP]. }
      destruct DEC as [PR|(-> & IA)].
      - destruct (axis_lemma t (snd x) a (tree_size t) 0 SH RK IN PR) as (la & E1 & E2); [rewrite tree_fuel; lia|]. exists la. eexists. split; [exact E2|]. split; [exists la; split; [exact E1|reflexivity]|]. apply TEST. exact E2.
      - assert (EF : from = true) by (destruct from; [reflexivity|]; destruct (FL eq_refl IA)). destruct (CH eq_refl EF) as (C1 & C2). destruct IA as (i & p & EX). pose proof IN as IN0. apply nodes_in in IN. destruct IN as (IO & _). rewrite EX in IO. pose proof IO as IO0. apply in_order in IO. destruct IO as [(K & _)|(i' & p' & EE & K & u & U)]; [contradiction|]. injection EE as <- <-.
        destruct (attribute_child t i p u (tree_size t) U) as (l & E1 & E2); [rewrite Forall_forall; intros k KK; exact (TX i p u k IO0 U KK)|rewrite tree_fuel; apply order_some|]. exists [], []. split; [|split; [|constructor]].
        + unfold axis_list. cbn [axis_forward]. apply picks_nothing. intros y Y (_ & st & ->). apply nodes_in in Y. destruct Y as (Y & _). rewrite EX in Y. apply (below_attribute t [st] i p); [discriminate|exact Y].
        + exists l. rewrite EX. split; [exact E1|]. apply filter_false. intros y Y. rewrite Forall_forall in E2. destruct (E2 y Y) as (k & -> & KK). unfold t_kind in KK. destruct s; try congruence; unfold get_test; cbn [is_attribute_axis]; unfold matches; rewrite ?KK; cbn; rewrite ?andb_false_r; reflexivity. }
    destruct EN as (la & lt & AL & (l & E1 & E2) & PK). assert (FINE : Forall (fine (to_attribute a from)) (map (pair (fst x)) lt)).
    { rewrite Forall_forall. intros y Y. apply in_map_iff in Y. destruct Y as (p & <- & P). apply (picks_incl _ _ _ PK) in P. destruct P as (P & _). apply (axis_in _ _ _ _ AL) in P. destruct P as (P1 & P2). split; [exact D|]. split; [exact P1|]. intros TA. exact (attribute_flag t a from (snd x) p IN P1 P2 FL TA). }
    assert (LEN : (length lt <= length (order t []))%nat) by (apply picks_length in PK; apply axis_nodup in AL; lia).
    unfold from_one. unfold enumerate_over in *. rewrite D in E |- *. fold t in E |- *. rewrite E1 in E |- *. rewrite E2 in E |- *. destruct qs as [|q qs].
    - inversion RF; subst ms. destruct (push_all_nodes (map (pair d) lt) (set_forward (axis_forward a) (new_set true))) as (A & _ & _). rewrite A. rewrite D in FINE. replace (s_nodes (set_forward (axis_forward a) (new_set true))) with (@nil xnode) by (unfold set_forward; destruct (Bool.eqb _ _); reflexivity). cbn [app]. split; [|exact FINE].
      unfold step_list. rewrite D. fold t. exists la, lt. split; [exact AL|]. split; [exact PK|constructor].
    - destruct (apply_predicates (q :: qs) (push_all (map (pair d) lt) (new_set (axis_forward a)))) as [m| | |] eqn:AP; cbn [andthen] in E |- *; try discriminate. destruct (push_all_nodes (map (pair d) lt) (new_set (axis_forward a))) as (A & _ & _). cbn [new_set s_nodes app] in A. rewrite D in FINE.
      eapply predicates_lemma in AP; [|exact RF|rewrite A; exact FINE|rewrite A, map_length; lia]. rewrite A in AP. destruct AP as (P1 & P2 & _).
      replace (s_nodes (insert_nodes (length (s_nodes (set_forward (axis_forward a) (new_set true)))) (s_nodes m) (set_forward (axis_forward a) (new_set true)))) with (s_nodes m) by (unfold set_forward; destruct (Bool.eqb _ _); cbn; rewrite app_nil_r; reflexivity).
      split; [|eapply incl_forall; eauto]. unfold step_list. rewrite D. fold t. exists la, lt. split; [exact AL|]. split; [exact PK|exact P1].
  Qed.
  Lemma over_all_lemma : forall a s qs ms (from : bool), step_allowed t from a s -> Forall2 (refines (fine (to_attribute a from))) qs ms ->
    forall l results r, Forall (fine from) l -> s_sorted results = false -> over_all f a (get_test a s) qs l results = Got r ->
    s_nodes r = s_nodes results ++ flat_map (from_one a (get_test a s) qs) l /\ s_sorted r = false /\
    forall x, In x l -> step_list f a s ms x (from_one a (get_test a s) qs x) /\ Forall (fine (to_attribute a from)) (from_one a (get_test a s) qs x).
  Proof.
    intros a s qs ms from AL RF. induction l as [|x l IH]; intros results r F SF E.
    - cbn in E. injection E as <-. cbn [flat_map]. rewrite app_nil_r. split; [reflexivity|split; [exact SF|intros x []]].
    - inversion F as [|? ? F1 F2]; subst. cbn [over_all] in E. destruct (enumerate_over f a (get_test a s) qs x results) as [r1| | |] eqn:E1; cbn [andthen] in E; try discriminate.
      destruct (over_one _ _ _ _ _ _ SF E1) as (N1 & S1). destruct (IH r1 r F2 S1 E) as (N2 & S2 & H). split; [rewrite N2, N1, <- app_assoc; reflexivity|]. split; [exact S2|]. intros y [<-|Y]; [|apply H; exact Y]. eapply step_lemma; eauto.
  Qed.
  Lemma gives_out : forall position last ws l m m', gives f position last ws l m -> (forall x, In x m <-> In x m') -> gives f position last ws l m'.
  Proof.
    intros position last ws l m m' G. revert m'. induction G as [l m H|a s qs r l m g H G IH|v qs r l m x w n H V O G IH]; intros m' E.
    - apply gives_here. intros x. rewrite H. apply E.
    - eapply gives_axis; [exact H|apply IH; exact E].
    - eapply gives_value; [exact H|exact V|exact O|apply IH; exact E].
  Qed.
  Inductive follows : bool -> list step -> list wanted -> bool -> Prop :=
    | follows_end : forall b, follows b [] [] b
    | follows_axis : forall b a s qs ms r w c, step_allowed t b a s -> Forall2 (refines (fine (to_attribute a b))) qs ms -> follows (to_attribute a b) r w c ->
        follows b (TestStep a (get_test a s) qs :: r) (ByAxis a s ms :: w) c.
  (** A set that is in order when it says so, with nodes of the document. *)
  Definition good (c : bool) (s : nodeset) : Prop := good_set f s /\ Forall (fine c) (s_nodes s).
  Lemma good_unsorted : forall c s, s_sorted s = false -> Forall (fine c) (s_nodes s) -> good c s.
  Proof. intros c s S F. split; [|exact F]. split; [eapply Forall_impl; [|exact F]; intros x; apply fine_node|congruence]. Qed.
  Lemma steps_lemma : forall b steps ws c, follows b steps ws c -> forall position last nodes l r, good b nodes -> (forall x, In x l <-> In x (s_nodes nodes)) ->
    steps_value ss f steps nodes position last = Got r -> gives f position last ws l (s_nodes r) /\ good c r.
  Proof.
    intros b steps ws c FO. induction FO as [b|b a s qs ms r w c AL RF FO IH]; intros position last nodes l res (G & F) SAME E.
    - cbn in E. injection E as <-. split; [apply gives_here; exact SAME|split; assumption].
    - cbn [steps_value step_value] in E. destruct (over_all f a (get_test a s) qs (s_nodes nodes) (new_set true)) as [r1| | |] eqn:E1; cbn [andthen as_set] in E; try discriminate.
      destruct (over_all_lemma a s qs ms b AL RF _ (new_set true) _ F eq_refl E1) as (N & S & H). cbn [new_set s_nodes app] in N.
      assert (F1 : Forall (fine (to_attribute a b)) (s_nodes r1)). { rewrite N, Forall_forall. intros y Y. apply in_flat_map in Y. destruct Y as (x & X & Y). destruct (H x X) as (_ & FX). rewrite Forall_forall in FX. apply FX. exact Y. }
      destruct (IH position last r1 (flat_map (from_one a (get_test a s) qs) l) res) as (GV & GR); [apply good_unsorted; assumption| |exact E|].
      + intros x. rewrite N, !in_flat_map. split; intros (y & Y & I); exists y; (split; [apply SAME; exact Y|exact I]).
      + split; [|exact GR]. apply gives_axis with (g := from_one a (get_test a s) qs); [|exact GV]. intros x X. apply SAME in X. apply H. exact X.
  Qed.
  Lemma good_sort : forall c s, good c s -> good c (sort ss f s) /\ s_sorted (sort ss f s) = true /\ (forall x, In x (s_nodes (sort ss f s)) <-> In x (s_nodes s)).
  Proof. intros c s (G & F). destruct (sort_spec ss f s SS DOC G) as (G' & S & _ & IN). split; [split; [exact G'|]|split; [exact S|exact IN]]. rewrite Forall_forall in *. intros x X. apply F, IN, X. Qed.
  Lemma good_ordered : forall c s, good c s -> let o := to_document_order ss f s in good c o /\ StronglySorted (precedes f) (s_nodes o) /\ (forall x, In x (s_nodes o) <-> In x (s_nodes s)) /\ (length (s_nodes o) <= length (order t []))%nat.
  Proof.
    intros c s (G & F). destruct (to_document_order_spec ss f s SS DOC G) as (G' & S & FW & IN). cbv zeta. assert (F' : Forall (fine c) (s_nodes (to_document_order ss f s))) by (rewrite Forall_forall in *; intros x X; apply F, IN, X).
    assert (O : StronglySorted (precedes f) (s_nodes (to_document_order ss f s))). { pose proof (proj2 G' S) as L. rewrite FW in L. apply (lt_precedes f _ true DOC (proj1 G')) in L. exact L. }
    split; [split; assumption|]. split; [exact O|]. split; [exact IN|]. apply precedes_nodup in O. transitivity (length (map (pair d) (nodes t))); [|rewrite map_length; apply nodes_length].
    apply NoDup_incl_length; [exact O|]. intros [e p] X. rewrite Forall_forall in F'. destruct (F' _ X) as (A & B & _). cbn [fst snd] in *. subst e. apply in_map. exact B.
  Qed.
  Lemma top_one : forall b x, fine b x -> snd (top ss f (push_node x (new_set true))) = Some x.
  Proof.
    intros b x F. destruct (top_lemma ss f (push_node x (new_set true)) SS DOC) as (y & E & I & _); [|discriminate|].
    - split; [constructor; [exact (fine_node b x F)|constructor]|discriminate].
    - destruct I as [<-|[]]. exact E.
  Qed.

  (** An expression whose sets are good and that computes what a meaning says. *)
  Definition good_value (c : bool) (v : value) : Prop := match v with VSet s => good c s | _ => True end.
  Definition sound (b c : bool) (e : expression) (m : meaning) : Prop := forall x position last v, fine b x -> e x position last = Got v ->
    good_value c v /\ exists w, m x position last w /\ alike v w.
  Lemma sound_refines : forall b c e m, sound b c e m -> refines (fine b) e m.
  Proof. intros b c e m S x position last v F E. exact (proj2 (S x position last v F E)). Qed.
  Inductive path_follows (b : bool) : list step -> list wanted -> bool -> Prop :=
    | path_axes : forall steps ws c, follows b steps ws c -> path_follows b steps ws c
    | path_value : forall e m qs ms r w c c', sound b c e m -> Forall2 (refines (fine c)) qs ms -> follows c r w c' -> path_follows b (ExprStep e qs :: r) (ByValue m ms :: w) c'.
  Lemma good_empty : forall c, good c (new_set true).
  Proof. intros c. apply good_unsorted; [reflexivity|constructor]. Qed.
  Lemma filter_lemma : forall b c e m qs ms x position last v, sound b c e m -> Forall2 (refines (fine c)) qs ms -> fine b x -> filter_value ss f e qs x position last = Got v ->
    (qs <> [] -> exists s, v = VSet s) /\ good_value c v /\ exists w n, m x position last w /\ match w with VSet s => exists o, (forall y, In y o <-> In y (s_nodes s)) /\ StronglySorted (precedes f) o /\ filtered ms o n | _ => n = [] end /\
    (forall y, In y n <-> In y (s_nodes (as_set v))) /\ (qs = [] -> alike v w).
  Proof.
    intros b c e m qs ms x position last v S RF F E. unfold filter_value in E. destruct qs as [|q qs].
    - inversion RF; subst ms. destruct (S x position last v F E) as (G & w & M & AL). split; [contradiction|]. split; [exact G|].
      assert (GS : good c (as_set v)) by (destruct v; try apply good_empty; exact G). destruct (good_ordered c _ GS) as (_ & O & IN & _). exists w, (s_nodes (to_document_order ss f (as_set v))). split; [exact M|]. split; [|split; [exact IN|intros _; exact AL]].
      assert (NONE : as_set v = new_set true -> s_nodes (to_document_order ss f (as_set v)) = []) by (intros EV; rewrite EV in *; destruct (s_nodes (to_document_order ss f (new_set true))) as [|y l] eqn:EN; [reflexivity|destruct (proj1 (IN y)); left; reflexivity]).
      destruct w as [| | |s]; [destruct v; try contradiction; try discriminate AL; apply NONE; reflexivity..|]. destruct v as [| | |s0]; try contradiction; try discriminate AL. cbn [as_set alike] in *. exists (s_nodes (to_document_order ss f s0)). split; [intros y; rewrite IN; apply AL|]. split; [exact O|constructor].
    - destruct (e x position last) as [v0| | |] eqn:E0; cbn [andthen] in E; try discriminate. destruct (S x position last v0 F E0) as (G & w & M & AL).
      assert (GS : good c (as_set v0)) by (destruct v0; try apply good_empty; exact G). destruct (good_ordered c _ GS) as (GO & O & IN & LEN). set (o := to_document_order ss f (as_set v0)) in *.
      destruct (apply_predicates (q :: qs) o) as [s| | |] eqn:AP; cbn [andthen] in E; try discriminate. injection E as <-. pose proof (proj1 (proj2 (proj2 (proj2 WD)))) as SZ.
      eapply predicates_lemma in AP; [|exact RF|exact (proj2 GO)|lia]. destruct AP as (P1 & P2 & P3). split; [intros _; exists s; reflexivity|]. split.
      + cbn [good_value]. split; [|eapply incl_forall; [exact P2|exact (proj2 GO)]]. split; [eapply incl_forall; [exact P2|exact (proj1 (proj1 GO))]|]. intros SO. rewrite <- (P3 SO). apply (proj2 (proj1 GO)). rewrite (P3 SO). exact SO.
      + exists w, (s_nodes s). split; [exact M|]. split; [|split; [reflexivity|discriminate]]. assert (NONE : as_set v0 = new_set true -> s_nodes s = []) by (intros EV; rewrite EV in IN; destruct (s_nodes s) as [|y l]; [reflexivity|destruct (proj1 (IN y)); apply P2; left; reflexivity]).
        destruct w as [| | |s0]; [destruct v0; try contradiction; try discriminate AL; apply NONE; reflexivity..|]. destruct v0 as [| | |s1]; try contradiction; try discriminate AL. exists (s_nodes o). split; [intros y; rewrite IN; apply AL|]. split; [exact O|exact P1].
  Qed.
  Lemma path_lemma : forall b steps ws c, path_follows b steps ws c -> forall x position last v, fine b x -> relative_path ss f steps x position last = Got v ->
    exists s, v = VSet s /\ good c s /\ s_sorted s = true /\ gives f position last ws [x] (s_nodes s).
  Proof.
    intros b steps ws c PF x position last v F E. unfold relative_path in E. destruct (steps_value ss f steps (push_node x (new_set true)) position last) as [r| | |] eqn:ES; cbn [andthen] in E; try discriminate. injection E as <-.
    enough (H : gives f position last ws [x] (s_nodes r) /\ good c r).
    { destruct H as (GV & GR). destruct (good_sort c r GR) as (GS & S & IN). eexists. split; [reflexivity|]. split; [exact GS|]. split; [exact S|]. eapply gives_out; [exact GV|]. intros y. symmetry. apply IN. }
    destruct PF as [steps ws c FO|e m qs ms steps ws c c' SO RF FO].
    - eapply steps_lemma; [exact FO| | |exact ES]; [apply good_unsorted; [reflexivity|constructor; [exact F|constructor]]|reflexivity].
    - cbn [steps_value step_value] in ES. rewrite (top_one b x F) in ES. destruct (filter_value ss f e qs x position last) as [v| | |] eqn:EF; cbn [andthen] in ES; try discriminate.
      destruct (filter_lemma b c e m qs ms x position last v SO RF F EF) as (_ & G & w & n & M & O & IN & _). assert (GS : good c (as_set v)) by (destruct v; try apply good_empty; exact G).
      destruct (steps_lemma c steps ws c' FO position last (as_set v) n r GS IN ES) as (GV & GR). split; [|exact GR]. eapply gives_value; [|exact M|exact O|exact GV]. intros y. cbn. split; [intros [<-|[]]; reflexivity|intros ->; auto].
  Qed.
End Document.

(** * Predicates by themselves *)
Lemma computes_refines : forall ok q, refines ok q (computes q).
Proof. intros ok q x position last v _ E. exists v. split; [exact E|apply alike_refl]. Qed.
Lemma computes_all : forall ok qs, Forall2 (refines ok) qs (map computes qs).
Proof. intros ok qs. induction qs; constructor; [apply computes_refines|assumption]. Qed.
Lemma predicates_sound : forall qs s r, Z.of_nat (length (s_nodes s)) < 2147483648 -> apply_predicates qs s = Got r -> filtered (map computes qs) (s_nodes s) (s_nodes r).
Proof. intros qs s r L E. eapply (predicates_lemma (fun _ => True)); [apply computes_all| |exact L|exact E]. rewrite Forall_forall. auto. Qed.
Lemma keep_complete : forall q last, last < 2147483648 -> forall l p m, kept (computes q) last p l m -> 1 <= p -> p + Z.of_nat (length l) - 1 <= last -> forall res,
  exists r, keep q last p l res = Got r /\ s_nodes r = s_nodes res ++ m.
Proof.
  intros q last B l p m K. induction K as [p|p x l m v Q H K IH|p x l m v Q H K IH]; intros P L res.
  - exists res. rewrite app_nil_r. auto.
  - cbn [length] in L. cbn [keep]. rewrite !as_int_small by lia. unfold computes in Q. rewrite Q. cbn [andthen]. rewrite wrap_small by lia. apply (passes_ok p v ltac:(lia)) in H. rewrite H. destruct (IH ltac:(lia) ltac:(lia) (push_node x res)) as (r & E & N). exists r. split; [exact E|]. rewrite N. cbn [push_node s_nodes]. rewrite <- app_assoc. reflexivity.
  - cbn [length] in L. cbn [keep]. rewrite !as_int_small by lia. unfold computes in Q. rewrite Q. cbn [andthen]. rewrite wrap_small by lia. destruct (passes p v) eqn:PV; [apply (passes_ok p v ltac:(lia)) in PV; contradiction|]. exact (IH ltac:(lia) ltac:(lia) res).
Qed.
Lemma filtered_nil : forall qs m, filtered qs [] m -> m = [].
Proof. intros qs m F. enough (H : forall l, filtered qs l m -> l = [] -> m = []) by exact (H _ F eq_refl). clear F. intros l F. induction F as [l|q qs l m n K F IH]; intros E; [exact E|]. subst l. apply IH. inversion K. reflexivity. Qed.
Lemma predicates_complete : forall qs s m, Z.of_nat (length (s_nodes s)) < 2147483648 -> filtered (map computes qs) (s_nodes s) m -> exists r, apply_predicates qs s = Got r /\ s_nodes r = m.
Proof.
  induction qs as [|q qs IH]; intros s m L F.
  - inversion F; subst. exists s. auto.
  - cbn [apply_predicates]. destruct (s_nodes s) as [|x l] eqn:E.
    + exists s. apply filtered_nil in F. rewrite E. auto.
    + rewrite <- E in *. inversion F as [|? ? ? m1 ? K F1]; subst. destruct (keep_complete q _ L _ _ _ K ltac:(lia) ltac:(lia) (new_set (is_forward s))) as (r & E1 & N). cbn [new_set s_nodes app] in N. subst m1. unfold apply_predicate. rewrite E1. cbn [andthen]. apply IH; [apply kept_length in K; lia|exact F1].
Qed.
Lemma predicates_iff : forall qs s m, Z.of_nat (length (s_nodes s)) < 2147483648 -> (filtered (map computes qs) (s_nodes s) m <-> exists r, apply_predicates qs s = Got r /\ s_nodes r = m).
Proof. intros qs s m L. split; [apply predicates_complete; exact L|]. intros (r & E & <-). apply predicates_sound; assumption. Qed.
Lemma kept_number : forall k last l p, Z.abs k <= 2 ^ 53 -> 1 <= p -> p + Z.of_nat (length l) < 4294967296 ->
  kept (fun _ _ _ v => v = VNum (of_Z k)) last p l (if p <=? k then match nth_error l (Z.to_nat (k - p)) with Some x => [x] | None => [] end else []).
Proof.
  intros k last l. induction l as [|x l IH]; intros p K P L.
  - destruct (p <=? k); [destruct (Z.to_nat (k - p))|]; constructor.
  - cbn [length] in L. specialize (IH (p + 1) K ltac:(lia) ltac:(lia)). assert (SI : small_int p) by (red; lia).
    assert (H : holds (VNum (of_Z k)) p <-> k = p). { cbn [holds]. rewrite <- eqb_ok, eqb_int by assumption. lia. }
    destruct (Z.eq_dec k p) as [->|N].
    + rewrite Z.leb_refl, Z.sub_diag. cbn [Z.to_nat nth_error]. replace (p + 1 <=? p) with false in IH by lia. eapply kept_in; [reflexivity|apply H; reflexivity|exact IH].
    + eapply kept_out; [reflexivity|rewrite H; exact N|]. destruct (p <=? k) eqn:E.
      * replace (p + 1 <=? k) with true in IH by lia. replace (Z.to_nat (k - p)) with (S (Z.to_nat (k - (p + 1)))) by lia. exact IH.
      * replace (p + 1 <=? k) with false in IH by lia. exact IH.
Qed.
Lemma kept_ext : forall (q r : meaning) size p l m, (forall x p v, q x p size v -> r x p size v) -> kept q size p l m -> kept r size p l m.
Proof. intros q r size p l m H K. induction K; [constructor|eapply kept_in; eauto|eapply kept_out; eauto]. Qed.
Lemma number_lemma : forall k s, Z.abs k <= 2 ^ 53 -> Z.of_nat (length (s_nodes s)) < 2147483648 ->
  exists r, apply_predicates [fun _ _ _ => Got (VNum (of_Z k))] s = Got r /\ s_nodes r = if 1 <=? k then match nth_error (s_nodes s) (Z.to_nat (k - 1)) with Some x => [x] | None => [] end else [].
Proof.
  intros k s K L. apply predicates_complete; [exact L|]. cbn [map]. eapply filtered_by; [|constructor]. eapply kept_ext; [|apply kept_number; [exact K|lia|lia]]. intros x p v ->. reflexivity.
Qed.
Lemma last_lemma : forall s, Z.of_nat (length (s_nodes s)) < 2147483648 ->
  exists r, apply_predicates [fun _ _ last => Got (VNum (of_Z last))] s = Got r /\ s_nodes r = match rev (s_nodes s) with x :: _ => [x] | [] => [] end.
Proof.
  intros s L. apply predicates_complete; [exact L|]. cbn [map]. eapply filtered_by; [|constructor].
  pose proof (kept_number (Z.of_nat (length (s_nodes s))) (Z.of_nat (length (s_nodes s))) (s_nodes s) 1 ltac:(lia) ltac:(lia) ltac:(lia)) as K.
  assert (E : (if 1 <=? Z.of_nat (length (s_nodes s)) then match nth_error (s_nodes s) (Z.to_nat (Z.of_nat (length (s_nodes s)) - 1)) with Some x => [x] | None => [] end else []) = match rev (s_nodes s) with x :: _ => [x] | [] => [] end).
  { destruct (s_nodes s) as [|y l] using rev_ind; [reflexivity|]. rewrite rev_app_distr. cbn [rev app]. rewrite app_length. cbn [length]. destruct (1 <=? Z.of_nat (length l + 1)) eqn:E; [|lia]. replace (Z.to_nat (Z.of_nat (length l + 1) - 1)) with (length l) by lia. rewrite nth_error_app2 by lia. rewrite Nat.sub_diag. reflexivity. }
  rewrite E in K. eapply kept_ext; [|exact K]. intros x p v ->. reflexivity.
Qed.

(** * Paths with any predicates *)
Definition code_step (q : axis * test * list expression) : step := let '(a, s, qs) := q in TestStep a (get_test a s) qs.
Definition spec_step (q : axis * test * list expression) : wanted := let '(a, s, qs) := q in ByAxis a s (map computes qs).
Fixpoint flag_after (from : bool) (steps : list (axis * test)) : bool := match steps with [] => from | (a, _) :: r => flag_after (to_attribute a from) r end.
Lemma any_follows : forall f d steps from, steps_allowed (f_tree f d) from (map fst steps) -> follows f d from (map code_step steps) (map spec_step steps) (flag_after from (map fst steps)).
Proof.
  intros f d steps. induction steps as [|[[a s] qs] steps IH]; intros from AL; [constructor|]. destruct AL as (A1 & A2). cbn [map code_step spec_step fst flag_after]. constructor; [exact A1|apply computes_all|apply IH; exact A2].
Qed.
Definition is_sorted (f : forest) (s : nodeset) : Prop := StronglySorted (if s_forward s then precedes f else fun x y => precedes f y x) (s_nodes s).
Lemma good_is_sorted : forall f s, documents f -> good_set f s -> s_sorted s = true -> is_sorted f s.
Proof. intros f s D (F & O) S. unfold is_sorted. apply lt_precedes; auto. Qed.
Lemma any_path : forall ss f d (from : bool) steps x position last v, sorts ss -> documents f -> f_doc f d = d -> whole_document (f_tree f d) ->
  fst x = d -> In (snd x) (nodes (f_tree f d)) -> (from = false -> ~ is_attribute (snd x)) -> steps_allowed (f_tree f d) from (map fst steps) ->
  relative_path ss f (map code_step steps) x position last = Got v ->
  exists s, v = VSet s /\ is_sorted f s /\ gives f position last (map spec_step steps) [x] (s_nodes s).
Proof.
  intros ss f d from steps x position last v SS D O W FX IN NA AL E. assert (F : fine f d from x) by (split; [exact FX|split; [exact IN|exact NA]]).
  destruct (path_lemma ss f d SS D O W from _ _ _ (path_axes _ _ _ _ _ _ (any_follows f d steps from AL)) x position last v F E) as (s & -> & G & S & GV). exists s. split; [reflexivity|]. split; [apply good_is_sorted; [exact D|exact (proj1 G)|exact S]|exact GV].
Qed.
