From Verif.Model Require Import Base Containers.
From Verif.Proof Require Import Tac ConvertProof.

Lemma str_eqb_true a b : str_eqb a b = true <-> a = b.
Proof.
  split; [apply str_eqb_eq|intros ->]. induction b as [|c b IH]; [reflexivity|].
  cbn. rewrite Z.eqb_refl. exact IH.
Qed.
Lemma str_eqb_false a b : str_eqb a b = false <-> a <> b.
Proof.
  destruct (str_eqb a b) eqn:E; split; intros H; try congruence.
  - apply str_eqb_true in E. congruence.
  - intros ->. rewrite (proj2 (str_eqb_true b b)) in E by reflexivity. discriminate.
Qed.
Lemma str_eqb_sym a b : str_eqb a b = str_eqb b a.
Proof.
  destruct (str_eqb b a) eqn:E.
  - apply str_eqb_true. symmetry. apply str_eqb_true. exact E.
  - apply str_eqb_false. apply str_eqb_false in E. congruence.
Qed.

Lemma str_ltb_irrefl a : str_ltb a a = false.
Proof. induction a as [|c a IH]; [reflexivity|]. cbn. rewrite Z.ltb_irrefl. exact IH. Qed.
Lemma str_ltb_trans a : forall b c, str_ltb a b = true -> str_ltb b c = true -> str_ltb a c = true.
Proof.
  induction a as [|x a IH]; intros [|y b] [|z c]; cbn; try discriminate; try reflexivity.
  destruct (Z.ltb_spec x y), (Z.ltb_spec y z), (Z.ltb_spec x z), (Z.ltb_spec y x),
    (Z.ltb_spec z y), (Z.ltb_spec z x); try lia; try discriminate; try reflexivity.
  apply IH.
Qed.
Lemma str_ltb_total a : forall b, str_ltb a b = false -> str_ltb b a = false -> a = b.
Proof.
  induction a as [|x a IH]; intros [|y b]; cbn; try discriminate; try reflexivity.
  destruct (Z.ltb_spec x y), (Z.ltb_spec y x); try discriminate; try lia.
  intros H1 H2. f_equal; [lia|]. apply IH; assumption.
Qed.
Lemma str_ltb_asym a b : str_ltb a b = true -> str_ltb b a = false.
Proof.
  intros H. destruct (str_ltb b a) eqn:E; [|reflexivity].
  pose proof (str_ltb_irrefl a).
  pose proof (str_ltb_trans a b a H E). congruence.
Qed.

(** Keys in non-decreasing order. *)
Fixpoint sorted {V} (m : list (list Z * V)) : Prop :=
  match m with
  | [] => True
  | (k, _) :: r => (forall k' v', In (k', v') r -> str_ltb k' k = false) /\ sorted r
  end.

Lemma mm_insert_in {V} k (v : V) m x : In x (mm_insert k v m) <-> x = (k, v) \/ In x m.
Proof.
  induction m as [|(k', v') r IH]; cbn [mm_insert].
  - cbn. intuition congruence.
  - destruct (str_ltb k k'); cbn [In]; [intuition congruence|].
    rewrite IH. intuition congruence.
Qed.
Lemma mm_insert_sorted {V} k (v : V) m : sorted m -> sorted (mm_insert k v m).
Proof.
  induction m as [|(k', v') r IH]; intros H; cbn [mm_insert].
  - cbn. split; [intros ? ? []|exact I].
  - destruct H as (H1 & H2). destruct (str_ltb k k') eqn:E; cbn [sorted].
    + split; [|split; assumption]. intros k2 v2 [Q|Q].
      * injection Q as <- <-. apply str_ltb_asym. exact E.
      * destruct (str_ltb k2 k) eqn:E2; [|reflexivity].
        rewrite <- (H1 k2 v2 Q). symmetry. apply (str_ltb_trans _ k); assumption.
    + split; [|apply IH; exact H2]. intros k2 v2 Q. apply mm_insert_in in Q.
      destruct Q as [Q|Q]; [injection Q as -> ->; exact E|exact (H1 k2 v2 Q)].
Qed.
Lemma mm_find_none_in {V} k (m : list (list Z * V)) : mm_find k m = None <-> ~ In k (map fst m).
Proof.
  induction m as [|(k', v') r IH]; cbn [mm_find map fst In]; [tauto|].
  destruct (str_eqb k' k) eqn:E.
  - apply str_eqb_true in E. split; [discriminate|]. intros H. exfalso. apply H. auto.
  - apply str_eqb_false in E. rewrite IH. tauto.
Qed.
Lemma mm_find_in {V} k (m : list (list Z * V)) v : mm_find k m = Some v -> In (k, v) m.
Proof.
  induction m as [|(k', v') r IH]; cbn [mm_find]; [discriminate|].
  destruct (str_eqb k' k) eqn:E; intros H.
  - apply str_eqb_true in E. injection H as <-. left. congruence.
  - right. apply IH. exact H.
Qed.
Lemma mm_find_insert {V} q k (v : V) m : sorted m ->
  mm_find q (mm_insert k v m) =
  if str_eqb k q then match mm_find q m with Some w => Some w | None => Some v end
  else mm_find q m.
Proof.
  induction m as [|(k', v') r IH]; intros H; cbn [mm_insert mm_find].
  - destruct (str_eqb k q); reflexivity.
  - destruct H as (H1 & H2). destruct (str_ltb k k') eqn:E; cbn [mm_find].
    + destruct (str_eqb k q) eqn:E1; [|reflexivity]. apply str_eqb_true in E1. subst q.
      assert (str_eqb k' k = false) as ->.
      { apply str_eqb_false. intros ->. rewrite str_ltb_irrefl in E. discriminate. }
      destruct (mm_find k r) eqn:E2; [|reflexivity].
      apply mm_find_in in E2. apply H1 in E2. congruence.
    + rewrite IH by exact H2. destruct (str_eqb k' q); [|reflexivity].
      destruct (str_eqb k q); reflexivity.
Qed.
Lemma map_find_set {V} q k (v : V) m :
  mm_find q (map_set k v m) = if str_eqb k q then Some v else mm_find q m.
Proof.
  induction m as [|(k', v') r IH]; cbn [map_set mm_find].
  - destruct (str_eqb k q); reflexivity.
  - destruct (str_eqb k' k) eqn:E; cbn [mm_find].
    + apply str_eqb_true in E. subst k'. destruct (str_eqb k q); reflexivity.
    + destruct (str_ltb k k'); cbn [mm_find]; [reflexivity|].
      rewrite IH. destruct (str_eqb k' q) eqn:E1; [|reflexivity].
      apply str_eqb_true in E1. subst q. rewrite str_eqb_sym, E. reflexivity.
Qed.
