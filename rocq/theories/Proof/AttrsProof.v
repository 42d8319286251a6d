From Verif.Model Require Import Base Attrs.
From Verif.Spec Require Import AttrsSpec.
From Verif.Proof Require Import Tac ContainersProof.

(** Look-ups find the first. *)
Lemma find_pos_first f l i : find_pos f l = Some i <->
  (exists a, nth_error l i = Some a /\ f a = true)
  /\ forall j b, (j < i)%nat -> nth_error l j = Some b -> f b = false.
Proof.
  revert i. induction l as [|a l IH]; intros i; cbn [find_pos].
  - split; [discriminate|]. intros ((b & H & _) & _). destruct i; discriminate.
  - destruct (f a) eqn:E.
    + split.
      * intros H. injection H as <-. split; [exists a; auto|]. intros j b Hj. lia.
      * intros (_ & H). destruct i as [|i]; [reflexivity|].
        specialize (H O a ltac:(lia) eq_refl). congruence.
    + destruct (find_pos f l) as [k|] eqn:F.
      * split.
        -- intros H. injection H as <-. destruct (proj1 (IH k) eq_refl) as (H1 & H2).
           split; [exact H1|]. intros [|j] b Hj Hb; [injection Hb as <-; exact E|].
           apply (H2 j b); [lia|exact Hb].
        -- intros ((b & H1 & H1') & H2). destruct i as [|i]; [injection H1 as <-; congruence|].
           f_equal. assert (Some k = Some i) as K; [|congruence]. apply IH. split; [exists b; auto|].
           intros j c Hj Hc. apply (H2 (S j) c); [lia|exact Hc].
      * split; [discriminate|]. intros ((b & H1 & H1') & H2).
        destruct i as [|i]; [injection H1 as <-; congruence|]. exfalso.
        assert (None = Some i) as K; [|discriminate]. apply IH. split; [exists b; auto|].
        intros j c Hj Hc. apply (H2 (S j) c); [lia|exact Hc].
Qed.
Lemma find_pos_none f l : find_pos f l = None <-> forall a, In a l -> f a = false.
Proof.
  induction l as [|a l IH]; cbn [find_pos]; [split; [intros _ b []|reflexivity]|].
  destruct (f a) eqn:E.
  - split; [discriminate|]. intros H. specialize (H a (or_introl eq_refl)). congruence.
  - destruct (find_pos f l); split.
    + discriminate.
    + intros H. exfalso. assert (Some n = None) as K; [|discriminate]. apply IH. intros b Hb.
      apply H. right. exact Hb.
    + intros _ b [<-|Hb]; [exact E|]. apply (proj1 IH eq_refl). exact Hb.
    + reflexivity.
Qed.
Lemma first_field_pos g f l : first_field g f l =
  match find_pos g l with Some i => at_field f l i | None => [] end.
Proof.
  induction l as [|a l IH]; [reflexivity|]. cbn [first_field find_pos].
  destruct (g a); [reflexivity|]. rewrite IH. destruct (find_pos g l); reflexivity.
Qed.

(** Positions. *)
Lemma update_length l : forall i f, length (update l i f) = length l.
Proof. induction l as [|a l IH]; intros [|i] f; cbn; auto. Qed.
Lemma update_nth l : forall i f j, nth_error (update l i f) j =
  if Nat.eqb i j then option_map f (nth_error l j) else nth_error l j.
Proof.
  induction l as [|a l IH]; intros [|i] f [|j]; cbn [update nth_error Nat.eqb]; try reflexivity.
  - destruct (Nat.eqb i j); reflexivity.
  - apply IH.
Qed.
Lemma remove_nth_nth l : forall i j, nth_error (remove_nth l i) j =
  nth_error l (if Nat.ltb j i then j else S j).
Proof.
  induction l as [|a l IH]; intros [|i] [|j]; cbn [remove_nth nth_error]; try reflexivity.
  - destruct (Nat.ltb _ _); reflexivity.
  - rewrite IH. change (Nat.ltb (S j) (S i)) with (Nat.ltb j i).
    destruct (Nat.ltb j i); reflexivity.
Qed.

(** What each operation does to every position. *)
Definition position (o : at_op) : option nat :=
  match o with
  | ASet i _ | ARemove i | ASetURI i _ | ASetLocal i _ | ASetQName i _ | ASetType i _
  | ASetValue i _ => Some i
  | _ => None
  end.
Lemma checked_none l i r : checked l i r = None <-> (length l <= i)%nat.
Proof. unfold checked. destruct (Nat.ltb_spec i (length l)); split; intros K; try discriminate; try reflexivity; lia. Qed.
Lemma apply_fails o l : at_apply o l = None <-> exists i, position o = Some i /\ (length l <= i)%nat.
Proof.
  destruct o; cbn [at_apply position]; rewrite ?checked_none;
    try (split; [discriminate|intros (j & H & _); discriminate]);
    (split; [intros H; exists i; auto|intros (j & H & K); injection H as <-; exact K]).
Qed.
Definition modifies (o : at_op) : option nat :=
  match o with ARemove _ => None | _ => position o end.
Lemma modify_stable o i l l' : modifies o = Some i -> at_apply o l = Some l' ->
  length l' = length l /\ forall j, j <> i -> nth_error l' j = nth_error l j.
Proof.
  intros M A. destruct o; cbn [modifies position] in M; try discriminate; injection M as ->;
    cbn [at_apply] in A; unfold checked in A; destruct (Nat.ltb i (length l)); try discriminate;
    injection A as <-; (split; [apply update_length|]);
    intros j Hj; rewrite update_nth; (destruct (Nat.eqb_spec i j); [congruence|reflexivity]).
Qed.
Definition modified (o : at_op) (a : attr) : attr :=
  match o with
  | ASet _ b => b
  | ASetURI _ s => Attr s (a_local a) (a_qname a) (a_type a) (a_value a)
  | ASetLocal _ s => Attr (a_uri a) s (a_qname a) (a_type a) (a_value a)
  | ASetQName _ s => Attr (a_uri a) (a_local a) s (a_type a) (a_value a)
  | ASetType _ s => Attr (a_uri a) (a_local a) (a_qname a) s (a_value a)
  | ASetValue _ s => Attr (a_uri a) (a_local a) (a_qname a) (a_type a) s
  | _ => a
  end.
Lemma modify_sets o i l l' : modifies o = Some i -> at_apply o l = Some l' ->
  exists a, nth_error l i = Some a /\ nth_error l' i = Some (modified o a).
Proof.
  intros M A.
  assert (L : (i < length l)%nat).
  { destruct (Nat.ltb_spec i (length l)) as [K|K]; [exact K|]. exfalso.
    assert (at_apply o l = None) as N; [|congruence]. apply apply_fails. exists i.
    split; [|lia]. destruct o; cbn in M |- *; congruence. }
  destruct (nth_error l i) as [a|] eqn:E; [|apply nth_error_None in E; lia].
  exists a. split; [reflexivity|].
  destruct o; cbn [modifies position] in M; try discriminate; injection M as ->;
    cbn [at_apply] in A; unfold checked in A; destruct (Nat.ltb i (length l)); try discriminate;
    injection A as <-; rewrite update_nth, Nat.eqb_refl, E; reflexivity.
Qed.
Lemma remove_spec i l l' : at_apply (ARemove i) l = Some l' ->
  forall j, nth_error l' j = nth_error l (if Nat.ltb j i then j else S j).
Proof.
  cbn. unfold checked. destruct (Nat.ltb i (length l)); [|discriminate].
  intros H. injection H as <-. intros j. apply remove_nth_nth.
Qed.

(** Add-or-replace keeps a finite map. *)
Definition keys (l : list attr) : list key := map (fun a => (a_uri a, a_local a)) l.
Definition abs (l : list attr) : fmap := fun k =>
  match index_of l (fst k) (snd k) with Some i => Some (at_field a_value l i) | None => None end.

Lemma is_named_true u n a : is_named u n a = true <-> (a_uri a, a_local a) = (u, n).
Proof.
  unfold is_named. rewrite andb_true_iff, !str_eqb_true. split.
  - intros (-> & ->). reflexivity.
  - intros H. injection H as <- <-. auto.
Qed.
Lemma find_pos_app f a b : find_pos f (a ++ b) =
  match find_pos f a with
  | Some i => Some i
  | None => match find_pos f b with Some i => Some (length a + i)%nat | None => None end
  end.
Proof.
  induction a as [|x a IH]; cbn [app find_pos length plus].
  - destruct (find_pos f b); reflexivity.
  - destruct (f x); [reflexivity|]. rewrite IH. destruct (find_pos f a); [reflexivity|].
    destruct (find_pos f b); reflexivity.
Qed.
Lemma find_pos_update f l : forall i g, (forall a, f (g a) = f a) ->
  find_pos f (update l i g) = find_pos f l.
Proof.
  induction l as [|a l IH]; intros [|i] g H; cbn [update find_pos]; try reflexivity.
  - rewrite H. reflexivity.
  - rewrite IH by exact H. reflexivity.
Qed.
Lemma keys_update l i v : keys (update l i (set_value v)) = keys l.
Proof. revert i. induction l as [|a l IH]; intros [|i]; cbn; try reflexivity. unfold keys in IH. rewrite (IH i). reflexivity. Qed.
Lemma index_none l u n : index_of l u n = None <-> ~ In (u, n) (keys l).
Proof.
  unfold index_of. rewrite find_pos_none. unfold keys. rewrite in_map_iff. split.
  - intros H (a & E & I). specialize (H a I). apply is_named_true in E. congruence.
  - intros H a I. destruct (is_named u n a) eqn:E; [|reflexivity]. exfalso. apply H.
    exists a. split; [apply is_named_true; exact E|exact I].
Qed.
Lemma replace_abs a l : forall k,
  abs (at_run [AAddOrReplace a] l) k = fput (a_uri a, a_local a) (a_value a) (abs l) k.
Proof.
  intros (u, n). unfold abs, fput. cbn [at_run at_apply fst snd].
  destruct (index_of l (a_uri a) (a_local a)) as [i|] eqn:E.
  - unfold index_of. rewrite find_pos_update by reflexivity.
    fold (index_of l u n). destruct (key_eq (a_uri a, a_local a) (u, n)) as [K|K].
    + injection K as <- <-. rewrite E. f_equal. unfold at_field. rewrite update_nth, Nat.eqb_refl.
      apply find_pos_first in E. destruct E as ((b & -> & _) & _). reflexivity.
    + destruct (index_of l u n) as [j|] eqn:E2; [|reflexivity]. f_equal. unfold at_field.
      rewrite update_nth. destruct (Nat.eqb_spec i j) as [->|N]; [|reflexivity]. exfalso.
      apply find_pos_first in E. destruct E as ((b & B1 & B2) & _).
      apply find_pos_first in E2. destruct E2 as ((c & C1 & C2) & _).
      apply is_named_true in B2. apply is_named_true in C2. congruence.
  - unfold index_of. rewrite find_pos_app. fold (index_of l u n).
    cbn [find_pos]. destruct (key_eq (a_uri a, a_local a) (u, n)) as [K|K].
    + injection K as <- <-. rewrite E.
      rewrite (proj2 (is_named_true (a_uri a) (a_local a) a)) by reflexivity.
      unfold at_field. rewrite nth_error_app2 by lia.
      replace (length l + 0 - length l)%nat with O by lia. reflexivity.
    + destruct (index_of l u n) as [j|] eqn:E2.
      * f_equal. unfold at_field. apply find_pos_first in E2. destruct E2 as ((c & C1 & _) & _).
        rewrite nth_error_app1; [reflexivity|]. apply nth_error_Some. congruence.
      * destruct (is_named u n a) eqn:E3; [|reflexivity]. apply is_named_true in E3. congruence.
Qed.
Lemma replace_nodup a l : NoDup (keys l) -> NoDup (keys (at_run [AAddOrReplace a] l)).
Proof.
  intros N. cbn [at_run at_apply]. destruct (index_of l (a_uri a) (a_local a)) eqn:E.
  - rewrite keys_update. exact N.
  - unfold keys. rewrite map_app. cbn [map].
    apply index_none in E. apply NoDup_rev in N. rewrite <- (rev_involutive (map _ l ++ _)).
    apply NoDup_rev. rewrite rev_app_distr. cbn [rev app]. constructor; [|exact N].
    rewrite <- in_rev. exact E.
Qed.
(** A history of add-or-replace calls is a history of map updates. *)
Fixpoint puts (l : list attr) (m : fmap) : fmap :=
  match l with [] => m | a :: r => puts r (fput (a_uri a, a_local a) (a_value a) m) end.
Lemma fput_ext k v m m' : (forall x, m x = m' x) -> forall x, fput k v m x = fput k v m' x.
Proof. intros H x. unfold fput. destruct (key_eq k x); auto. Qed.
Lemma puts_ext l : forall m m', (forall x, m x = m' x) -> forall x, puts l m x = puts l m' x.
Proof.
  induction l as [|a l IH]; intros m m' H x; [apply H|]. cbn [puts]. apply IH.
  intros y. apply fput_ext. exact H.
Qed.
Lemma replace_run adds : forall l, NoDup (keys l) ->
  NoDup (keys (at_run (map AAddOrReplace adds) l))
  /\ forall k, abs (at_run (map AAddOrReplace adds) l) k = puts adds (abs l) k.
Proof.
  induction adds as [|a adds IH]; intros l N; [split; [exact N|reflexivity]|].
  cbn [map]. change (at_run (AAddOrReplace a :: map AAddOrReplace adds) l)
    with (at_run (map AAddOrReplace adds) (at_run [AAddOrReplace a] l)).
  destruct (IH (at_run [AAddOrReplace a] l) (replace_nodup a l N)) as (A & B).
  split; [exact A|]. intros k. rewrite B. cbn [puts]. apply puts_ext. apply replace_abs.
Qed.

(** Copying. *)
Lemma copy_other l other : set_attributes false l other = other.
Proof.
  unfold set_attributes.
  assert (G : forall pre rest, map (fun i => Attr (at_field a_uri (pre ++ rest) i)
    (at_field a_local (pre ++ rest) i) (at_field a_qname (pre ++ rest) i)
    (at_field a_type (pre ++ rest) i) (at_field a_value (pre ++ rest) i))
      (seq (length pre) (length rest)) = rest).
  { intros pre rest. revert pre. induction rest as [|a rest IH]; intros pre; [reflexivity|].
    cbn [length seq map]. f_equal.
    - unfold at_field. rewrite nth_error_app2 by lia. rewrite Nat.sub_diag. destruct a. reflexivity.
    - specialize (IH (pre ++ [a])). rewrite <- app_assoc, app_length, Nat.add_1_r in IH.
      exact IH. }
  exact (G [] other).
Qed.
Lemma index_q_first l q i : index_of_q l q = Some i <->
  (exists a, nth_error l i = Some a /\ a_qname a = q)
  /\ forall j b, (j < i)%nat -> nth_error l j = Some b -> a_qname b <> q.
Proof.
  unfold index_of_q. rewrite find_pos_first. unfold has_qname. split.
  - intros ((a & A & B) & C). apply str_eqb_true in B. split; [exists a; auto|].
    intros j b Hj Hb. apply str_eqb_false. exact (C j b Hj Hb).
  - intros ((a & A & B) & C). split; [exists a; split; [exact A|apply str_eqb_true; exact B]|].
    intros j b Hj Hb. apply str_eqb_false. exact (C j b Hj Hb).
Qed.
