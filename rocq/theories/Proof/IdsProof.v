(** Proofs about getElementById. *)
From Coq Require Import Permutation Lia.
From Verif.Model Require Import Base Chars AttrMap Ids.
From Verif.Spec Require Import AttrMapSpec IdsSpec.
From Verif.Proof Require Import AttrMapProof ContainersProof.

(** What calls do, with the calls of setOwnerElement they make. *)
Definition moved (w w' : world) (l : list claim) : Prop :=
  ((w_next w <= w_next w')%nat /\
   (forall x, e_doc (w_elem w' x) = e_doc (w_elem w x) /\ (e_ro (w_elem w x) = true -> e_ro (w_elem w' x) = true)) /\
   (forall a, (a < w_next w)%nat -> a_name (w_attr w' a) = a_name (w_attr w a) /\ a_doc (w_attr w' a) = a_doc (w_attr w a) /\
      (a_owner (w_attr w a) <> None -> a_owner (w_attr w' a) <> None))) /\
  (forall e a, In a (e_attrs (w_elem w' e)) -> In a (e_attrs (w_elem w e)) \/ In (e_doc (w_elem w e), a_name (w_attr w' a), Entry a) l) /\
  (forall d n x, In (d, n, x) l ->
     match x with
     | Entry a => (a < w_next w')%nat /\ a_doc (w_attr w' a) = d /\ a_name (w_attr w' a) = n /\ a_owner (w_attr w' a) <> None
     | Lost v e => e_ro (w_elem w' e) = true /\ e_doc (w_elem w' e) = d
     end).
Lemma moved_same : forall w, moved w w [].
Proof. intros w. unfold moved. repeat split; auto. intros d n x []. Qed.
Lemma moved_trans : forall w w1 w2 l1 l2, tidy w1 -> moved w w1 l1 -> moved w1 w2 l2 -> moved w w2 (l1 ++ l2).
Proof.
  intros w w1 w2 l1 l2 T ((N1 & E1 & A1) & I1 & C1) ((N2 & E2 & A2) & I2 & C2). split; [split; [lia|split]|split].
  - intros x. destruct (E1 x) as [D1 R1], (E2 x) as [D2 R2]. split; [congruence|auto].
  - intros a L. destruct (A1 a L) as (X & Y & Z). destruct (A2 a) as (X' & Y' & Z'); [lia|]. repeat split; try congruence. auto.
  - intros e a I. destruct (I2 e a I) as [I'|I'].
    + destruct (I1 e a I') as [J|J]; [auto|]. right. apply in_or_app. left.
      rewrite (proj1 (A2 a (proj1 (proj2 (T e) a I')))). exact J.
    + right. apply in_or_app. right. rewrite <- (proj1 (E1 e)). exact I'.
  - intros d n x I. apply in_app_or in I. destruct I as [I|I]; [|apply (C2 d n x I)].
    specialize (C1 d n x I). destruct x as [a|v e].
    + destruct C1 as (L & D & M & O). destruct (A2 a L) as (X & Y & Z). repeat split; [lia|congruence|congruence|auto].
    + destruct C1 as (R & D). destruct (E2 e) as (D2 & R2). split; [auto|congruence].
Qed.
Lemma moved_put : forall w a f, (forall x, a_name (f x) = a_name x /\ a_doc (f x) = a_doc x /\ (a_owner x <> None -> a_owner (f x) <> None)) ->
  moved w (put_attr w a f) [].
Proof.
  intros w a f F. split; [split; [cbn; lia|split]|split].
  - intros x. cbn. auto.
  - intros b L. cbn. destruct (Nat.eqb b a); [apply F|auto].
  - intros e b I. cbn in I. auto.
  - intros d n x [].
Qed.
Lemma moved_new : forall w x, moved w (fst (new_attr w x)) [].
Proof.
  intros w x. split; [split; [cbn; lia|split]|split].
  - intros y. cbn. auto.
  - intros b L. cbn. destruct (Nat.eqb_spec b (w_next w)); [lia|auto].
  - intros e b I. cbn in I. auto.
  - intros d n y [].
Qed.
Lemma moved_less : forall w e l, (forall a, In a l -> In a (e_attrs (w_elem w e))) -> moved w (put_list w e l) [].
Proof.
  intros w e l S. split; [split; [cbn; lia|split]|split].
  - intros x. cbn. destruct (Nat.eqb x e); auto.
  - intros b L. cbn. auto.
  - intros x b I. cbn in I. destruct (Nat.eqb_spec x e) as [->|N]; cbn in I; auto.
  - intros d n x [].
Qed.
Lemma moved_owner : forall w a e, (a < w_next w)%nat -> moved w (set_owner_element w a e) [(a_doc (w_attr w a), a_name (w_attr w a), Entry a)].
Proof.
  intros w a e L. assert (M : moved w (set_owner_element w a e) []).
  { apply moved_put. intros x. cbn. repeat split; auto. discriminate. }
  destruct M as (G & I & _). split; [exact G|]. split.
  - intros x b J. destruct (I x b J) as [K|[]]. auto.
  - intros d n x [K|[]]. injection K as <- <- <-. cbn. rewrite Nat.eqb_refl. cbn. repeat split; auto. discriminate.
Qed.
Lemma erase_in : forall q l a, In a (erase_first q l) -> In a l.
Proof. intros q l a. induction l as [|x l IH]; cbn; [auto|]. destruct (q x); cbn; intuition. Qed.
Lemma replace_in : forall q n l a, In a (replace_first q n l) -> In a l \/ a = n.
Proof. intros q n l a. induction l as [|x l IH]; cbn; [auto|]. destruct (q x); cbn; intuition. Qed.
(** An attribute is put into a list. *)
Lemma moved_attach : forall w e a p, tidy w -> (a < w_next w)%nat ->
  moved w (fst (base_set (set_owner_element w a e) e a p)) [(a_doc (w_attr w a), a_name (w_attr w a), Entry a)].
Proof.
  intros w e a p T L. assert (M := moved_owner w a e L). unfold base_set.
  destruct (e_ro _); [exact M|]. destruct (negb _) eqn:D; [exact M|]. apply negb_false_iff, Nat.eqb_eq in D.
  assert (D' : a_doc (w_attr w a) = e_doc (w_elem w e)).
  { cbn in D. rewrite Nat.eqb_refl in D. exact D. }
  set (l := e_attrs (w_elem (set_owner_element w a e) e)). assert (EL : l = e_attrs (w_elem w e)) by reflexivity. clearbody l.
  assert (K : forall l', (forall b, In b l' -> In b l \/ b = a) ->
    moved w (put_list (put_attr (set_owner_element w a e) a (set_orphan false)) e l') [(a_doc (w_attr w a), a_name (w_attr w a), Entry a)]).
  { intros l' S. destruct M as ((N & E & A) & _ & C). split; [split; [exact N|split]|split].
    - intros x. cbn. destruct (Nat.eqb x e); auto.
    - intros b Lb. specialize (A b Lb). cbn in A |- *. destruct (Nat.eqb b a); cbn in *; exact A.
    - intros x b I. cbn in I |- *. destruct (Nat.eqb_spec x e) as [->|NE]; cbn in I; [|auto].
      destruct (S b I) as [J| ->]; [left; rewrite <- EL; exact J|]. right. left. rewrite Nat.eqb_refl. cbn. congruence.
    - intros d n x I. specialize (C d n x I). destruct I as [I|[]]. injection I as <- <- <-.
      cbn in C |- *. rewrite Nat.eqb_refl in *. cbn in *. exact C. }
  destruct (find_attr _ p l) as [old|]; cbn [fst].
  - rewrite <- (app_nil_r [_]). set (w2 := put_list _ _ _).
    assert (K2 : moved w w2 [(a_doc (w_attr w a), a_name (w_attr w a), Entry a)]) by (apply K; intros b I; apply replace_in in I; exact I).
    destruct K2 as ((N & E & A) & I & C).
    destruct (moved_put w2 old (set_orphan true)) as ((N' & E' & A') & I' & _); [intros x; cbn; auto|]. rewrite app_nil_r.
    split; [split; [cbn in *; lia|split]|split].
    + intros x. exact (E x).
    + intros b Lb. specialize (A b Lb). cbn [put_attr w_attr]. destruct (Nat.eqb b old); [cbn|]; exact A.
    + intros x b J. specialize (I x b J). cbn [put_attr w_attr]. destruct (Nat.eqb b old); [cbn [set_orphan a_name]|]; exact I.
    + intros d n x J. specialize (C d n x J). destruct x as [b|v y]; [|exact C]. cbn [put_attr w_attr w_next]. destruct (Nat.eqb b old); [cbn|]; exact C.
  - apply K. intros b I. apply in_app_or in I. cbn in I. intuition.
Qed.
Lemma moved_node : forall w e a p, tidy w -> (a < w_next w)%nat -> moved w (fst (map_set w e a p)) (node_claims w e a).
Proof.
  intros w e a p T L. unfold map_set, node_claims. set (mine := match a_owner _ with Some _ => _ | None => _ end). clearbody mine.
  destruct (negb _ && mine); [apply moved_same|]. destruct (e_ro _); [apply moved_same|]. destruct (_ && _); [apply moved_same|].
  apply moved_attach; auto.
Qed.
Lemma moved_get : forall w e p, moved w (fst (get_by w e p)) [].
Proof. intros w e p. unfold get_by. destruct (find_attr _ _ _); [|apply moved_same]. apply moved_put. intros x. cbn. auto. Qed.
Lemma claims_new : forall w e x, e_ro (w_elem w e) = false -> is_orphaned x = true ->
  node_claims (fst (new_attr w x)) e (w_next w) = [(a_doc x, a_name x, Entry (w_next w))].
Proof.
  intros w e x R O. unfold node_claims. cbn. rewrite Nat.eqb_refl. rewrite O, R. reflexivity.
Qed.
Lemma moved_remove : forall w e p ns, tidy w -> moved w (fst (remove_by w e p ns)) (default_claims w e p).
Proof.
  intros w e p ns T. unfold remove_by, default_claims. destruct (e_ro (w_elem w e)) eqn:R; [apply moved_same|].
  destruct (find_attr w p _) as [old|] eqn:F; [|apply moved_same]. cbn [fst].
  assert (T1 := tidy_erase w e p old T F).
  set (w1 := put_attr (put_list w e _) old _) in *.
  assert (M1 : moved w w1 []).
  { unfold w1. eapply (moved_trans _ (put_list w e (erase_first (fun x => p (w_attr w x)) (e_attrs (w_elem w e)))) _ [] []).
    - intros x. destruct (T x) as [D A]. cbn. destruct (Nat.eqb_spec x e) as [->|N]; [|split; auto]. cbn. split.
      + destruct (first_split _ _ _ F) as (l1 & l2 & EL & _ & _ & ER & _). cbv beta in ER. rewrite ER. rewrite EL in D. eapply NoDup_remove_1; exact D.
      + intros b I. apply erase_in in I. exact (A b I).
    - apply moved_less. intros a. apply erase_in.
    - apply moved_put. intros x. cbn. auto. }
  assert (EE : e_ro (w_elem w1 e) = false /\ e_doc (w_elem w1 e) = e_doc (w_elem w e) /\ e_defaults (w_elem w1 e) = e_defaults (w_elem w e) /\ w_next w1 = w_next w).
  { unfold w1. cbn. rewrite Nat.eqb_refl. cbn. auto. }
  destruct EE as (R1 & D1 & F1 & N1). clearbody w1. unfold create_default. rewrite F1, D1.
  destruct (find (default_match p) _) as [t|]; [|exact M1].
  set (x := level1 _ _ _ _). cbn [new_attr]. change (World _ _ _) with (fst (new_attr w1 x)).
  assert (TN := tidy_new w1 x T1).
  replace [(e_doc (w_elem w e), t_name t, Entry (w_next w))] with ([] ++ [] ++ node_claims (fst (new_attr w1 x)) e (w_next w1))
    by (rewrite claims_new by auto; rewrite N1; reflexivity).
  apply (moved_trans _ w1); [exact T1|exact M1|]. apply (moved_trans _ (fst (new_attr w1 x))); [exact TN|apply moved_new|].
  unfold set_attribute_node_ns, set_attribute_node. destruct ns; apply moved_node; auto; cbn; lia.
Qed.
Lemma moved_defaults : forall e ts w, tidy w -> moved w (get_defaults_from w e ts) (defaults_claims w e ts).
Proof.
  intros e. induction ts as [|t ts IH]; intros w T; [apply moved_same|]. cbn [get_defaults_from defaults_claims].
  destruct (find_attr _ _ _); [apply IH, T|]. set (x := level1 _ _ _ _). cbn [new_attr]. change (World _ _ _) with (fst (new_attr w x)).
  assert (TN := tidy_new w x T). assert (L : (w_next w < w_next (fst (new_attr w x)))%nat) by (cbn; lia).
  apply (moved_trans _ (fst (new_attr w x)) _ [] _); [exact TN|apply moved_new|].
  assert (TS : tidy (fst (set_attribute_node_ns (fst (new_attr w x)) e (w_next w)))) by (apply map_tidy; auto).
  eapply moved_trans; [exact TS|apply moved_node; auto|]. apply IH. exact TS.
Qed.
(** setAttribute, with or without the throw. *)
Lemma moved_fresh : forall w e x p, tidy w -> a_doc x = e_doc (w_elem w e) -> a_owner x = None -> forall v,
  moved w (match base_set (set_owner_element (fst (new_attr w x)) (w_next w) e) e (w_next w) p with
           | (_, RThrow _) => w | (w2, _) => w2 end) (new_claims w e (a_name x) v).
Proof.
  intros w e x p T D O v. assert (TN := tidy_new w x T). assert (L : (w_next w < w_next (fst (new_attr w x)))%nat) by (cbn; lia).
  assert (M := moved_attach (fst (new_attr w x)) e (w_next w) p TN L).
  assert (M2 := moved_trans w _ _ [] _ TN (moved_new w x) M). cbn [app] in M2.
  assert (X : w_attr (fst (new_attr w x)) (w_next w) = x) by (cbn; rewrite Nat.eqb_refl; reflexivity). rewrite X in M2. rewrite D in M2.
  unfold new_claims. unfold base_set in *.
  replace (e_ro (w_elem (set_owner_element (fst (new_attr w x)) (w_next w) e) e)) with (e_ro (w_elem w e)) in * by reflexivity.
  destruct (e_ro (w_elem w e)) eqn:R.
  - split; [repeat split; auto|]. split; [auto|]. intros d n y [Y|[]]. injection Y as <- <- <-. auto.
  - assert (DD : Nat.eqb (a_doc (w_attr (set_owner_element (fst (new_attr w x)) (w_next w) e) (w_next w)))
        (e_doc (w_elem (set_owner_element (fst (new_attr w x)) (w_next w) e) e)) = true).
    { cbn. rewrite !Nat.eqb_refl. cbn. rewrite D. apply Nat.eqb_refl. }
    rewrite DD in *. cbn [negb] in *. destruct (find_attr _ p _); exact M2.
Qed.
Lemma moved_call : forall w c, tidy w -> Forall (fun a => (a < w_next w)%nat) (passed c) -> renames c = false ->
  moved w (fst (attr_call w c)) (claims w c).
Proof.
  intros w c T P RN.
  assert (PUT : forall a f, (forall x, a_name (f x) = a_name x /\ a_doc (f x) = a_doc x /\ a_owner (f x) = a_owner x) -> moved w (put_attr w a f) []).
  { intros a f F. apply moved_put. intros x. destruct (F x) as (A & B & C). rewrite C. auto. }
  destruct c; cbn [attr_call claims renames passed] in *; try discriminate; try (apply moved_same).
  - unfold create_attribute. destruct (check_name name); [|apply moved_same]. cbn [fst new_attr]. apply (moved_new w).
  - unfold create_attribute_ns. destruct (check_name qname); [|apply moved_same]. destruct (ns_attr _ _ _ _); [|apply moved_same]. cbn [fst new_attr]. apply (moved_new w).
  - assert (M := moved_get w e (name_is name)). destruct (get_by _ _ _). exact M.
  - assert (M := moved_get w e (ns_name_is uri local)). destruct (get_by _ _ _). exact M.
  - unfold set_attribute. destruct (check_name name); [|apply moved_same].
    assert (M := moved_get w e (name_is name)). assert (TG := tidy_get w e (name_is name) T).
    destruct (get_next w e (name_is name)) as [N EQ]. destruct (get_by w e (name_is name)) as [w0 s]. cbn [fst] in *.
    set (x := level1 _ _ _ _). cbn [new_attr]. change (World _ _ _) with (fst (new_attr w0 x)).
    replace (new_claims w e name value) with ([] ++ new_claims w0 e (a_name x) value) by (unfold new_claims; rewrite N, EQ; reflexivity).
    apply (moved_trans _ w0); [exact TG|exact M|].
    assert (K := moved_fresh w0 e x (name_is name) TG). rewrite EQ in K. specialize (K eq_refl eq_refl value).
    destruct (base_set _ _ _ _) as [w2 []]; exact K.
  - unfold set_attribute_ns. destruct (check_name qname); [|apply moved_same]. destruct (ns_attr _ _ _ _) as [x|] eqn:X; [|apply moved_same].
    cbn [new_attr]. change (World _ _ _) with (fst (new_attr w (set_texts [value] x))).
    assert (DX : a_doc x = e_doc (w_elem w e) /\ a_owner x = None).
    { unfold ns_attr in X. destruct (match at_colon qname with None => _ | Some _ => _ end) as [pr lo]. destruct (check_prefix _ _); [|discriminate].
      injection X as <-. auto. }
    destruct DX as [DX OX].
    assert (K := moved_fresh w e (set_texts [value] x) (ns_name_is (uri_of x) (a_local x)) T DX OX value). cbn [set_texts a_name] in K.
    destruct (base_set _ _ _ _) as [w2 []]; exact K.
  - inversion P; subst. apply moved_node; auto.
  - inversion P; subst. apply moved_node; auto.
  - unfold remove_attribute. assert (M := moved_get w e (name_is name)). assert (TG := tidy_get w e (name_is name) T).
    destruct (get_next w e (name_is name)) as [N EQ]. 
    assert (DC : default_claims (fst (get_by w e (name_is name))) e (name_is name) = default_claims w e (name_is name)).
    { unfold default_claims. rewrite N, EQ.
      replace (find_attr (fst (get_by w e (name_is name))) (name_is name) (e_attrs (w_elem w e))) with (find_attr w (name_is name) (e_attrs (w_elem w e))); [reflexivity|].
      symmetry. apply find_attr_ext. intros b _. unfold get_by. destruct (find_attr w _ _); [|reflexivity]. cbn. destruct (Nat.eqb b n); reflexivity. }
    destruct (get_by w e (name_is name)) as [w0 s]. cbn [fst] in *. rewrite drop_fst. rewrite <- DC.
    apply (moved_trans _ w0 _ [] _); [exact TG|exact M|]. apply moved_remove, TG.
  - unfold remove_attribute_ns. rewrite drop_fst. apply moved_remove, T.
  - unfold remove_attribute_node. destruct (a_owner _) as [o|]; [|apply moved_same]. destruct (Nat.eqb o e); [|apply moved_same].
    assert (M := moved_remove w e (name_is (a_name (w_attr w a))) false T). destruct (remove_by _ _ _ _) as [w1 []]; exact M.
  - apply moved_defaults, T.
  - split; [split; [cbn; lia|split]|split].
    + intros x. cbn. destruct (Nat.eqb x e); auto.
    + intros b L. cbn. destruct (existsb _ _); cbn; auto.
    + intros x b I. cbn in I. left. destruct (Nat.eqb x e); exact I.
    + intros d n x [].
  - cbn. apply PUT. intros x. cbn. auto.
  - unfold set_value. destruct (a_ro _); [apply moved_same|]. cbn. apply PUT. intros x. cbn. auto.
  - unfold append_text. destruct (a_ro _); cbn [fst].
    + apply PUT. intros x. cbn. auto.
    + apply (moved_trans _ (put_attr w a (set_cache None)) _ [] []); [apply tidy_put; cbn; auto|apply PUT; cbn; auto|apply moved_put; cbn; auto].
  - unfold edit_text. destruct (a_ro _); [apply moved_same|]. cbn. apply PUT. intros x. cbn. auto.
Qed.

(** * The table *)
Section Table.
  Context (declared : nat -> list (str * str)) (order : list entry -> list entry).
  Context (orders : forall l, Permutation (order l) l).
  Lemma declared_in : forall d n, existsb (str_eqb n) (id_names declared d) = true <-> exists element, In (element, n) (declared d).
  Proof.
    intros d n. rewrite existsb_exists. unfold id_names. split.
    - intros (m & I & E). apply str_eqb_true in E. subst m. apply in_map_iff in I. destruct I as ((x & y) & Y & I). cbn in Y. subst y. exists x. exact I.
    - intros (x & I). exists n. split; [apply in_map_iff; exists (x, n); auto|]. apply str_eqb_true. reflexivity.
  Qed.
  Lemma same_entry_eq : forall x y, same_entry x y = true -> x = y.
  Proof. intros [a|v e] [b|u f] E; try discriminate. apply Nat.eqb_eq in E. congruence. Qed.
  Lemma claim_in : forall ids d n y d' x, In x (claim_id declared ids (d, n, y) d') <->
    In x (ids d') \/ d' = d /\ x = y /\ exists element, In (element, n) (declared d).
  Proof.
    intros ids d n y d' x. unfold claim_id. destruct (existsb (str_eqb n) _) eqn:E.
    - assert (W := proj1 (declared_in d n) E). destruct (Nat.eqb_spec d' d) as [->|N].
      + destruct (existsb (same_entry y) (ids d)) eqn:S.
        * apply existsb_exists in S. destruct S as (z & I & S). apply same_entry_eq in S. subst z.
          split; [auto|]. intros [I'|(_ & -> & _)]; auto.
        * rewrite in_app_iff. cbn. intuition.
      + intuition.
    - split; [auto|]. intros [I|(_ & _ & W)]; [exact I|]. apply declared_in in W. congruence.
  Qed.
  Lemma claims_in : forall l ids d x, In x (fold_left (claim_id declared) l ids d) <->
    In x (ids d) \/ exists n, In (d, n, x) l /\ exists element, In (element, n) (declared d).
  Proof.
    induction l as [|((d0 & n0) & y) l IH]; intros ids d x; cbn [fold_left].
    - split; [auto|]. intros [I|(n & [] & _)]. exact I.
    - rewrite IH, claim_in. split.
      + intros [[I|(-> & -> & W)]|(n & I & W)]; [auto| |].
        * right. exists n0. split; [left; reflexivity|exact W].
        * right. exists n. split; [right; exact I|exact W].
      + intros [I|(n & [I|I] & W)]; [auto| |].
        * injection I as -> -> ->. left. right. auto.
        * right. exists n. auto.
  Qed.

  Definition listed (w : world) (d : nat) (x : entry) : Prop :=
    match x with
    | Entry a => (a < w_next w)%nat /\ a_doc (w_attr w a) = d /\ (exists element, In (element, a_name (w_attr w a)) (declared d)) /\ a_owner (w_attr w a) <> None
    | Lost v e => e_ro (w_elem w e) = true /\ e_doc (w_elem w e) = d
    end.
  Definition good (s : dstate) : Prop :=
    tidy (d_w s) /\
    (forall e a, In a (e_attrs (w_elem (d_w s) e)) -> (exists element, In (element, a_name (w_attr (d_w s) a)) (declared (e_doc (w_elem (d_w s) e)))) ->
       In (Entry a) (d_ids s (e_doc (w_elem (d_w s) e)))) /\
    (forall d x, In x (d_ids s d) -> listed (d_w s) d x) /\
    d_dead s = (fun _ => false, fun _ => false).
  Lemma good_first : forall docs dflt, good (first_dstate docs dflt).
  Proof. intros docs dflt. split; [apply reach_tidy; constructor|]. split; [intros e a []|]. split; [intros d x []|reflexivity]. Qed.
  Lemma good_call : forall s c, good s -> Forall (fun a => (a < w_next (d_w s))%nat) (passed c) -> renames c = false ->
    good (fst (id_call declared s c)).
  Proof.
    intros s c (T & F & L & D) P R. assert (M := moved_call (d_w s) c T P R). assert (T' := tidy_call (d_w s) c T P).
    unfold id_call. destruct (attr_call (d_w s) c) as [w r]. cbn [fst] in *. destruct M as ((N & E & A) & I & C).
    split; [exact T'|]. cbn [d_w d_ids d_dead]. split; [|split; [|exact D]].
    - intros e a J W. apply claims_in. rewrite (proj1 (E e)) in W |- *. destruct (I e a J) as [K|K].
      + left. apply F; [exact K|]. rewrite <- (proj1 (A a (proj1 (proj2 (T e) a K)))). exact W.
      + right. exists (a_name (w_attr w a)). auto.
    - intros d x J. apply claims_in in J. destruct J as [J|(n & J & W)].
      + specialize (L d x J). destruct x as [a|v e]; cbn [listed] in *.
        * destruct L as (La & Ld & Lw & Lo). destruct (A a La) as (X & Y & Z). rewrite X, Y. repeat split; auto. lia.
        * destruct L as (R1 & R2). destruct (E e) as (X & Y). split; [auto|congruence].
      + specialize (C d n x J). destruct x as [a|v e]; cbn [listed] in *; [|exact C]. destruct C as (C1 & C2 & C3 & C4). rewrite C3. auto.
  Qed.

  Definition says_id (w : world) (x : entry) : str := match x with Entry a => node_value (w_attr w a) | Lost v _ => v end.
  Definition belongs (w : world) (x : entry) : option nat := match x with Entry a => a_owner (w_attr w a) | Lost _ e => Some e end.
  Lemma looks_trans : forall w1 w2 w3, looks_same w1 w2 -> looks_same w2 w3 -> looks_same w1 w3.
  Proof.
    intros w1 w2 w3 (A & B & C) (A' & B' & C'). split; [congruence|]. split; [congruence|]. intros a.
    destruct (C a) as (X1 & X2 & X3 & X4), (C' a) as (Y1 & Y2 & Y3 & Y4). repeat split; congruence.
  Qed.
  Lemma looks_read : forall w a, looks_same w (fst (read_value w a)).
  Proof. intros w a. split; [reflexivity|]. split; [reflexivity|]. intros b. cbn. destruct (Nat.eqb b a); auto. Qed.
  Lemma seek_lemma : forall id l w, (forall x, In x l -> belongs w x <> None) ->
    exists w' o, seek (fun _ => false, fun _ => false) id l w = Val (w', o) /\ looks_same w w' /\
      match o with
      | Some e => exists x, In x l /\ says_id w x = id /\ belongs w x = Some e
      | None => forall x, In x l -> says_id w x <> id
      end.
  Proof.
    intros id. induction l as [|x l IH]; intros w B.
    - exists w, None. split; [reflexivity|]. split; [split; [reflexivity|split; [reflexivity|auto]]|]. intros x [].
    - destruct x as [a|v e]; cbn [seek fst snd].
      + assert (RV : read_value w a = (fst (read_value w a), node_value (w_attr w a))) by reflexivity. rewrite RV. cbv iota beta.
        assert (LK := looks_read w a). set (w1 := fst (read_value w a)) in *. clearbody w1. clear RV.
        destruct LK as (LE & LN & LA). destruct (LA a) as (V & O & _).
        destruct (str_eqb (node_value (w_attr w a)) id) eqn:E.
        * apply str_eqb_true in E. rewrite O. assert (Bx := B (Entry a) (or_introl eq_refl)). cbn in Bx.
          destruct (a_owner (w_attr w a)) as [e|] eqn:OW; [|congruence]. exists w1, (Some e). split; [reflexivity|]. split; [split; [exact LE|split; [exact LN|exact LA]]|].
          exists (Entry a). split; [left; reflexivity|]. cbn. auto.
        * apply str_eqb_false in E. destruct (IH w1) as (w' & o & S & LK & K).
          { intros x I. specialize (B x (or_intror I)). destruct x as [b|u f]; cbn in *; [|exact B]. rewrite (proj1 (proj2 (LA b))). exact B. }
          exists w', o. split; [exact S|]. split; [apply (looks_trans w w1 w'); [split; [exact LE|split; [exact LN|exact LA]]|exact LK]|].
          destruct o as [e|].
          -- destruct K as (x & I & X & Y). exists x. split; [right; exact I|]. destruct x as [b|u f]; cbn in *; [|auto].
             destruct (LA b) as (V' & O' & _). split; congruence.
          -- intros x [<-|I]; [exact E|]. specialize (K x I). destruct x as [b|u f]; cbn in *; [|exact K]. rewrite <- (proj1 (LA b)). exact K.
      + destruct (str_eqb v id) eqn:E.
        * apply str_eqb_true in E. exists w, (Some e). split; [reflexivity|]. split; [split; [reflexivity|split; [reflexivity|auto]]|].
          exists (Lost v e). split; [left; reflexivity|]. auto.
        * apply str_eqb_false in E. destruct (IH w) as (w' & o & S & LK & K); [intros x I; apply B; right; exact I|].
          exists w', o. split; [exact S|]. split; [exact LK|]. destruct o as [f|].
          -- destruct K as (x & I & X). exists x. split; [right; exact I|exact X].
          -- intros x [<-|I]; [exact E|apply K, I].
  Qed.
  Lemma get_lemma : forall s d id, good s -> exists w' o, get_by_id order s d id = Val (DState w' (d_ids s) (d_dead s), o) /\ looks_same (d_w s) w' /\
    match o with
    | Some e => exists x, In x (d_ids s d) /\ says_id (d_w s) x = id /\ belongs (d_w s) x = Some e
    | None => forall x, In x (d_ids s d) -> says_id (d_w s) x <> id
    end.
  Proof.
    intros s d id (T & F & L & D). unfold get_by_id. rewrite D.
    destruct (seek_lemma id (order (d_ids s d)) (d_w s)) as (w' & o & S & LK & K).
    { intros x I. apply (Permutation_in x (orders _)) in I. specialize (L d x I). destruct x; cbn in *; [apply L|discriminate]. }
    exists w', o. rewrite S. split; [reflexivity|]. split; [exact LK|]. destruct o as [e|].
    - destruct K as (x & I & X). exists x. split; [apply (Permutation_in x (orders _)); exact I|exact X].
    - intros x I. apply K. apply (Permutation_in x (Permutation_sym (orders _))). exact I.
  Qed.
  Lemma good_looks : forall s w', good s -> looks_same (d_w s) w' -> tidy w' -> good (DState w' (d_ids s) (d_dead s)).
  Proof.
    intros s w' (T & F & L & D) (E & N & A) T'. split; [exact T'|]. cbn [d_w d_ids d_dead]. rewrite E. split; [|split; [|exact D]].
    - intros e a I W. apply F; [exact I|]. destruct (A a) as (_ & _ & <- & _). exact W.
    - intros d x I. specialize (L d x I). destruct x as [a|v e]; cbn [listed] in *; [|rewrite E; exact L].
      destruct (A a) as (_ & -> & -> & ->). rewrite N. exact L.
  Qed.
  Lemma tidy_seek : forall dead id l w w' o, tidy w -> seek dead id l w = Val (w', o) -> tidy w'.
  Proof.
    intros dead id. induction l as [|x l IH]; intros w w' o T S; cbn in S; [injection S as <- <-; exact T|].
    destruct x as [a|v e].
    - destruct (fst dead a); [discriminate|]. unfold read_value in S. cbv iota beta in S.
      assert (T1 := tidy_read w a T). cbn [read_value fst] in T1. set (w1 := put_attr w a _) in *. clearbody w1.
      destruct (str_eqb _ id); [|eapply IH; eauto]. destruct (a_owner _); [destruct (snd dead n); [discriminate|]|]; injection S as <- <-; exact T1.
    - destruct (str_eqb v id); [destruct (snd dead e); [discriminate|injection S as <- <-; exact T]|eapply IH; eauto].
  Qed.
  Lemma reach_good : forall s, id_reach declared order s -> good s.
  Proof.
    intros s R. induction R as [docs dflt|s c R IH P N|s d id s' o R IH G].
    - apply good_first.
    - apply good_call; auto.
    - destruct (get_lemma s d id IH) as (w' & o' & E & LK & _). rewrite E in G. injection G as <- <-. apply good_looks; auto.
      unfold get_by_id in E. destruct (seek _ _ _ _) as [[w1 o1]| |] eqn:S; [|discriminate|discriminate]. cbn in E. injection E as -> ->.
      eapply tidy_seek; [apply IH|exact S].
  Qed.

  Lemma found_lemma : forall s e a id, id_reach declared order s -> bears declared (d_w s) e a id ->
    exists s' e', get_by_id order s (e_doc (w_elem (d_w s) e)) id = Val (s', Some e').
  Proof.
    intros s e a id R (I & W & V). assert (G := reach_good s R).
    destruct (get_lemma s (e_doc (w_elem (d_w s) e)) id G) as (w' & o & E & _ & K). rewrite E.
    destruct o as [e'|]; [eauto|]. exfalso. destruct G as (_ & F & _). exact (K (Entry a) (F e a I W) V).
  Qed.
  Lemma given_lemma : forall s d id s' e, id_reach declared order s -> get_by_id order s d id = Val (s', Some e) ->
    (exists a, a_owner (w_attr (d_w s) a) = Some e /\ (a < w_next (d_w s))%nat /\ a_doc (w_attr (d_w s) a) = d /\
       (exists element, In (element, a_name (w_attr (d_w s) a)) (declared d)) /\ node_value (w_attr (d_w s) a) = id) \/
    e_ro (w_elem (d_w s) e) = true.
  Proof.
    intros s d id s' e R G. assert (GD := reach_good s R). destruct (get_lemma s d id GD) as (w' & o & E & _ & K).
    rewrite E in G. injection G as <- ->. destruct K as (x & I & X & Y). destruct GD as (_ & _ & L & _). specialize (L d x I).
    destruct x as [a|v f]; cbn in *.
    - left. exists a. intuition.
    - right. injection Y as ->. apply L.
  Qed.
  Lemma exact_lemma : forall s d id, id_reach declared order s -> none_taken declared (d_w s) -> (forall e, e_ro (w_elem (d_w s) e) = false) ->
    exists s' o, get_by_id order s d id = Val (s', o) /\ looks_same (d_w s) (d_w s') /\
      match o with
      | Some e => e_doc (w_elem (d_w s) e) = d /\ exists a, bears declared (d_w s) e a id
      | None => forall e a, e_doc (w_elem (d_w s) e) = d -> ~ bears declared (d_w s) e a id
      end.
  Proof.
    intros s d id R N O. assert (GD := reach_good s R). destruct (get_lemma s d id GD) as (w' & o & E & LK & K).
    exists (DState w' (d_ids s) (d_dead s)), o. split; [exact E|]. split; [exact LK|]. destruct o as [e|].
    - destruct K as (x & I & X & Y). destruct GD as (T & _ & L & _). specialize (L d x I). destruct x as [a|v f]; cbn in *.
      + destruct L as (La & Ld & Lw & _). assert (J : In a (e_attrs (w_elem (d_w s) e))) by (apply N; auto; rewrite Ld; exact Lw).
        destruct (proj2 (T e) a J) as (_ & _ & _ & DE). assert (De : e_doc (w_elem (d_w s) e) = d) by congruence.
        split; [exact De|]. exists a. unfold bears. rewrite De. auto.
      + rewrite O in L. destruct L as [L _]. discriminate.
    - intros e a D (I & W & V). destruct GD as (_ & F & _). specialize (F e a I W). rewrite D in F. exact (K (Entry a) F V).
  Qed.
End Table.
