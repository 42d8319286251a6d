(** Proofs about handles to byte streams. *)
From Coq Require Import Lia.
From Verif.Model Require Import Base StreamHandle.
From Verif.Spec Require Import StreamHandleSpec.

Definition has (c : nat) (h : handle) : bool := match h_counter h with Some d => Nat.eqb d c | None => false end.
Fixpoint count (c : nat) (l : list handle) : nat :=
  match l with [] => O | h :: l => (if has c h then 1 else 0) + count c l end%nat.
Definition tally (n : nat) : option Z := match n with O => None | S _ => Some (Z.of_nat n) end.
Definition owns (h : handle) (s : nat) : Prop := h_owner h = true /\ h_stream h = Some s.
Definition owned (l : list handle) (s : nat) : Prop := exists h, In h l /\ owns h s.

Record inv (cn : nat -> option Z) (nx : nat) (D : list nat) (l : list handle) : Prop := Inv {
  i_counter : forall h, In h l -> exists c, h_counter h = Some c /\ (c < nx)%nat;
  i_count : forall c, cn c = tally (count c l);
  i_same : forall h k, In h l -> In k l -> h_counter h = h_counter k -> h = k;
  i_owner : forall h k s, In h l -> In k l -> owns h s -> owns k s -> h = k;
  i_alive : forall s, owned l s -> ~ In s D }.

Lemma count_app c a b : count c (a ++ b) = (count c a + count c b)%nat.
Proof. induction a as [|h a IH]; cbn; [reflexivity|rewrite IH; lia]. Qed.
Lemma count_in c h l : In h l -> has c h = true -> (0 < count c l)%nat.
Proof. induction l as [|k l IH]; cbn; [tauto|]. intros [->|I] H; [rewrite H; lia|specialize (IH I H); lia]. Qed.
Lemma count_pos c l : (0 < count c l)%nat -> exists h, In h l /\ has c h = true.
Proof.
  induction l as [|k l IH]; cbn; [lia|]. destruct (has c k) eqn:E; [intros _; exists k; auto|].
  intros H. destruct IH as (h & I & Q); [lia|]. exists h. auto.
Qed.
Lemma has_counter c h : has c h = true <-> h_counter h = Some c.
Proof. unfold has. destruct (h_counter h); [rewrite Nat.eqb_eq; split; congruence|split; congruence]. Qed.

Lemma middle {A} (x y : A) a b : In x (a ++ b) -> In x (a ++ y :: b).
Proof. rewrite !in_app_iff. cbn. tauto. Qed.
Lemma middle_inv {A} (x y : A) a b : In x (a ++ y :: b) <-> x = y \/ In x (a ++ b).
Proof. rewrite !in_app_iff. cbn. intuition. Qed.

(** What a change of handles destroys. *)
Definition outcome_of (l l' : list handle) (D D' : list nat) : Prop :=
  (D' = D /\ forall s, owned l s -> owned l' s) \/
  exists s, D' = s :: D /\ owned l s /\ ~ owned l' s /\ forall r, r <> s -> owned l r -> owned l' r.

Lemma existsb_eqb s l : existsb (Nat.eqb s) l = true <-> In s l.
Proof.
  rewrite existsb_exists. split; [intros (x & I & E); apply Nat.eqb_eq in E; subst; auto|].
  intros I. exists s. split; [auto|apply Nat.eqb_refl].
Qed.

Lemma remove_lemma : forall m a h b, inv (m_counters m) (m_next m) (m_deleted m) (a ++ h :: b) ->
  exists m', remove_ref h m = Val m' /\ m_handles m' = m_handles m /\ m_next m' = m_next m /\
    inv (m_counters m') (m_next m') (m_deleted m') (a ++ b) /\
    outcome_of (a ++ h :: b) (a ++ b) (m_deleted m) (m_deleted m').
Proof.
  intros m a h b I. pose proof (i_counter _ _ _ _ I h (in_elt h a b)) as (c & Hc & Hn).
  assert (K : count c (a ++ h :: b) = S (count c (a ++ b))).
  { rewrite !count_app. cbn. rewrite (proj2 (has_counter c h) Hc). lia. }
  assert (O : forall d, d <> c -> count d (a ++ h :: b) = count d (a ++ b)).
  { intros d N. rewrite !count_app. cbn. destruct (has d h) eqn:E; [apply has_counter in E; congruence|lia]. }
  pose proof (i_count _ _ _ _ I c) as C. rewrite K in C. cbn [tally] in C.
  unfold remove_ref. rewrite Hc, C. 
  assert (keep : forall cn D, (forall d, cn d = tally (count d (a ++ b))) -> (forall s, owned (a ++ b) s -> ~ In s D) ->
    inv cn (m_next m) D (a ++ b)).
  { intros cn D E A. constructor.
    - intros k Ik. apply (i_counter _ _ _ _ I). apply middle, Ik.
    - exact E.
    - intros k k' Ik Ik'. apply (i_same _ _ _ _ I); apply middle; assumption.
    - intros k k' s Ik Ik'. apply (i_owner _ _ _ _ I); apply middle; assumption.
    - exact A. }
  assert (old : forall s, owned (a ++ b) s -> ~ In s (m_deleted m)).
  { intros s (k & Ik & Ok). apply (i_alive _ _ _ _ I). exists k. split; [apply middle, Ik|exact Ok]. }
  destruct (Z.of_nat (S (count c (a ++ b))) - 1 =? 0) eqn:E.
  - apply Z.eqb_eq in E. assert (Z0 : count c (a ++ b) = 0%nat) by lia.
    assert (N : forall k, In k (a ++ b) -> k <> h).
    { intros k Ik ->. pose proof (count_in c h _ Ik (proj2 (has_counter c h) Hc)). lia. }
    assert (cn' : forall d, (if Nat.eqb d c then None else m_counters m d) = tally (count d (a ++ b))).
    { intros d. destruct (Nat.eqb_spec d c) as [->|Nd]; [rewrite Z0; reflexivity|].
      rewrite (i_count _ _ _ _ I d), O by exact Nd. reflexivity. }
    destruct (h_owner h) eqn:Ow.
    + destruct (h_stream h) as [s|] eqn:Hs; cbn [delete_stream].
      * assert (Ih : owned (a ++ h :: b) s) by (exists h; split; [apply in_elt|split; assumption]).
        destruct (existsb (Nat.eqb s) (m_deleted m)) eqn:X.
        { exfalso. apply existsb_eqb in X. exact (i_alive _ _ _ _ I s Ih X). }
        cbn [obind]. eexists. split; [reflexivity|]. cbn [set_counter m_counters m_handles m_next m_deleted]. split; [reflexivity|]. split; [reflexivity|].
        assert (NO : ~ owned (a ++ b) s).
        { intros (k & Ik & Ok). apply (N k Ik). apply (i_owner _ _ _ _ I k h s);
            [apply middle, Ik|apply in_elt|exact Ok|split; assumption]. }
        split.
        { apply keep; [exact cn'|]. intros r Or [<-|Ir]; [exact (NO Or)|exact (old r Or Ir)]. }
        right. exists s. split; [reflexivity|]. split; [exact Ih|]. split; [exact NO|].
        intros r Nr (k & Ik & Ok1 & Ok2). apply middle_inv in Ik as [->|Ik]; [congruence|].
        exists k. split; [exact Ik|split; assumption].
      * cbn [obind]. eexists. split; [reflexivity|]. cbn [set_counter m_counters m_handles m_next m_deleted]. split; [reflexivity|]. split; [reflexivity|].
        split; [apply keep; [exact cn'|exact old]|]. left. split; [reflexivity|].
        intros r (k & Ik & Ok1 & Ok2). apply middle_inv in Ik as [->|Ik]; [congruence|].
        exists k. split; [exact Ik|split; assumption].
    + cbn [obind]. eexists. split; [reflexivity|]. cbn [set_counter m_counters m_handles m_next m_deleted]. split; [reflexivity|]. split; [reflexivity|].
      split; [apply keep; [exact cn'|exact old]|]. left. split; [reflexivity|].
      intros r (k & Ik & Ok1 & Ok2). apply middle_inv in Ik as [->|Ik]; [congruence|].
      exists k. split; [exact Ik|split; assumption].
  - apply Z.eqb_neq in E. assert (P : (0 < count c (a ++ b))%nat) by lia.
    destruct (count_pos c _ P) as (k & Ik & Hk). apply has_counter in Hk.
    assert (k = h) as -> by (apply (i_same _ _ _ _ I); [apply middle, Ik|apply in_elt|congruence]).
    eexists. split; [reflexivity|]. cbn [set_counter m_counters m_handles m_next m_deleted]. split; [reflexivity|]. split; [reflexivity|]. split.
    + apply keep; [|exact old]. intros d. destruct (Nat.eqb_spec d c) as [->|Nd].
      * destruct (count c (a ++ b)) as [|n]; [lia|]. cbn [tally]. f_equal. lia.
      * rewrite (i_count _ _ _ _ I d), O by exact Nd. reflexivity.
    + left. split; [reflexivity|]. intros r (k & Ik' & Ok). apply middle_inv in Ik' as [->|Ik'].
      * exists h. split; [exact Ik|exact Ok].
      * exists k. split; [exact Ik'|exact Ok].
Qed.

Lemma add_lemma : forall m l h, inv (m_counters m) (m_next m) (m_deleted m) l -> In h l ->
  exists m', add_ref h m = Val m' /\ m_handles m' = m_handles m /\ m_next m' = m_next m /\ m_deleted m' = m_deleted m /\
    inv (m_counters m') (m_next m') (m_deleted m') (h :: l).
Proof.
  intros m l h I Ih. pose proof (i_counter _ _ _ _ I h Ih) as (c & Hc & Hn).
  pose proof (count_in c h l Ih (proj2 (has_counter c h) Hc)) as P.
  pose proof (i_count _ _ _ _ I c) as C. destruct (count c l) as [|n] eqn:E; [lia|]. cbn [tally] in C.
  unfold add_ref. rewrite Hc, C. eexists. split; [reflexivity|]. cbn [set_counter m_counters m_handles m_next m_deleted]. repeat (split; [reflexivity|]).
  assert (sub : forall k, In k (h :: l) -> In k l) by (intros k [<-|Ik]; assumption).
  constructor.
  - intros k Ik. apply (i_counter _ _ _ _ I), sub, Ik.
  - intros d. cbn [count]. destruct (Nat.eqb_spec d c) as [->|Nd].
    + rewrite (proj2 (has_counter c h) Hc), E. cbn [tally Nat.add]. f_equal. lia.
    + destruct (has d h) eqn:Q; [apply has_counter in Q; congruence|]. apply (i_count _ _ _ _ I).
  - intros k k' Ik Ik'. apply (i_same _ _ _ _ I); apply sub; assumption.
  - intros k k' s Ik Ik'. apply (i_owner _ _ _ _ I); apply sub; assumption.
  - intros s (k & Ik & Ok). apply (i_alive _ _ _ _ I). exists k. split; [apply sub, Ik|exact Ok].
Qed.

(** A new counter. *)
Lemma new_lemma : forall cn nx D l o own, inv cn nx D l ->
  (forall s, own = true -> o = Some s -> ~ owned l s /\ ~ In s D) ->
  inv (fun d => if Nat.eqb d nx then Some 1 else cn d) (S nx) D (Handle o (Some nx) own :: l).
Proof.
  intros cn nx D l o own I F.
  assert (Z0 : count nx l = O).
  { destruct (count nx l) eqn:E; [reflexivity|]. destruct (count_pos nx l) as (h & Ih & Hh); [lia|].
    apply has_counter in Hh. destruct (i_counter _ _ _ _ I h Ih) as (c & Hc & Hn). rewrite Hh in Hc. injection Hc as <-. lia. }
  assert (N : forall h, In h l -> h_counter h <> Some nx).
  { intros h Ih Hh. destruct (i_counter _ _ _ _ I h Ih) as (c & Hc & Hn). rewrite Hh in Hc. injection Hc as <-. lia. }
  constructor.
  - intros h [<-|Ih]; [exists nx; split; [reflexivity|lia]|]. destruct (i_counter _ _ _ _ I h Ih) as (c & Hc & Hn). exists c. split; [exact Hc|lia].
  - intros d. cbn [count]. unfold has at 1. cbn [h_counter]. rewrite (Nat.eqb_sym nx d). destruct (Nat.eqb_spec d nx) as [->|Nd].
    + rewrite Z0. reflexivity.
    + cbn. apply (i_count _ _ _ _ I).
  - intros h k [<-|Ih] [<-|Ik] E; [reflexivity| | |apply (i_same _ _ _ _ I); assumption].
    + exfalso. apply (N k Ik). symmetry. exact E.
    + exfalso. apply (N h Ih). exact E.
  - intros h k s [<-|Ih] [<-|Ik] Oh Ok; [reflexivity| | |apply (i_owner _ _ _ _ I h k s); assumption].
    + destruct Oh as [O1 O2]. cbn in O1, O2. exfalso. apply (proj1 (F s O1 O2)). exists k. auto.
    + destruct Ok as [O1 O2]. cbn in O1, O2. exfalso. apply (proj1 (F s O1 O2)). exists h. auto.
  - intros s (h & [<-|Ih] & Oh).
    + destruct Oh as [O1 O2]. cbn in O1, O2. exact (proj2 (F s O1 O2)).
    + apply (i_alive _ _ _ _ I). exists h. auto.
Qed.

(** * Variables *)
Lemma at_in {A} v (l : list (nat * A)) : NoDup (map fst l) -> forall a, at_ v l = Some a <-> In (v, a) l.
Proof.
  induction l as [|[w b] l IH]; cbn; [intros _ a; split; [discriminate|tauto]|].
  intros N a. inversion N as [|? ? N1 N2]. subst. destruct (Nat.eqb_spec w v) as [->|Nw].
  - split; [intros [= ->]; auto|]. intros [[= ->]|I]; [reflexivity|]. exfalso. apply N1. apply (in_map fst) in I. exact I.
  - rewrite (IH N2). split; [auto|]. intros [[= ? ?]|I]; [congruence|exact I].
Qed.
Lemma without_in {A} v (l : list (nat * A)) w a : In (w, a) (without v l) <-> w <> v /\ In (w, a) l.
Proof.
  induction l as [|[u b] l IH]; cbn; [tauto|]. destruct (Nat.eqb_spec u v) as [->|Nu]; cbn; rewrite IH.
  - split; [tauto|]. intros [N [[= -> _]|I]]; [congruence|tauto].
  - split; [intros [[= -> ->]|]; tauto|tauto].
Qed.
Lemma without_keys {A} v (l : list (nat * A)) : NoDup (map fst l) -> NoDup (map fst (without v l)) /\ ~ In v (map fst (without v l)).
Proof.
  intros N. split.
  - induction l as [|[u b] l IH]; cbn in *; [constructor|]. inversion N as [|? ? N1 N2]. subst.
    destruct (Nat.eqb_spec u v); [auto|]. cbn. constructor; [|auto]. intros I. apply N1.
    apply in_map_iff in I as ([x y] & E & I). cbn in E. subst x. apply without_in in I as [_ I]. apply (in_map fst) in I. exact I.
  - intros I. apply in_map_iff in I as ([x y] & E & I). cbn in E. subst x. apply without_in in I as [Q _]. congruence.
Qed.
Lemma without_absent {A} v (l : list (nat * A)) : ~ In v (map fst l) -> without v l = l.
Proof.
  induction l as [|[u b] l IH]; cbn; [reflexivity|]. intros N. destruct (Nat.eqb_spec u v) as [->|Nu]; [tauto|].
  rewrite IH by tauto. reflexivity.
Qed.
Lemma split_at {A} v (l : list (nat * A)) a : NoDup (map fst l) -> In (v, a) l ->
  exists x y, l = x ++ (v, a) :: y /\ without v l = x ++ y.
Proof.
  intros N I. apply in_split in I as (x & y & ->). exists x, y. split; [reflexivity|].
  rewrite map_app in N. cbn in N. pose proof (NoDup_remove_2 _ _ _ N) as Q. rewrite <- map_app in Q.
  assert (W : forall x y, without v (x ++ y) = without v x ++ without v (A := A) y).
  { induction x0 as [|[u b] x0 IH]; intros; cbn; [reflexivity|]. destruct (Nat.eqb u v); rewrite IH; reflexivity. }
  rewrite W. cbn. rewrite Nat.eqb_refl.
  rewrite map_app, in_app_iff in Q. rewrite !without_absent by tauto. reflexivity.
Qed.

Definition target_of (h : handle) : target :=
  match h_stream h with None => Nothing | Some s => if h_owner h then Given s else Lent s end.
Definition agree (l : list (nat * handle)) (hs : held) : Prop :=
  forall v t, In (v, t) hs <-> exists h, In (v, h) l /\ target_of h = t.
Record fits (m : memory) (W : world) : Prop := Fits {
  f_keys : NoDup (map fst (m_handles m));
  f_agree : agree (m_handles m) (held_ W);
  f_inv : inv (m_counters m) (m_next m) (m_deleted m) (map snd (m_handles m));
  f_deleted : m_deleted m = destroyed W;
  f_dead : forall s, In s (destroyed W) -> In s (gifts W);
  f_gifts : forall s, owned (map snd (m_handles m)) s -> In s (gifts W);
  f_lent : forall v s, In (v, Lent s) (held_ W) -> ~ In s (gifts W) }.

Lemma given_owned l hs s : agree l hs -> (exists v, In (v, Given s) hs) <-> owned (map snd l) s.
Proof.
  intros A. split.
  - intros [v I]. apply A in I as (h & I & E). exists h. split; [apply (in_map snd) in I; exact I|].
    unfold target_of in E. split; destruct (h_stream h) as [r|]; destruct (h_owner h); congruence.
  - intros (h & I & O1 & O2). apply in_map_iff in I as ([v k] & E & I). cbn in E. subst k. exists v. apply A. exists h.
    split; [exact I|]. unfold target_of. rewrite O1, O2. reflexivity.
Qed.

Lemma destroyed_lemma : forall l l' hs hs' D D' x, agree l hs -> agree l' hs' ->
  outcome_of (map snd l) (map snd l') D D' -> lets_go hs hs' D x -> D' = x.
Proof.
  intros l l' hs hs' D D' x A A' O G.
  assert (U : forall s, owned (map snd l) s <-> exists v, In (v, Given s) hs) by (intros; symmetry; apply given_owned, A).
  assert (U' : forall s, owned (map snd l') s <-> exists v, In (v, Given s) hs') by (intros; symmetry; apply given_owned, A').
  destruct O as [[-> O]|(s & -> & O1 & O2 & O3)]; destruct G as [[-> G]|(r & v & -> & G1 & G2 & G3)].
  - reflexivity.
  - exfalso. assert (Q : owned (map snd l') r) by (apply O, U; eauto). apply U' in Q as [w Q]. exact (G2 w Q).
  - exfalso. apply O2, U'. apply U in O1 as [v O1]. exact (G s v O1).
  - destruct (Nat.eq_dec s r) as [->|N]; [reflexivity|]. exfalso. apply O2, U'. apply U in O1 as [w O1]. exact (G3 s w N O1).
Qed.

(** The end of every step that changes the handles. *)
Lemma conclude : forall m W m' hs o W', fits m W ->
  changes W hs o W' -> fresh_gift o W ->
  NoDup (map fst (m_handles m')) -> agree (m_handles m') hs ->
  inv (m_counters m') (m_next m') (m_deleted m') (map snd (m_handles m')) ->
  outcome_of (map snd (m_handles m)) (map snd (m_handles m')) (m_deleted m) (m_deleted m') ->
  (forall s, owned (map snd (m_handles m')) s -> owned (map snd (m_handles m)) s \/ o = Some s) ->
  (forall v s, In (v, Lent s) hs -> In (v, Lent s) (held_ W) \/ (lends s W /\ o = None)) ->
  fits m' W'.
Proof.
  intros m W m' hs o W' F (EH & EG & LG) FG K A I O N NL.
  assert (D : m_deleted m' = destroyed W').
  { apply (destroyed_lemma (m_handles m) (m_handles m') (held_ W) hs (m_deleted m)); [apply (f_agree _ _ F)|exact A|exact O|].
    rewrite (f_deleted _ _ F). exact LG. }
  assert (G : forall s, In s (gifts W') <-> In s (gifts W) \/ o = Some s).
  { intros s. rewrite EG. destruct o as [r|]; cbn; split; [intros [->|]; auto|intros [|[= ->]]; auto|auto|intros [|[=]]; auto]. }
  constructor.
  - exact K.
  - rewrite EH. exact A.
  - exact I.
  - exact D.
  - intros s Is. apply G. left. destruct LG as [[E _]|(r & v & E & L & _)]; rewrite E in Is.
    + apply (f_dead _ _ F), Is.
    + destruct Is as [<-|Is]; [|apply (f_dead _ _ F), Is]. apply (f_gifts _ _ F). apply (given_owned _ _ r (f_agree _ _ F)). eauto.
  - intros s Os. apply G. destruct (N s Os) as [Q|Q]; [left; apply (f_gifts _ _ F), Q|right; exact Q].
  - intros v s Iv. rewrite EH in Iv. rewrite G. intros [Q|Q].
    + destruct (NL v s Iv) as [L|[L _]]; [exact (f_lent _ _ F v s L Q)|exact (L Q)].
    + destruct (NL v s Iv) as [L|[_ E]]; [|congruence]. subst o. destruct FG as [_ FG]. exact (FG v L).
Qed.

Lemma known_at m W v : fits m W -> known v (held_ W) -> exists h, In (v, h) (m_handles m).
Proof. intros F [t I]. apply (f_agree _ _ F) in I as (h & I & _). eauto. Qed.
Lemma unknown_at m W v : fits m W -> unknown v (held_ W) -> ~ In v (map fst (m_handles m)) /\ at_ v (m_handles m) = None.
Proof.
  intros F U. assert (N : ~ In v (map fst (m_handles m))).
  { intros I. apply in_map_iff in I as ([w h] & E & I). cbn in E. subst w. apply (U (target_of h)). apply (f_agree _ _ F). eauto. }
  split; [exact N|]. destruct (at_ v (m_handles m)) as [h|] eqn:E; [|reflexivity]. exfalso.
  apply (at_in v _ (f_keys _ _ F)) in E. apply N. apply (in_map fst) in E. exact E.
Qed.

(** [v] gets the handle [h]. *)
Lemma agree_now l hs hs' v h t : agree l hs -> target_of h = t -> now v t hs hs' -> agree ((v, h) :: without v l) hs'.
Proof.
  intros A E N w u. unfold agree, now in A, N. rewrite N, A. split.
  - intros [[-> ->]|[Nw (k & I & Q)]]; [exists h; split; [left; reflexivity|exact E]|].
    exists k. split; [right; apply without_in; auto|exact Q].
  - intros (k & [[= <- <-]|I] & Q); [left; split; congruence|]. apply without_in in I as [Nw I]. right. split; [exact Nw|eauto].
Qed.
Lemma agree_gone l hs hs' v : agree l hs -> no_longer v hs hs' -> agree (without v l) hs'.
Proof.
  intros A N w u. unfold agree, no_longer in A, N. rewrite N, A. split.
  - intros [Nw (k & I & Q)]. exists k. split; [apply without_in; auto|exact Q].
  - intros (k & I & Q). apply without_in in I as [Nw I]. eauto.
Qed.
Lemma keys_now {A} v (h : A) l : NoDup (map fst l) -> NoDup (map fst ((v, h) :: without v l)).
Proof. intros N. destruct (without_keys v l N). cbn. constructor; assumption. Qed.

Lemma clear_lemma : forall m W v h, fits m W -> In (v, h) (m_handles m) ->
  exists m', clear v m = Val m' /\ m_handles m' = (v, empty_handle) :: without v (m_handles m) /\ m_next m' = m_next m /\
    inv (m_counters m') (m_next m') (m_deleted m') (map snd (without v (m_handles m))) /\
    outcome_of (map snd (m_handles m)) (map snd (without v (m_handles m))) (m_deleted m) (m_deleted m').
Proof.
  intros m W v h F I. unfold clear, with_handle. rewrite (proj2 (at_in v _ (f_keys _ _ F) h) I).
  destruct (split_at v _ h (f_keys _ _ F) I) as (x & y & E & E').
  pose proof (f_inv _ _ F) as V. rewrite E, map_app in V. cbn [map snd] in V.
  destruct (remove_lemma m _ _ _ V) as (m' & R & H & N & V' & O). rewrite R. cbn [obind].
  eexists. split; [reflexivity|]. cbn. rewrite H. split; [reflexivity|]. split; [exact N|].
  rewrite E', E, !map_app. cbn [map snd]. split; assumption.
Qed.

Lemma without_again {A} v (h : A) l : NoDup (map fst l) -> without v ((v, h) :: without v l) = without v l.
Proof. intros N. cbn. rewrite Nat.eqb_refl. apply without_absent, without_keys, N. Qed.
Lemma owned_without l v s : owned (map snd (without v l)) s -> owned (map snd l) s.
Proof.
  intros (k & I & O). apply in_map_iff in I as ([w k'] & E & I). cbn in E. subst k'. apply without_in in I as [_ I].
  exists k. split; [apply (in_map snd) in I; exact I|exact O].
Qed.

(** After clearing [v], a fresh counter. *)
Lemma reset_lemma : forall m W v o own hs W' g, fits m W -> known v (held_ W) -> now v (target_of (Handle o (Some 0%nat) own)) (held_ W) hs ->
  changes W hs g W' -> fresh_gift g W -> (own = true -> g = o) -> (forall s, own = false -> o = Some s -> lends s W /\ g = None) ->
  exists m', obind (clear v m) (fun m => Val (set_stream v o own m)) = Val m' /\ fits m' W'.
Proof.
  intros m W v o own hs W' g F K N C FG G1 G2. destruct (known_at _ _ _ F K) as [h I].
  destruct (clear_lemma m W v h F I) as (m' & E & H & Nx & V & O). rewrite E. cbn [obind].
  eexists. split; [reflexivity|].
  assert (HH : m_handles (set_stream v o own m') = (v, Handle o (Some (m_next m')) own) :: without v (m_handles m)).
  { unfold set_stream. cbn. rewrite H. f_equal. apply without_again, (f_keys _ _ F). }
  assert (FR : forall s, own = true -> o = Some s -> ~ owned (map snd (m_handles m)) s /\ ~ In s (m_deleted m)).
  { intros s Ow Os. rewrite (G1 Ow), Os in FG. destruct FG as [FG _]. split.
    - intros Q. apply FG, (f_gifts _ _ F), Q.
    - intros Q. apply FG, (f_dead _ _ F). rewrite <- (f_deleted _ _ F). exact Q. }
  apply (conclude m W _ hs g W' F C FG).
  - rewrite HH. apply keys_now, (f_keys _ _ F).
  - rewrite HH. apply (agree_now _ (held_ W) _ _ _ (target_of (Handle o (Some 0%nat) own))); [apply (f_agree _ _ F)|reflexivity|exact N].
  - rewrite HH. cbn [map snd]. apply new_lemma; [exact V|]. intros s Ow Os. destruct (FR s Ow Os) as [Q1 Q2]. split.
    + intros Q. apply Q1. apply owned_without in Q. exact Q.
    + intros Q. change (In s (m_deleted m')) in Q. destruct O as [[D _]|(r & D & Or & _)]; rewrite D in Q; [exact (Q2 Q)|]. destruct Q as [->|Q]; [exact (Q1 Or)|exact (Q2 Q)].
  - rewrite HH. cbn [map snd]. change (m_deleted (set_stream v o own m')) with (m_deleted m').
    destruct O as [[D Q]|(s & D & Q1 & Q2 & Q3)].
    + left. split; [exact D|]. intros s Os. destruct (Q s Os) as (k & Ik & Ok). exists k. split; [right; exact Ik|exact Ok].
    + right. exists s. split; [exact D|]. split; [exact Q1|]. split.
      * intros (k & [<-|Ik] & Ok); [|apply Q2; exists k; auto]. destruct Ok as [O1 O2]. cbn in O1, O2.
        exact (proj1 (FR s O1 O2) Q1).
      * intros r Nr Or. destruct (Q3 r Nr Or) as (k & Ik & Ok). exists k. split; [right; exact Ik|exact Ok].
  - rewrite HH. cbn [map snd]. intros s (k & [<-|Ik] & Ok).
    + right. destruct Ok as [O1 O2]. cbn in O1, O2. rewrite (G1 O1). exact O2.
    + left. apply (owned_without _ v). exists k. auto.
  - intros w s Iw. apply N in Iw as [[-> T]|[_ Iw]]; [|left; exact Iw]. right. unfold target_of in T. cbn in T.
    destruct o as [r|]; [|discriminate T]. destruct own; [discriminate T|]. injection T as ->. exact (G2 r eq_refl eq_refl).
Qed.

Lemma make_lemma : forall m W v o own hs W' g, fits m W -> unknown v (held_ W) -> now v (target_of (Handle o (Some 0%nat) own)) (held_ W) hs ->
  changes W hs g W' -> fresh_gift g W -> (own = true -> g = o) -> (forall s, own = false -> o = Some s -> lends s W /\ g = None) ->
  fits (set_stream v o own m) W'.
Proof.
  intros m W v o own hs W' g F K N C FG G1 G2. destruct (unknown_at _ _ _ F K) as [U _].
  assert (HH : m_handles (set_stream v o own m) = (v, Handle o (Some (m_next m)) own) :: m_handles m).
  { unfold set_stream. cbn. rewrite without_absent by exact U. reflexivity. }
  assert (FR : forall s, own = true -> o = Some s -> ~ owned (map snd (m_handles m)) s /\ ~ In s (m_deleted m)).
  { intros s Ow Os. rewrite (G1 Ow), Os in FG. destruct FG as [FG _]. split.
    - intros Q. apply FG, (f_gifts _ _ F), Q.
    - intros Q. apply FG, (f_dead _ _ F). rewrite <- (f_deleted _ _ F). exact Q. }
  apply (conclude m W _ hs g W' F C FG).
  - rewrite HH. cbn. constructor; [exact U|apply (f_keys _ _ F)].
  - rewrite HH. rewrite <- (without_absent v (m_handles m) U).
    apply (agree_now _ (held_ W) _ _ _ (target_of (Handle o (Some 0%nat) own))); [apply (f_agree _ _ F)|reflexivity|exact N].
  - rewrite HH. cbn [map snd]. apply new_lemma; [apply (f_inv _ _ F)|exact FR].
  - rewrite HH. cbn [map snd]. left. split; [reflexivity|]. intros s (k & Ik & Ok). exists k. split; [right; exact Ik|exact Ok].
  - rewrite HH. cbn [map snd]. intros s (k & [<-|Ik] & Ok).
    + right. destruct Ok as [O1 O2]. cbn in O1, O2. rewrite (G1 O1). exact O2.
    + left. exists k. auto.
  - intros w s Iw. apply N in Iw as [[-> T]|[_ Iw]]; [|left; exact Iw]. right. unfold target_of in T. cbn in T.
    destruct o as [r|]; [|discriminate T]. destruct own; [discriminate T|]. injection T as ->. exact (G2 r eq_refl eq_refl).
Qed.

Definition not_self (o : op) : Prop := match o with Assign v w => v <> w | _ => True end.

Lemma step_lemma : forall m W o W' a, fits m W -> does W o W' a -> not_self o ->
  exists m', step o m = Val (m', a) /\ fits m' W'.
Proof.
  intros m W o W' a F D NS. destruct D as [W v hs W' U N C|W v s hs W' U L N C|W v o hs W' U FG N C|W v w t hs W' U Iw N C|
    W v hs W' K N C|W v w t hs W' K Iw N C|W v s hs W' K L N C|W v o hs W' K FG N C|W v hs W' K N C|W v I|W v t s I T].
  - cbn [step]. unfold unmade. rewrite (proj2 (unknown_at _ _ _ F U)). eexists. split; [reflexivity|].
    apply (make_lemma m W v None false hs W' None F U N C Logic.I); [discriminate|intros s _ [=]].
  - cbn [step]. unfold unmade. rewrite (proj2 (unknown_at _ _ _ F U)). eexists. split; [reflexivity|].
    apply (make_lemma m W v (Some s) false hs W' None F U N C Logic.I); [discriminate|intros r _ [= <-]; auto].
  - cbn [step]. unfold unmade. rewrite (proj2 (unknown_at _ _ _ F U)). eexists. split; [reflexivity|].
    apply (make_lemma m W v o true hs W' o F U); [destruct o; exact N|exact C|exact FG|reflexivity|discriminate].
  - (* Copy *)
    cbn [step]. unfold unmade, with_handle. destruct (unknown_at _ _ _ F U) as [UK UA]. rewrite UA.
    apply (f_agree _ _ F) in Iw as (h & Ih & T). rewrite (proj2 (at_in w _ (f_keys _ _ F) h) Ih).
    destruct (add_lemma m _ h (f_inv _ _ F) (in_map snd _ _ Ih)) as (m' & R & H & Nx & Dd & V). rewrite R. cbn [obind quietly].
    eexists. split; [reflexivity|].
    assert (HH : m_handles (set_handle v h m') = (v, h) :: m_handles m) by (cbn; rewrite H, without_absent by exact UK; reflexivity).
    apply (conclude m W _ hs None W' F C Logic.I).
    + rewrite HH. cbn. constructor; [exact UK|apply (f_keys _ _ F)].
    + rewrite HH. rewrite <- (without_absent v (m_handles m) UK). apply (agree_now _ (held_ W) _ _ _ t); [apply (f_agree _ _ F)|exact T|exact N].
    + rewrite HH. exact V.
    + rewrite HH. cbn [map snd]. left. split; [exact Dd|]. intros s (k & Ik & Ok). exists k. split; [right; exact Ik|exact Ok].
    + rewrite HH. cbn [map snd]. intros s (k & [<-|Ik] & Ok); left; [exists h; split; [apply (in_map snd _ _ Ih)|exact Ok]|exists k; auto].
    + intros x s Ix. apply N in Ix as [[-> E]|[_ Ix]]; [|left; exact Ix]. right. split; [|reflexivity]. intros Q.
      apply (f_lent _ _ F w s); [|exact Q]. apply (f_agree _ _ F). exists h. split; [exact Ih|congruence].
  - (* Destroy *)
    cbn [step]. destruct (known_at _ _ _ F K) as [h I].
    destruct (clear_lemma m W v h F I) as (m' & E & H & Nx & V & O). rewrite E. cbn [obind quietly].
    eexists. split; [reflexivity|].
    assert (HH : m_handles (drop_handle v m') = without v (m_handles m)).
    { unfold drop_handle. cbn [m_handles]. rewrite H. apply without_again, (f_keys _ _ F). }
    apply (conclude m W _ hs None W' F C Logic.I).
    + rewrite HH. apply without_keys, (f_keys _ _ F).
    + rewrite HH. apply (agree_gone _ (held_ W)); [apply (f_agree _ _ F)|exact N].
    + rewrite HH. exact V.
    + rewrite HH. exact O.
    + rewrite HH. intros s Os. left. apply owned_without in Os. exact Os.
    + intros x s Ix. apply N in Ix as [_ Ix]. left. exact Ix.
  - (* Assign *)
    cbn [step not_self] in *. unfold with_handle at 1. apply (f_agree _ _ F) in Iw as (h & Ih & T).
    rewrite (proj2 (at_in w _ (f_keys _ _ F) h) Ih).
    destruct (add_lemma m _ h (f_inv _ _ F) (in_map snd _ _ Ih)) as (m1 & R & H & Nx & Dd & V). rewrite R. cbn [obind].
    destruct (known_at _ _ _ F K) as [k Ik]. destruct (split_at v _ k (f_keys _ _ F) Ik) as (x & y & E & E').
    assert (V1 : inv (m_counters m1) (m_next m1) (m_deleted m1) ((h :: map snd x) ++ k :: map snd y)).
    { rewrite E, map_app in V. exact V. }
    destruct (remove_lemma m1 _ _ _ V1) as (m2 & R2 & H2 & N2 & V2 & O2).
    unfold clear, with_handle. rewrite H, (proj2 (at_in v _ (f_keys _ _ F) k) Ik), R2. cbn [obind].
    assert (HS : m_handles (set_handle v empty_handle m2) = (v, empty_handle) :: without v (m_handles m)) by (cbn; rewrite H2, H; reflexivity).
    rewrite HS.
    assert (Aw : at_ w ((v, empty_handle) :: without v (m_handles m)) = Some h).
    { apply at_in; [apply keys_now, (f_keys _ _ F)|]. right. apply without_in. auto. }
    rewrite Aw. cbn [obind quietly]. eexists. split; [reflexivity|].
    assert (HH : m_handles (set_handle v h (set_handle v empty_handle m2)) = (v, h) :: without v (m_handles m)).
    { change (m_handles (set_handle v h (set_handle v empty_handle m2))) with ((v, h) :: without v (m_handles (set_handle v empty_handle m2))).
      rewrite HS. f_equal. apply without_again, (f_keys _ _ F). }
    assert (M : map snd ((v, h) :: without v (m_handles m)) = (h :: map snd x) ++ map snd y) by (rewrite E'; cbn; rewrite map_app; reflexivity).
    assert (SUB : forall s, owned ((h :: map snd x) ++ k :: map snd y) s <-> owned (map snd (m_handles m)) s).
    { intros s. rewrite E at 1. rewrite map_app. cbn [map snd app]. split; intros (z & Iz & Oz).
      - destruct Iz as [<-|Iz]; [|exists z; auto]. exists h. split; [|exact Oz]. rewrite E in Ih. apply (in_map snd) in Ih. rewrite map_app in Ih. exact Ih.
      - exists z. split; [right; exact Iz|exact Oz]. }
    apply (conclude m W _ hs None W' F C Logic.I).
    + rewrite HH. apply keys_now, (f_keys _ _ F).
    + rewrite HH. apply (agree_now _ (held_ W) _ _ _ t); [apply (f_agree _ _ F)|exact T|exact N].
    + rewrite HH, M. exact V2.
    + rewrite HH, M. rewrite <- Dd. change (m_deleted (set_handle v h (set_handle v empty_handle m2))) with (m_deleted m2).
      destruct O2 as [[Q1 Q2]|(s & Q1 & Q2 & Q3 & Q4)].
      * left. split; [exact Q1|]. intros s Os. apply Q2, SUB, Os.
      * right. exists s. split; [exact Q1|]. split; [apply SUB, Q2|]. split; [exact Q3|]. intros r Nr Or. apply (Q4 r Nr), SUB, Or.
    + rewrite HH, M. intros s (z & Iz & Oz). left. apply SUB. exists z. split; [apply middle, Iz|exact Oz].
    + intros z s Iz. apply N in Iz as [[-> Q]|[_ Iz]]; [|left; exact Iz]. right. split; [|reflexivity]. intros G.
      apply (f_lent _ _ F w s); [|exact G]. apply (f_agree _ _ F). exists h. split; [exact Ih|congruence].
  - cbn [step]. destruct (reset_lemma m W v (Some s) false hs W' None F K N C Logic.I) as (m' & E & F'); [discriminate|intros r _ [= <-]; auto|].
    rewrite E. exists m'. split; [reflexivity|exact F'].
  - cbn [step]. destruct (reset_lemma m W v o true hs W' o F K) as (m' & E & F'); [destruct o; exact N|exact C|exact FG|reflexivity|discriminate|].
    rewrite E. exists m'. split; [reflexivity|exact F'].
  - cbn [step]. destruct (reset_lemma m W v None false hs W' None F K N C Logic.I) as (m' & E & F'); [discriminate|intros r _ [=]|].
    rewrite E. exists m'. split; [reflexivity|exact F'].
  - cbn [step]. unfold with_handle. apply (f_agree _ _ F) in I as (h & Ih & T). rewrite (proj2 (at_in v _ (f_keys _ _ F) h) Ih).
    unfold target_of in T. destruct (h_stream h) as [r|]; [destruct (h_owner h); discriminate T|]. eauto.
  - cbn [step]. unfold with_handle. assert (J := I). apply (f_agree _ _ F) in I as (h & Ih & E). rewrite (proj2 (at_in v _ (f_keys _ _ F) h) Ih).
    unfold target_of in E. destruct (h_stream h) as [r|] eqn:Hs; [|destruct T; congruence].
    assert (r = s) as -> by (destruct (h_owner h), T; congruence).
    destruct (existsb (Nat.eqb s) (m_deleted m)) eqn:X; [|eauto]. exfalso. apply existsb_eqb in X. destruct (h_owner h) eqn:Ow.
    + apply (i_alive _ _ _ _ (f_inv _ _ F) s); [|exact X]. exists h. split; [apply (in_map snd _ _ Ih)|split; assumption].
    + apply (f_lent _ _ F v s); [rewrite E; exact J|]. apply (f_dead _ _ F). rewrite <- (f_deleted _ _ F). exact X.
Qed.

Lemma start_fits : fits start nobody.
Proof.
  constructor; cbn.
  - constructor.
  - intros v t. split; [intros []|intros (h & [] & _)].
  - constructor; cbn; try tauto.
  - reflexivity.
  - tauto.
  - intros s (h & [] & _).
  - intros v s [].
Qed.

Lemma run_lemma : forall W ops W' l, happens W ops W' l -> Forall not_self ops -> forall m, fits m W ->
  exists m', run ops m = Val (m', l) /\ fits m' W'.
Proof.
  intros W ops W' l H. induction H as [W|W o W' a ops W'' l D H IH]; intros NS m F; [exists m; auto|].
  inversion NS as [|? ? N1 N2]. subst. destruct (step_lemma m W o W' a F D N1) as (m1 & E & F1).
  destruct (IH N2 m1 F1) as (m2 & E2 & F2). exists m2. split; [|exact F2]. cbn [run]. rewrite E. cbn [obind]. rewrite E2. reflexivity.
Qed.

(** * What the specification comes to *)
Record sound_world (W : world) : Prop := Sound {
  w_once : NoDup (destroyed W);
  w_gift : forall s, In s (destroyed W) -> In s (gifts W);
  w_held : forall v s, In (v, Given s) (held_ W) -> In s (gifts W) /\ ~ In s (destroyed W);
  w_none : forall s, In s (gifts W) -> In s (destroyed W) \/ exists v, In (v, Given s) (held_ W);
  w_lent : forall v s, In (v, Lent s) (held_ W) -> ~ In s (gifts W) }.
Lemma changes_sound : forall W hs o W', sound_world W -> changes W hs o W' -> fresh_gift o W ->
  (forall s, (exists v, In (v, Given s) hs) -> (exists v, In (v, Given s) (held_ W)) \/ o = Some s) ->
  (forall s, o = Some s -> exists v, In (v, Given s) hs) ->
  (forall v s, In (v, Lent s) hs -> In (v, Lent s) (held_ W) \/ (lends s W /\ o = None)) -> sound_world W'.
Proof.
  intros W hs o W' S (EH & EG & LG) FG N1 N2 NL.
  assert (G : forall s, In s (gifts W') <-> In s (gifts W) \/ o = Some s).
  { intros s. rewrite EG. destruct o as [r|]; cbn; split; [intros [->|]; auto|intros [|[= ->]]; auto|auto|intros [|[=]]; auto]. }
  assert (FO : forall s, o = Some s -> ~ In s (gifts W)) by (intros s ->; exact (proj1 FG)).
  constructor.
  - destruct LG as [[-> _]|(s & v & -> & I & _)]; [apply (w_once _ S)|]. constructor; [|apply (w_once _ S)]. exact (proj2 (w_held _ S v s I)).
  - intros s Is. apply G. left. destruct LG as [[E _]|(r & v & E & I & _)]; rewrite E in Is; [apply (w_gift _ S), Is|].
    destruct Is as [<-|Is]; [exact (proj1 (w_held _ S v r I))|apply (w_gift _ S), Is].
  - intros v s I. rewrite EH in I. destruct (N1 s (ex_intro _ v I)) as [[w Q]|Q].
    + destruct (w_held _ S w s Q) as [Q1 Q2]. split; [apply G; auto|]. destruct LG as [[-> _]|(r & x & -> & _ & NN & _)]; [exact Q2|].
      intros [<-|X]; [exact (NN v I)|exact (Q2 X)].
    + split; [apply G; auto|]. intros X. apply (FO s Q). destruct LG as [[E _]|(r & x & E & Ir & NN & _)]; rewrite E in X.
      * apply (w_gift _ S), X.
      * destruct X as [<-|X]; [exact (proj1 (w_held _ S x r Ir))|apply (w_gift _ S), X].
  - intros s I. apply G in I as [I|I].
    + destruct (w_none _ S s I) as [D|[v Iv]].
      * left. destruct LG as [[-> _]|(r & x & -> & _)]; [exact D|right; exact D].
      * destruct LG as [[_ K]|(r & x & -> & _ & _ & K)].
        -- right. rewrite EH. exact (K s v Iv).
        -- destruct (Nat.eq_dec s r) as [->|Nr]; [left; left; reflexivity|]. right. rewrite EH. exact (K s v Nr Iv).
    + right. rewrite EH. exact (N2 s I).
  - intros v s I. rewrite EH in I. rewrite G. intros [Q|Q].
    + destruct (NL v s I) as [L|[L _]]; [exact (w_lent _ S v s L Q)|exact (L Q)].
    + destruct (NL v s I) as [L|[_ E]]; [|congruence]. subst o. exact (proj2 FG v L).
Qed.
Lemma now_given v t hs hs' : now v t hs hs' -> forall s, (exists w, In (w, Given s) hs') -> (exists w, In (w, Given s) hs) \/ t = Given s.
Proof. intros N s [w I]. apply N in I as [[_ E]|[_ I]]; [right; congruence|left; eauto]. Qed.
Lemma now_lent v t hs hs' : now v t hs hs' -> forall w s, In (w, Lent s) hs' -> In (w, Lent s) hs \/ t = Lent s.
Proof. intros N w s I. apply N in I as [[_ E]|[_ I]]; [right; congruence|left; exact I]. Qed.
Lemma does_sound : forall W o W' a, sound_world W -> does W o W' a -> sound_world W'.
Proof.
  intros W o W' a S D. destruct D as [W v hs W' U N C|W v s hs W' U L N C|W v o hs W' U FG N C|W v w t hs W' U Iw N C|
    W v hs W' K N C|W v w t hs W' K Iw N C|W v s hs W' K L N C|W v o hs W' K FG N C|W v hs W' K N C|W v I|W v t s I T]; try exact S.
  - apply (changes_sound W hs None W' S C Logic.I); [|discriminate|].
    + intros s Q. destruct (now_given _ _ _ _ N s Q) as [|[=]]; auto.
    + intros w s Q. destruct (now_lent _ _ _ _ N w s Q) as [|[=]]; auto.
  - apply (changes_sound W hs None W' S C Logic.I); [|discriminate|].
    + intros r Q. destruct (now_given _ _ _ _ N r Q) as [|[=]]; auto.
    + intros w r Q. destruct (now_lent _ _ _ _ N w r Q) as [|[= ->]]; auto.
  - apply (changes_sound W hs o W' S C FG).
    + intros r Q. destruct (now_given _ _ _ _ N r Q) as [|E]; [auto|]. right. destruct o; [injection E as ->; reflexivity|discriminate E].
    + intros s ->. exists v. apply N. auto.
    + intros w r Q. destruct (now_lent _ _ _ _ N w r Q) as [|E]; [auto|destruct o; discriminate E].
  - apply (changes_sound W hs None W' S C Logic.I); [|discriminate|].
    + intros s Q. left. destruct (now_given _ _ _ _ N s Q) as [|E]; [auto|]. subst t. eauto.
    + intros x s Q. destruct (now_lent _ _ _ _ N x s Q) as [|E]; [auto|]. subst t. right. split; [exact (w_lent _ S w s Iw)|reflexivity].
  - apply (changes_sound W hs None W' S C Logic.I); [|discriminate|].
    + intros s [w Q]. apply N in Q as [_ Q]. eauto.
    + intros w s Q. apply N in Q as [_ Q]. auto.
  - apply (changes_sound W hs None W' S C Logic.I); [|discriminate|].
    + intros s Q. left. destruct (now_given _ _ _ _ N s Q) as [|E]; [auto|]. subst t. eauto.
    + intros x s Q. destruct (now_lent _ _ _ _ N x s Q) as [|E]; [auto|]. subst t. right. split; [exact (w_lent _ S w s Iw)|reflexivity].
  - apply (changes_sound W hs None W' S C Logic.I); [|discriminate|].
    + intros r Q. destruct (now_given _ _ _ _ N r Q) as [|[=]]; auto.
    + intros w r Q. destruct (now_lent _ _ _ _ N w r Q) as [|[= ->]]; auto.
  - apply (changes_sound W hs o W' S C FG).
    + intros r Q. destruct (now_given _ _ _ _ N r Q) as [|E]; [auto|]. right. destruct o; [injection E as ->; reflexivity|discriminate E].
    + intros s ->. exists v. apply N. auto.
    + intros w r Q. destruct (now_lent _ _ _ _ N w r Q) as [|E]; [auto|destruct o; discriminate E].
  - apply (changes_sound W hs None W' S C Logic.I); [|discriminate|].
    + intros s Q. destruct (now_given _ _ _ _ N s Q) as [|[=]]; auto.
    + intros w s Q. destruct (now_lent _ _ _ _ N w s Q) as [|[=]]; auto.
Qed.
Lemma happens_sound : forall W ops W' l, happens W ops W' l -> sound_world W -> sound_world W'.
Proof. intros W ops W' l H. induction H as [|W o W' a ops W'' l D H IH]; intros S; [exact S|]. apply IH, (does_sound _ _ _ _ S D). Qed.
Lemma nobody_sound : sound_world nobody.
Proof. constructor; cbn; try tauto. constructor. Qed.

Lemma follows_lemma : forall ops W l, happens nobody ops W l -> (forall v, ~ In (Assign v v) ops) ->
  exists m, run ops start = Val (m, l) /\ m_deleted m = destroyed W /\ (held_ W = [] -> forall c, m_counters m c = None).
Proof.
  intros ops W l H NS. destruct (run_lemma _ _ _ _ H) with (m := start) as (m & E & F).
  - apply Forall_forall. intros o I. destruct o; cbn; auto. intros ->. exact (NS _ I).
  - exact start_fits.
  - exists m. split; [exact E|]. split; [apply (f_deleted _ _ F)|]. intros HE c.
    rewrite (i_count _ _ _ _ (f_inv _ _ F) c). destruct (m_handles m) as [|[v h] r] eqn:Q; [reflexivity|].
    exfalso. assert (X : In (v, target_of h) (held_ W)) by (apply (f_agree _ _ F); exists h; rewrite Q; split; [left; reflexivity|reflexivity]).
    rewrite HE in X. exact X.
Qed.
Lemma once_lemma : forall ops W l, happens nobody ops W l ->
  NoDup (destroyed W) /\
  (forall s, In s (destroyed W) -> In s (gifts W)) /\
  (forall s, In s (gifts W) -> In s (destroyed W) <-> forall v, ~ In (v, Given s) (held_ W)) /\
  (forall v s, In (v, Lent s) (held_ W) -> ~ In s (destroyed W)).
Proof.
  intros ops W l H. pose proof (happens_sound _ _ _ _ H nobody_sound) as S. split; [apply (w_once _ S)|]. split; [apply (w_gift _ S)|]. split.
  - intros s G. split.
    + intros D v I. exact (proj2 (w_held _ S v s I) D).
    + intros N. destruct (w_none _ S s G) as [D|[v I]]; [exact D|exfalso; exact (N v I)].
  - intros v s I D. exact (w_lent _ S v s I (w_gift _ S s D)).
Qed.
