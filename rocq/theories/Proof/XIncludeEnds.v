(** Compiling a stylesheet with what it brings in comes to an end. *)
From Coq Require Import String.
From Verif.Model Require Import Base Attrs XSort XSheet Precedence XInclude.
From Verif.Spec Require Import XSheetSpec PrecedenceSpec XIncludeSpec.
From Verif.Proof Require Import Tac ContainersProof XSheetProof PrecedenceProof XIncludeProof.
From Coq Require Import List Lia.
Import ListNotations.
Open Scope Z_scope.

Section Ends.
  Context {scope : Type}.
  Notation tag := (tag (scope := scope)).
  Notation event := (event (scope := scope)).
  Notation heard := (heard (scope := scope)).
  Context {D : Type} (down : D -> precedence -> event -> res D) (begin : D -> D).
  Context (world : str -> option (document (scope := scope))) (absolute : str -> str -> str).
  Context (hrefs : list str) (finite : forall h, world h <> None -> In h hrefs).
  Notation state := (state (D := D)).
  Notation all_included := (all_included down absolute).
  Notation include := (include down begin world absolute).
  Notation unwind_imports := (unwind_imports down begin world absolute).
  Notation inc := (inc down begin world absolute).
  Definition valid (c : list str) : Prop := NoDup c /\ incl c hrefs.
  Lemma valid_length : forall c, valid c -> (length c <= length hrefs)%nat.
  Proof. intros c [N I]. apply NoDup_incl_length; assumption. Qed.
  Lemma valid_more : forall c h, valid c -> ~ In h c -> world h <> None -> valid (c ++ [h]).
  Proof.
    intros c h [N I] Nh W. split.
    - apply NoDup_rev in N. rewrite <- (rev_involutive (c ++ [h])). apply NoDup_rev. rewrite rev_app_distr. cbn [rev app]. constructor; [rewrite <- in_rev; exact Nh|exact N].
    - intros x Hx. apply in_app_or in Hx as [Hx|[<-|[]]]; [apply I; exact Hx|apply finite; exact W].
  Qed.

  (** What never changes, and what is only added to. *)
  Definition chain_of (i : str * precedence * list str) : list str := snd i.
  Definition longer (k : nat) (i : str * precedence * list str) : Prop := valid (chain_of i) /\ (k <= length (chain_of i))%nat.
  Definition keeps_ (s s' : state) : Prop := i_includes s' = i_includes s /\ exists new, i_imports s' = i_imports s ++ new /\ Forall (longer (length (i_includes s))) new.
  Lemma keeps_refl : forall s, keeps_ s s.
  Proof. intro s. split; [reflexivity|]. exists []. rewrite app_nil_r. split; [reflexivity|constructor]. Qed.
  Lemma keeps_trans : forall a b c, keeps_ a b -> keeps_ b c -> keeps_ a c.
  Proof.
    intros a b c (E & x & Ex & Fx) (F & y & Ey & Fy). split; [congruence|]. exists (x ++ y). split; [rewrite Ey, Ex, app_assoc; reflexivity|]. apply Forall_app. split; [exact Fx|]. rewrite E in Fy. exact Fy.
  Qed.
  (** An answer: not [Starved], and a state reached from [s]. *)
  Definition sane (s : state) (r : reply state) : Prop := r <> Starved /\ forall s', r = Done s' -> keeps_ s s'.
  Lemma sane_done : forall s s', keeps_ s s' -> sane s (Done s').
  Proof. intros s s' H. split; [discriminate|]. intros s2 E. injection E as <-. exact H. Qed.
  Lemma sane_fails : forall s, sane s Fails. Proof. intro s. split; discriminate. Qed.
  Lemma sane_wild : forall s, sane s Wild. Proof. intro s. split; discriminate. Qed.
  Lemma sane_next : forall s r k, sane s r -> (forall s', keeps_ s s' -> r = Done s' -> sane s' (k s')) -> sane s (next r k).
  Proof.
    intros s r k [N H] K. destruct r as [s'| | |]; cbn [next]; try (split; discriminate); [|congruence]. specialize (H s' eq_refl). destruct (K s' H eq_refl) as [N' H'].
    split; [exact N'|]. intros s2 E. eapply keeps_trans; [exact H|]. apply H'. exact E.
  Qed.
  Lemma same_keeps : forall s s' : state, i_includes s' = i_includes s -> i_imports s' = i_imports s -> keeps_ s s'.
  Proof. intros s s' E F. split; [exact E|]. exists []. rewrite app_nil_r. split; [exact F|constructor]. Qed.
  Lemma sane_deliver : forall e s, sane s (deliver down e s).
  Proof. intros e s. unfold deliver. destruct (down _ _ _); try apply sane_fails; try apply sane_wild. apply sane_done, same_keeps; reflexivity. Qed.
  Lemma sane_flush : forall s, sane s (flush down s).
  Proof.
    intro s. unfold flush. destruct (empty _); [apply sane_done, keeps_refl|]. destruct (i_plugged s).
    - destruct (_ && _); [apply sane_fails|]. apply sane_done, same_keeps; reflexivity.
    - apply sane_next; [apply sane_deliver|]. intros s' _ _. apply sane_done, same_keeps; reflexivity.
  Qed.
  Lemma sane_plug : forall s b r, sane (plug b s) r -> sane s r.
  Proof. intros s b r H. exact H. Qed.
  Lemma sane_pass : forall e s, sane s (pass down e s).
  Proof. intros e s. unfold pass. apply sane_next; [apply sane_flush|]. intros s' _ _. apply sane_deliver. Qed.
  Lemma sane_start : forall g s, valid (i_includes s) -> sane s (include_start down absolute g s).
  Proof.
    intros g s V. unfold include_start. destruct (i_closed s); [apply sane_fails|]. destruct (_ && _).
    - unfold validate_href. destruct (gather _ _); [|apply sane_fails]. cbn [next]. apply sane_done. split; [reflexivity|]. eexists [_]. split; [reflexivity|]. constructor; [|constructor]. split; [exact V|]. apply Nat.le_refl.
    - destruct (_ && _).
      + unfold validate_href. destruct (gather _ _); [|apply sane_fails]. cbn [next]. apply sane_done, same_keeps; reflexivity.
      + apply (sane_plug s false). apply sane_pass.
  Qed.
  Lemma sane_end : forall f u l s, (forall h s', i_includes s' = i_includes s -> sane s' (f h s')) -> sane s (include_end down f u l s).
  Proof.
    intros f u l s F. unfold include_end. destruct (_ && _); [|apply (sane_plug s false), sane_pass]. apply sane_next.
    - destruct (str_eqb l (ascii_str "include")); [|apply sane_done, same_keeps; reflexivity]. destruct (i_hrefs (close false s)) eqn:Eh; [apply sane_wild|].
      apply sane_next.
      + refine (_ : sane (close false s) _). apply F. reflexivity.
      + intros s' _ _. apply sane_done, same_keeps; reflexivity.
    - intros s' _ _. apply sane_done. destruct (empty _); [apply same_keeps; reflexivity|apply keeps_refl].
  Qed.
  Lemma sane_all : forall f l s, (forall h s', i_includes s' = i_includes s -> sane s' (f h s')) -> valid (i_includes s) -> sane s (all_included f l s).
  Proof.
    intros f l. induction l as [|e l IH]; intros s F V; [apply sane_done, keeps_refl|]. cbn [XInclude.all_included]. apply sane_next.
    - destruct e as [g|u lo|t]; cbn [included].
      + apply sane_start. exact V.
      + apply sane_end. exact F.
      + unfold include_text. destruct (_ && _); [apply sane_fails|apply sane_done, same_keeps; reflexivity].
    - intros s' [E _] _. apply IH; rewrite E; assumption.
  Qed.
  (** The imports that a document adds have a longer chain. *)
  Definition strictly (s : state) (r : reply state) : Prop :=
    r <> Starved /\ forall s', r = Done s' -> i_includes s' = i_includes s /\ exists new, i_imports s' = i_imports s ++ new /\ Forall (longer (S (length (i_includes s)))) new.
  Lemma strictly_sane : forall s r, strictly s r -> sane s r.
  Proof.
    intros s r [N H]. split; [exact N|]. intros s' E. destruct (H s' E) as (A & new & B & F). split; [exact A|]. exists new. split; [exact B|].
    eapply Forall_impl; [|exact F]. intros i [Vi Li]. split; [exact Vi|lia].
  Qed.
  Lemma strictly_include : forall n import p k h s, valid (i_includes s) -> (length hrefs - length (i_includes s) < n)%nat -> strictly s (include n import p k h s).
  Proof.
    induction n as [|n IH]; intros import p k h s V L; [lia|]. cbn [XInclude.include]. destruct (existsb _ _) eqn:Ex; [split; discriminate|]. destruct (world h) as [doc|] eqn:W; [|split; discriminate].
    assert (Nh : ~ In h (i_includes s)).
    { intro I. assert (existsb (str_eqb h) (i_includes s) = true) by (apply existsb_exists; exists h; split; [exact I|apply seq_refl]). congruence. }
    assert (V' : valid (i_includes s ++ [h])) by (apply valid_more; [exact V|exact Nh|congruence]).
    set (s2 := set_down _ _).
    assert (A : sane s2 (all_included (fun href s => include n false (i_prec s) (i_kids s) href s) (d_events doc) s2)).
    { apply sane_all; [|exact V']. intros h' s' E. apply strictly_sane, IH; rewrite E; cbn [s2 set_down plug set_precedence set_base set_includes i_includes]; [exact V'|].
      rewrite app_length. cbn [length]. pose proof (valid_length _ V') as Q. rewrite app_length in Q. cbn [length] in Q. lia. }
    destruct A as [N A]. destruct (all_included _ (d_events doc) s2) as [s3| | |]; cbn [next]; try (split; discriminate); [|congruence].
    destruct (d_ok doc); [|destruct (moved _ _ _); split; discriminate].
    destruct (A s3 eq_refl) as (E & new & En & Fn). split; [discriminate|]. intros s4 E4. injection E4 as <-. split.
    - cbn [set_base set_includes i_includes]. rewrite E. cbn [s2 set_down plug set_precedence set_base set_includes i_includes]. apply removelast_last.
    - exists new. split; [exact En|]. eapply Forall_impl; [|exact Fn]. intros i [Vi Li]. split; [exact Vi|]. cbn [s2 set_down plug set_precedence set_base set_includes i_includes] in Li. rewrite app_length in Li. cbn [length] in Li. cbn [set_base set_includes i_includes] in *. lia.
  Qed.

  (** * More fuel changes nothing *)
  Lemma next_mono : forall A B (r r' : reply A) (k k' : A -> reply B), (r <> Starved -> r' = r) -> (forall a, k a <> Starved -> k' a = k a) -> next r k <> Starved -> next r' k' = next r k.
  Proof. intros A B [a| | |] r' k k' H K N; cbn [next] in *; try (rewrite H by discriminate; reflexivity); [|congruence]. rewrite H by discriminate. apply K. exact N. Qed.
  Lemma all_mono : forall f f' l s, (forall h s, f h s <> Starved -> f' h s = f h s) -> all_included f l s <> Starved -> all_included f' l s = all_included f l s.
  Proof.
    intros f f' l. induction l as [|e l IH]; intros s F N; [reflexivity|]. cbn [XInclude.all_included] in *. revert N. apply next_mono; [|intros a; apply IH; exact F].
    destruct e as [g|u lo|t]; cbn [included]; try reflexivity. unfold include_end. destruct (_ && _); [|reflexivity].
    apply next_mono; [|reflexivity]. destruct (str_eqb lo (ascii_str "include")); [|reflexivity]. destruct (i_hrefs (close false s)); [reflexivity|]. apply next_mono; [apply F|reflexivity].
  Qed.
  Lemma include_mono : forall n m import p k h s, (n <= m)%nat -> include n import p k h s <> Starved -> include m import p k h s = include n import p k h s.
  Proof.
    induction n as [|n IH]; intros m import p k h s L N; [cbn in N; congruence|]. destruct m as [|m]; [lia|]. cbn [XInclude.include] in *.
    destruct (existsb _ _); [reflexivity|]. destruct (world h) as [doc|]; [|reflexivity]. revert N. apply next_mono; [|reflexivity].
    apply all_mono. intros h' s' N'. apply IH; [lia|exact N'].
  Qed.

  (** * The imports *)
  Definition enough : nat := S (length hrefs).
  Lemma sane_import : forall n p h s, valid (i_includes s) -> (enough <= n)%nat -> strictly s (include n true p 0 h s) /\ include n true p 0 h s = include enough true p 0 h s.
  Proof.
    intros n p h s V L. assert (Q : (length hrefs - length (i_includes s) < enough)%nat) by (unfold enough; lia). split; [apply strictly_include; [exact V|lia]|].
    apply include_mono; [exact L|]. apply (strictly_include enough true p 0 h s V Q).
  Qed.
  Lemma unwind_last : forall n s old h p c, i_imports s = old ++ [(h, p, c)] ->
    unwind_imports (S n) s = next (include (S n) true p 0 h (set_includes c s)) (fun s => unwind_imports n (set_imports (firstn (length old) (i_imports s) ++ skipn (S (length old)) (i_imports s)) s)).
  Proof.
    intros n s old h p c E. cbn [XInclude.unwind_imports]. rewrite E, app_length. cbn [length]. replace (length old + 1 - 1)%nat with (length old) by lia. rewrite nth_error_app2, Nat.sub_diag by lia. cbn [nth_error]. destruct old; reflexivity.
  Qed.
  Lemma unwound : forall k s old new, i_imports s = old ++ new -> Forall (fun i => valid (chain_of i) /\ (length hrefs - length (chain_of i) < k)%nat) new ->
    exists m, (forall j, (enough <= j)%nat -> unwind_imports (m + j) s = Fails \/ unwind_imports (m + j) s = Wild) \/
      exists s', i_imports s' = old /\ forall j, (enough <= j)%nat -> unwind_imports (m + j) s = unwind_imports j s'.
  Proof.
    induction k as [|k IH].
    - intros s old new E F. destruct new as [|x new]; [|apply Forall_inv in F; lia]. exists O. right. exists s. rewrite app_nil_r in E. split; [exact E|reflexivity].
    - intros s old new. revert s old. induction new as [|[[h p] c] new IHn] using rev_ind; intros s old E F.
      + exists O. right. exists s. rewrite app_nil_r in E. split; [exact E|reflexivity].
      + apply Forall_app in F as [F1 F2]. apply Forall_inv in F2 as [Vc Lc]. cbn [chain_of snd] in Vc, Lc. rewrite app_assoc in E.
        pose proof (fun n => sane_import n p h (set_includes c s) Vc) as S_.
        destruct (S_ enough ltac:(lia)) as [[N A] _].
        destruct (include enough true p 0 h (set_includes c s)) as [s1| | |] eqn:Ei.
        * destruct (A s1 eq_refl) as (Ec & add & Ea & Fa). cbn [set_includes i_includes i_imports] in Ec, Ea. rewrite E in Ea.
          set (s2 := set_imports (firstn (length (old ++ new)) (i_imports s1) ++ skipn (S (length (old ++ new))) (i_imports s1)) s1).
          assert (E2 : i_imports s2 = (old ++ new) ++ add).
          { cbn [s2 set_imports i_imports]. rewrite Ea, <- app_assoc. rewrite firstn_app, Nat.sub_diag, firstn_all. cbn [firstn]. rewrite app_nil_r. f_equal.
            rewrite skipn_app, skipn_all2 by lia. replace (S (length (old ++ new)) - length (old ++ new))%nat with 1%nat by lia. reflexivity. }
          (* the imports that were added have longer chains *)
          assert (Fl : Forall (fun i => valid (chain_of i) /\ (length hrefs - length (chain_of i) < k)%nat) add).
          { eapply Forall_impl; [|exact Fa]. intros i [Vi Li]. cbn [set_includes i_includes] in Li. pose proof (valid_length _ Vi). split; [exact Vi|lia]. }
          destruct (IH s2 (old ++ new) add E2 Fl) as (m1 & [Bad|(s3 & E3 & R3)]).
          -- exists (S m1). left. intros j Hj. cbn [plus]. rewrite (unwind_last (m1 + j) s (old ++ new) h p c E).
             destruct (S_ (S (m1 + j)) ltac:(lia)) as [_ ->]. cbn [next]. apply Bad. exact Hj.
          -- destruct (IHn s3 old E3 F1) as (m2 & [Bad|(s4 & E4 & R4)]).
             ++ exists (S (m1 + m2)). left. intros j Hj. cbn [plus]. rewrite (unwind_last (m1 + m2 + j) s (old ++ new) h p c E).
                destruct (S_ (S (m1 + m2 + j)) ltac:(lia)) as [_ ->]. cbn [next]. fold s2. rewrite <- Nat.add_assoc, R3 by lia. apply Bad. exact Hj.
             ++ exists (S (m1 + m2)). right. exists s4. split; [exact E4|]. intros j Hj. cbn [plus]. rewrite (unwind_last (m1 + m2 + j) s (old ++ new) h p c E).
                destruct (S_ (S (m1 + m2 + j)) ltac:(lia)) as [_ ->]. cbn [next]. fold s2. rewrite <- Nat.add_assoc, R3 by lia. apply R4. exact Hj.
        * exists 1%nat. left. intros j Hj. left. cbn [plus]. rewrite (unwind_last j s (old ++ new) h p c E). destruct (S_ (S j) ltac:(lia)) as [_ ->]. reflexivity.
        * exists 1%nat. left. intros j Hj. right. cbn [plus]. rewrite (unwind_last j s (old ++ new) h p c E). destruct (S_ (S j) ltac:(lia)) as [_ ->]. reflexivity.
        * congruence.
  Qed.
  Lemma unwind_ends : forall s, Forall (longer 0) (i_imports s) -> exists n, forall m, (n <= m)%nat -> unwind_imports m s <> Starved.
  Proof.
    intros s F. destruct (unwound enough s [] (i_imports s) eq_refl) as (m & [B|(s' & E & R)]).
    - eapply Forall_impl; [|exact F]. intros i [Vi _]. split; [exact Vi|unfold enough; lia].
    - exists (m + enough)%nat. intros j Hj. replace j with (m + (j - m))%nat by lia. destruct (B (j - m)%nat ltac:(lia)) as [-> | ->]; discriminate.
    - exists (m + enough)%nat. intros j Hj. replace j with (m + (j - m))%nat by lia. rewrite R by lia. destruct (j - m)%nat; cbn [XInclude.unwind_imports]; rewrite E; discriminate.
  Qed.

  (** * The main document *)
  Lemma main_sane : forall n l s, (enough <= n)%nat -> i_includes s = [] -> sane s (main_events down begin world absolute n l s).
  Proof.
    intros n l. induction l as [|e l IH]; intros s L I; [apply sane_done, keeps_refl|]. cbn [XInclude.main_events]. apply sane_next.
    - assert (V : forall s' : state, i_includes s' = i_includes s -> valid (i_includes s')).
      { intros s' Es. rewrite Es, I. split; [constructor|]. intros x []. }
      destruct e as [g|u lo|t]; cbn [main_event].
      + apply sane_next; [apply sane_flush|]. intros s' [Es _] _. destruct (i_plugged s'); [apply sane_start, V, Es|].
        destruct (down (i_down s') (i_prec s') (Start g)); [apply sane_done, same_keeps; reflexivity|apply sane_fails|apply sane_wild|apply (sane_start g (plug true s')), V, Es].
      + apply sane_next; [apply sane_flush|]. intros s' [Es _] _. destruct (i_plugged s'); [|apply sane_deliver].
        apply sane_end. intros h s2 E2. apply strictly_sane, strictly_include; [apply V; congruence|unfold enough in L; lia].
      + apply sane_done, same_keeps; reflexivity.
    - intros s' [E _] _. apply IH; [exact L|congruence].
  Qed.
  Lemma main_mono : forall n m l s, (n <= m)%nat -> main_events down begin world absolute n l s <> Starved -> main_events down begin world absolute m l s = main_events down begin world absolute n l s.
  Proof.
    intros n m l. induction l as [|e l IH]; intros s L N; [reflexivity|]. cbn [XInclude.main_events] in *. revert N. apply next_mono; [|intros a; apply IH; exact L].
    destruct e as [g|u lo|t]; cbn [main_event]; try reflexivity. apply next_mono; [reflexivity|]. intros a. destruct (i_plugged a); [|reflexivity].
    unfold include_end. destruct (_ && _); [|reflexivity].
    apply next_mono; [|reflexivity]. destruct (str_eqb lo (ascii_str "include")); [|reflexivity]. destruct (i_hrefs (close false a)); [reflexivity|]. apply next_mono; [|reflexivity].
    apply include_mono. exact L.
  Qed.
  Theorem ends : forall base main d, exists n, forall m, (n <= m)%nat -> compile_all down begin world absolute m base main d <> Starved.
  Proof.
    intros base main d. pose proof (main_sane enough (d_events main) (start_state begin base d) (Nat.le_refl _) eq_refl) as [N K].
    assert (M : forall m, (enough <= m)%nat -> main_events down begin world absolute m (d_events main) (start_state begin base d) = main_events down begin world absolute enough (d_events main) (start_state begin base d)).
    { intros m L. apply main_mono; assumption. }
    unfold compile_all. destruct (main_events down begin world absolute enough (d_events main) (start_state begin base d)) as [s| | |] eqn:Es; try (exists enough; intros m L; rewrite M by exact L; discriminate); [|congruence].
    destruct (K s eq_refl) as (_ & new & Ei & Fi). cbn [start_state i_imports app] in Ei.
    destruct (unwind_ends s) as (n & Hn). { rewrite Ei. exact Fi. }
    exists (n + enough)%nat. intros m L. rewrite M by lia. cbn [next]. destruct (i_plugged s); [discriminate|].
    specialize (Hn m ltac:(lia)). destruct (unwind_imports m s); cbn [next]; congruence.
  Qed.
End Ends.
