From Coq Require Import Lia.
From Verif.Proof Require Import TemplateProof.
From Verif.Model Require Import Base XNode XOutput Precedence Template XRun.
From Verif.Spec Require Import PrecedenceSpec TemplateSpec XRunSpec.
From Coq Require Import List.
Import ListNotations.
Open Scope Z_scope.

(** * Copies *)
Fixpoint tree_size (t : xtree) : nat :=
  match t with Xt _ a k => S (list_sum (map tree_size a) + list_sum (map tree_size k)) end.
Lemma copy_copied : forall n t, (tree_size t < n)%nat -> copied t (copy_tree t).
Proof.
  induction n as [|n IH]; [lia|]. intros [i a k] H. cbn [tree_size] in H.
  assert (All : forall l, (list_sum (map tree_size l) < n)%nat -> copied_all l (concat (map copy_tree l))).
  { induction l as [|t l IHl]; intros Hl; cbn [map concat]; [constructor|]. unfold list_sum in Hl. cbn [map fold_right] in Hl. fold (list_sum (map tree_size l)) in Hl.
    constructor; [apply IH; lia|apply IHl; lia]. }
  assert (AK : copied_all (a ++ k) (concat (map copy_tree a) ++ concat (map copy_tree k))).
  { rewrite <- concat_app, <- map_app. apply All. rewrite map_app, list_sum_app. lia. }
  cbn [copy_tree]. destruct (i_kind i) eqn:Ki; try (constructor; solve [assumption|auto]).
Qed.
Lemma nodes_copied_lemma : forall f l, (forall x, In x l -> tree_at f x <> None) -> nodes_copied f l (concat (map (copy_node f) l)).
Proof.
  intros f l; induction l as [|x l IH]; intros H; cbn [map concat]; [constructor|].
  unfold copy_node at 1. destruct (tree_at f x) as [t|] eqn:E; [|exfalso; exact (H x (or_introl eq_refl) E)].
  econstructor; [exact E|apply (copy_copied (S (tree_size t))); lia|apply IH; intros y I; apply H; right; exact I].
Qed.

(** * Children *)
Lemma kids_children : forall f x t, plain f -> tree_at f x = Some t -> t_kind t <> Xattribute -> kid_nodes f x = children f x.
Proof.
  intros f x t P E A. destruct (P x t E) as [P1 P2]. unfold kid_nodes, children. rewrite E.
  destruct (has_children t) eqn:Hc.
  - specialize (P1 eq_refl). clear P2 Hc A E. revert P1. generalize 0%nat as n, (t_kids t) as l. intros n l; revert n.
    induction l as [|u l IH]; intros n P1; [reflexivity|]. cbn [forallb] in P1. apply andb_prop in P1. destruct P1 as [U P1].
    cbn [length seq map combine filter snd]. rewrite U. cbn [map fst]. f_equal. apply IH. exact P1.
  - rewrite (P2 eq_refl A). reflexivity.
Qed.
Lemma kids_proper : forall f attributes x t, plain f -> tree_at f x = Some t -> t_kind t <> Xattribute -> Forall (proper f attributes) (kid_nodes f x).
Proof.
  intros f at_ x t P E A. destruct (P x t E) as [P1 P2]. apply Forall_forall. intros y I. unfold kid_nodes in I. rewrite E in I.
  apply in_map_iff in I. destruct I as (i & <- & I). apply in_seq in I.
  destruct (has_children t) eqn:Hc; [|rewrite (P2 eq_refl A) in I; cbn in I; lia].
  specialize (P1 eq_refl). destruct (nth_error (t_kids t) i) as [u|] eqn:Eu; [|apply nth_error_None in Eu; lia].
  exists u. unfold tree_at in *. cbn [fst snd subtree]. rewrite E. split; [exact Eu|].
  assert (U : is_child u = true) by (rewrite forallb_forall in P1; apply P1; eapply nth_error_In; exact Eu).
  unfold is_child in U. destruct (t_kind u); try discriminate U; repeat split; discriminate.
Qed.

(** * Execution *)
Definition agrees (e : place) (s : state) : Prop :=
  s_current s = at_node e /\ s_position s = at_position e /\ forall a m, at_rule e = Some (a, m) -> s_mode s = m /\ s_generation s = code a.
Lemma seen {A} : forall (g : expression A) e s, s_last s = at_size e -> agrees e s \/ unmoved g -> g (look (at_node e) s) = g (sight e).
Proof.
  intros g e s L [(C & P & _)|U].
  - unfold look, sight. rewrite C, P, L. reflexivity.
  - apply U; [reflexivity|exact L].
Qed.
Lemma state_eta : forall s, set_last (s_last s) s = s.
Proof. intros []. reflexivity. Qed.
Lemma after_done : forall r k out s, after r k = Done out s -> exists o1 s1 o2, r = Done o1 s1 /\ k s1 = Done o2 s /\ out = o1 ++ o2.
Proof.
  intros [o1 s1| |] k out s H; cbn [after] in H; try discriminate. destruct (k s1) as [o2 s2| |] eqn:E; try discriminate.
  injection H as <- <-. exists o1, s1, o2. auto.
Qed.
Lemma wrap_done : forall g r out s, wrap g r = Done out s -> exists o1, r = Done o1 s /\ out = g o1.
Proof. intros g [o1 s1| |] out s H; try discriminate. injection H as <- <-. exists o1. auto. Qed.
Lemma restore_done : forall n r out s, restore_last n r = Done out s -> exists s1, r = Done out s1 /\ s = set_last n s1.
Proof. intros n [o1 s1| |] out s H; try discriminate. injection H as <- <-. exists s1. auto. Qed.
Lemma value_done {A} : forall (o : option A) k out s, with_value o k = Done out s -> exists v, o = Some v /\ k v = Done out s.
Proof. intros [v|] k out s H; [|discriminate]. exists v. auto. Qed.

Section Run.
Context (f : forest) (h : sheet) (sheets : list (address * list template)) (attributes : bool).
Notation body := (h_body h).
Context (Plain : plain f) (Tidy : tidy_sheet f attributes sheets body)
  (Frozen : forall mode x, match choose (h_rules h) frozen_precedence mode x with
    | Some (t, p) => exists a, p = code a /\ applied sheets (fun _ => True) mode x t a
    | None => none_applicable sheets (fun _ => True) mode x end)
  (Imported : forall g mode x, match choose (h_rules h) (code g) mode x with
    | Some (t, p) => exists a, p = code a /\ applied sheets (imports_from g) mode x t a
    | None => none_applicable sheets (imports_from g) mode x end)
  (Called : forall name t, name <> [] -> called (h_rules h) name = Some t -> named sheets name t).

Definition one_ok (n : nat) : Prop := forall k e a s out s', perform f h n k (at_node e) a s = Done out s' ->
  tidy f attributes a -> proper f attributes (at_node e) -> s_last s = at_size e -> agrees e s \/ unaffected a -> (at_rule e = None -> no_imports a = true) ->
  gives f sheets body k e a out /\ s_last s' = s_last s /\ (moves a = false -> s' = s).
Definition all_ok (n : nat) : Prop := forall k e l s out s', perform_all f h n k (at_node e) l s = Done out s' ->
  in_order (tidy f attributes) l -> proper f attributes (at_node e) -> s_last s = at_size e -> agrees e s \/ each unaffected l -> (at_rule e = None -> forallb no_imports l = true) ->
  gives_all f sheets body k e l out /\ s_last s' = s_last s /\ (existsb moves l = false -> s' = s).
Definition each_ok (n : nat) : Prop := forall k l nodes p s out s', perform_each f h n k l nodes p s = Done out s' ->
  in_order (tidy f attributes) l -> forallb no_imports l = true -> Forall (proper f attributes) nodes ->
  gives_each f sheets body k l (s_last s) p nodes out /\ s_last s' = s_last s.
Definition applies_ok (n : nat) : Prop := forall k mode nodes p s out s', apply_each f h n k mode nodes p s = Done out s' ->
  Forall (proper f attributes) nodes -> applies_each f sheets body k mode (s_last s) p nodes out /\ s_last s' = s_last s.
Definition rule_ok (n : nat) : Prop := forall k generation (scope : address -> Prop) mode s out s',
  apply_rule f h n k generation mode (s_current s) s = Done out s' ->
  (forall mode x, match choose (h_rules h) generation mode x with
    | Some (t, p) => exists a, p = code a /\ applied sheets scope mode x t a
    | None => none_applicable sheets scope mode x end) ->
  proper f attributes (s_current s) -> applies f sheets body k scope mode (s_current s) (s_position s) (s_last s) out /\ s_last s' = s_last s.

Lemma choose_when_ok : forall e s whens otherwise l, s_last s = at_size e -> choose_when (look (at_node e) s) whens otherwise = Some l ->
  agrees e s \/ (forall b, In b whens -> unmoved (fst b)) ->
  (exists before g later, whens = before ++ (g, l) :: later /\ (forall b, In b before -> fst b (sight e) = Some false) /\ g (sight e) = Some true) \/
  (l = otherwise /\ forall b, In b whens -> fst b (sight e) = Some false).
Proof.
  intros e s whens otherwise l L. induction whens as [|[g b] whens IH]; intros H U; cbn [choose_when] in H.
  - injection H as <-. right. split; [reflexivity|intros b []].
  - rewrite (seen g e s L) in H by (destruct U as [U|U]; [left; exact U|right; exact (U (g, b) (or_introl eq_refl))]).
    destruct (g (sight e)) as [[|]|] eqn:G; [| |discriminate].
    + injection H as <-. left. exists [], g, whens. repeat split; [intros ? []|exact G].
    + destruct IH as [(before & g' & later & -> & B & T)|(-> & B)]; [exact H|destruct U as [U|U]; [left; exact U|right; intros c I; apply U; right; exact I]| |].
      * left. exists ((g, b) :: before), g', later. repeat split; [|exact T]. intros c [<-|I]; [exact G|apply B; exact I].
      * right. split; [reflexivity|]. intros c [<-|I]; [exact G|apply B; exact I].
Qed.

Lemma in_whens_tidy : forall whens g l, (fix go (l : list (expression bool * list action)) : Prop :=
  match l with [] => True | (_, b) :: l => in_order (tidy f attributes) b /\ go l end) whens -> In (g, l) whens -> in_order (tidy f attributes) l.
Proof.
  induction whens as [|[g0 b] whens IH]; [intros g l T []|]. intros g l T I. destruct I as [E|I]; destruct T as [T1 T2].
  - injection E as _ <-. exact T1.
  - eapply IH; [exact T2|exact I].
Qed.
Lemma in_whens_unaffected : forall whens g l, (fix go (l : list (expression bool * list action)) : Prop :=
  match l with [] => True | (g, b) :: l => (unmoved g /\ each unaffected b) /\ go l end) whens -> In (g, l) whens -> unmoved g /\ each unaffected l.
Proof.
  induction whens as [|[g0 b] whens IH]; [intros g l T []|]. intros g l T I. destruct I as [E|I]; destruct T as [T1 T2].
  - injection E as <- <-. exact T1.
  - eapply IH; [exact T2|exact I].
Qed.

Lemma run_ok : forall n, one_ok n /\ all_ok n /\ each_ok n /\ applies_ok n /\ rule_ok n.
Proof.
  induction n as [|n (One & All & Each & Appl & Rule)].
  { unfold one_ok, all_ok, each_ok, applies_ok, rule_ok. repeat apply conj; intros; discriminate. }
  split; [|split; [|split; [|split]]].
  - (* perform *)
    intros k e a s out s' H T P L A NI. destruct a as [d t|d g|g l|g l|l|g l|g l|ws ot|g l|[g|] m| |name|l|g|te l]; cbn [perform] in H.
    + injection H as <- <-. split; [constructor|auto].
    + apply value_done in H. destruct H as (t & G & H). rewrite (seen g e s L A) in G. injection H as <- <-. split; [constructor; exact G|auto].
    + apply value_done in H. destruct H as ([[p lo] u] & G & H). rewrite (seen g e s L) in G by (destruct A as [A|A]; [left; exact A|right; exact (proj1 A)]).
      unfold start in H. destruct (k_inside k) eqn:K.
      * injection H as <- <-. split; [|auto]. econstructor; eassumption.
      * apply wrap_done in H. destruct H as (o1 & H & ->).
        destruct (All k e l s o1 s' H T P L) as (Gi & La & Mo); [destruct A as [A|A]; [left; exact A|right; exact (proj2 A)]|exact NI|].
        split; [constructor; assumption|]. split; [exact La|exact Mo].
    + apply value_done in H. destruct H as ([[p lo] u] & G & H). rewrite (seen g e s L) in G by (destruct A as [A|A]; [left; exact A|right; exact (proj1 A)]).
      apply wrap_done in H. destruct H as (o1 & H & ->).
      destruct (All (inside k) e l s o1 s' H T P L) as (Gi & La & Mo); [destruct A as [A|A]; [left; exact A|right; exact (proj2 A)]|exact NI|].
      split; [constructor; assumption|]. split; [exact La|exact Mo].
    + apply wrap_done in H. destruct H as (o1 & H & ->).
      destruct (All (inside k) e l s o1 s' H T P L A NI) as (Gi & La & Mo). split; [constructor; assumption|]. split; [exact La|exact Mo].
    + apply value_done in H. destruct H as (t & G & H). rewrite (seen g e s L) in G by (destruct A as [A|A]; [left; exact A|right; exact (proj1 A)]).
      apply wrap_done in H. destruct H as (o1 & H & ->).
      destruct (All (inside k) e l s o1 s' H T P L) as (Gi & La & Mo); [destruct A as [A|A]; [left; exact A|right; exact (proj2 A)]|exact NI|].
      split; [constructor; assumption|]. split; [exact La|exact Mo].
    + apply value_done in H. destruct H as (b & G & H). rewrite (seen g e s L) in G by (destruct A as [A|A]; [left; exact A|right; exact (proj1 A)]).
      destruct b.
      * destruct (All k e l s out s' H T P L) as (Gi & La & Mo); [destruct A as [A|A]; [left; exact A|right; exact (proj2 A)]|exact NI|].
        split; [constructor; assumption|]. split; [exact La|exact Mo].
      * injection H as <- <-. split; [apply G_if_not; exact G|auto].
    + apply value_done in H. destruct H as (l & C & H). destruct T as [T1 T2].
      destruct (choose_when_ok e s ws ot l L C) as [(before & g & later & Ew & B & G)|(El & B)].
      { destruct A as [A|A]; [left; exact A|right]. intros [g b] I. exact (proj1 (in_whens_unaffected ws g b (proj1 A) I)). }
      * assert (I : In (g, l) ws) by (rewrite Ew; apply in_or_app; right; left; reflexivity).
        destruct (All k e l s out s' H) as (Gi & La & Mo); [exact (in_whens_tidy ws g l T1 I)|exact P|exact L| | |].
        { destruct A as [A|A]; [left; exact A|right; exact (proj2 (in_whens_unaffected ws g l (proj1 A) I))]. }
        { intros R. specialize (NI R). cbn [no_imports] in NI. apply andb_prop in NI. destruct NI as [NI _]. rewrite forallb_forall in NI. exact (NI (g, l) I). }
        split; [rewrite Ew; econstructor; eassumption|]. split; [exact La|]. intros M. apply Mo. cbn [moves] in M. apply orb_false_elim in M. destruct M as [M _].
        destruct (existsb moves l) eqn:X; [|reflexivity]. assert (Y : existsb (fun b => existsb moves (snd b)) ws = true) by (apply existsb_exists; exists (g, l); split; [exact I|exact X]).
        rewrite Y in M. discriminate.
      * subst l. destruct (All k e ot s out s' H T2 P L) as (Gi & La & Mo).
        { destruct A as [A|A]; [left; exact A|right; exact (proj2 A)]. }
        { intros R. specialize (NI R). cbn [no_imports] in NI. apply andb_prop in NI. exact (proj2 NI). }
        split; [apply G_otherwise; assumption|]. split; [exact La|]. intros M. apply Mo. cbn [moves] in M. apply orb_false_elim in M. exact (proj2 M).
    + apply value_done in H. destruct H as (nodes & G & H). destruct T as (T1 & T2 & T3). pose proof (T1 _ _ G) as Q. rewrite (seen g e s L A) in G.
      apply restore_done in H. destruct H as (s1 & H & ->). destruct (Each k l nodes 1 _ out s1 H T3 T2 Q) as [Gi La]. cbn [set_last s_last] in Gi, La.
      split; [econstructor; eassumption|]. split; [reflexivity|discriminate].
    + apply value_done in H. destruct H as (nodes & G & H). pose proof (T _ _ G) as Q. rewrite (seen g e s L A) in G.
      apply restore_done in H. destruct H as (s1 & H & ->). destruct (Appl k m nodes 1 _ out s1 H Q) as [Gi La]. cbn [set_last s_last] in Gi, La.
      split; [econstructor; eassumption|]. split; [reflexivity|discriminate].
    + cbn [tidy] in T. destruct P as (t & Et & P1 & P2 & P3).
      assert (NA : t_kind t <> Xattribute) by (intros X; specialize (P3 X); congruence).
      assert (K := kids_children f _ t Plain Et NA). assert (Q := kids_proper f attributes _ t Plain Et NA).
      destruct (kid_nodes f (at_node e)) as [|y ys] eqn:EK.
      * injection H as <- <-. split; [|split; [reflexivity|discriminate]]. constructor. rewrite <- K. constructor.
      * apply restore_done in H. destruct H as (s1 & H & ->). destruct (Appl k m (y :: ys) 1 _ out s1 H Q) as [Gi La].
        split; [|split; [reflexivity|discriminate]]. constructor. rewrite <- K. exact Gi.
    + destruct A as [(A1 & A2 & A3)|[]]. destruct (at_rule e) as [[ad m]|] eqn:R; [|specialize (NI eq_refl); discriminate NI].
      destruct (A3 ad m eq_refl) as [M G]. rewrite <- A1, M, G in H.
      destruct (Rule k (code ad) (imports_from ad) m s out s' H (Imported ad)) as [Gi La]; [rewrite A1; exact P|].
      split; [|split; [exact La|discriminate]]. rewrite A1, A2, L in Gi. econstructor; [exact R|exact Gi].
    + cbn [tidy] in T. apply value_done in H. destruct H as (t & C & H). destruct A as [A|[]].
      pose proof (Called name t T C) as N. destruct Tidy as [Ti Nm].
      destruct (All k e _ s out s' H (Ti _) P L) as (Gi & La & _); [left; exact A| |].
      { intros _. destruct N as (lower & ad & own & higher & -> & _ & before & later & -> & <- & _). apply (Nm ad (before ++ t :: later) t); [apply in_or_app; right; left; reflexivity|apply in_or_app; right; left; reflexivity|exact T]. }
      split; [econstructor; eassumption|]. split; [exact La|discriminate].
    + unfold copy_shallow in H. destruct (tree_at f (at_node e)) as [[i at_ ks]|] eqn:Et; [|destruct P as (t & Et' & _); rewrite Et in Et'; discriminate].
      assert (Body : perform_all f h n k (at_node e) l s = Done out s' -> gives_all f sheets (h_body h) k e l out /\ s_last s' = s_last s /\ (existsb moves l = false -> s' = s)).
      { intros Hb. exact (All k e l s out s' Hb T P L A NI). }
      assert (Start : start k (i_prefix i) (i_local i) (i_uri i) s (fun _ => perform_all f h n k (at_node e) l s) = Done out s' -> i_kind i = Xelement ->
        gives f sheets (h_body h) k e (ACopy l) out /\ s_last s' = s_last s /\ (existsb moves l = false -> s' = s)).
      { intros Hs Ki. unfold start in Hs. destruct (k_inside k) eqn:K.
        - injection Hs as <- <-. split; [|auto]. eapply G_copy_element_ignored; eassumption.
        - apply wrap_done in Hs. destruct Hs as (o1 & Hb & ->). destruct (All k e l s o1 s' Hb T P L A NI) as (Gi & La & Mo).
          split; [eapply G_copy_element; eassumption|]. split; [exact La|exact Mo]. }
      assert (Other : i_kind i <> Xdocument -> i_kind i <> Xfragment -> i_kind i <> Xelement -> Done (copy_node f (at_node e)) s = Done out s' ->
        gives f sheets (h_body h) k e (ACopy l) out /\ s_last s' = s_last s /\ (existsb moves l = false -> s' = s)).
      { intros K1 K2 K3 Ho. injection Ho as <- <-. split; [|auto]. eapply G_copy_other; [exact Et|exact K1|exact K2|exact K3|].
        unfold copy_node. rewrite Et. apply (copy_copied (S (tree_size (Xt i at_ ks)))). lia. }
      destruct (i_kind i) eqn:Ki; try (apply Other; solve [discriminate|exact H]); cbn [moves].
      * destruct (Body H) as (Gi & La & Mo). split; [eapply G_copy_root; [exact Et|left; exact Ki|exact Gi]|auto].
      * destruct (Body H) as (Gi & La & Mo). split; [eapply G_copy_root; [exact Et|right; exact Ki|exact Gi]|auto].
      * apply Start; [exact H|reflexivity].
    + apply value_done in H. destruct H as (v & G & H). pose proof (fun l E => T (look (at_node e) s) l (eq_trans G (f_equal Some E))) as Q. rewrite (seen g e s L A) in G.
      injection H as <- <-. split; [|auto]. destruct v as [t|nodes]; [constructor; exact G|]. eapply G_copy_of; [exact G|]. apply nodes_copied_lemma. exact (Q nodes eq_refl).
    + destruct (perform_all f h n (to_message k) (at_node e) l s) as [o1 s1| |] eqn:Hb; try discriminate. destruct te; [discriminate|]. injection H as <- <-.
      destruct (All (to_message k) e l s o1 s1 Hb T P L A NI) as (Gi & La & Mo). split; [econstructor; exact Gi|]. split; [exact La|exact Mo].
  - (* perform_all *)
    intros k e l s out s' H T P L A NI. destruct l as [|a l]; cbn [perform_all] in H.
    + injection H as <- <-. split; [constructor|auto].
    + apply after_done in H. destruct H as (o1 & s1 & o2 & H1 & H2 & ->). destruct T as (T1 & T2 & T3).
      assert (NI1 : at_rule e = None -> no_imports a = true) by (intros R; specialize (NI R); cbn [forallb] in NI; apply andb_prop in NI; exact (proj1 NI)).
      assert (NI2 : at_rule e = None -> forallb no_imports l = true) by (intros R; specialize (NI R); cbn [forallb] in NI; apply andb_prop in NI; exact (proj2 NI)).
      destruct (One k e a s o1 s1 H1 T1 P L) as (G1 & L1 & M1); [destruct A as [A|A]; [left; exact A|right; exact (proj1 A)]|exact NI1|].
      destruct (All k e l s1 o2 s' H2 T2 P) as (G2 & L2 & M2); [congruence| |exact NI2|].
      { destruct A as [A|A]; [|right; exact (proj2 A)]. destruct (moves a) eqn:M; [right; exact (T3 eq_refl)|left; rewrite (M1 eq_refl); exact A]. }
      split; [constructor; assumption|]. split; [congruence|]. cbn [existsb]. intros M. apply orb_false_elim in M. destruct M as [Ma Ml]. rewrite (M2 Ml). exact (M1 Ma).
  - (* perform_each *)
    intros k l nodes p s out s' H T NI Q. destruct nodes as [|x nodes]; cbn [perform_each] in H.
    + injection H as <- <-. split; [constructor|reflexivity].
    + apply after_done in H. destruct H as (o1 & s1 & o2 & H1 & H2 & ->). inversion Q as [|? ? Qx Qn]; subst.
      destruct (All k (At x p (s_last s) None) l _ o1 s1 H1 T Qx eq_refl) as (G1 & L1 & _).
      { left. split; [reflexivity|]. split; [reflexivity|]. intros ? ? X; discriminate X. }
      { intros _. exact NI. }
      cbn [set_position s_last] in L1.
      destruct (Each k l nodes (p + 1) s1 o2 s' H2 T NI Qn) as (G2 & L2). split; [|congruence]. rewrite L1 in G2. constructor; assumption.
  - (* apply_each *)
    intros k mode nodes p s out s' H Q. destruct nodes as [|x nodes]; cbn [apply_each] in H.
    + injection H as <- <-. split; [constructor|reflexivity].
    + apply after_done in H. destruct H as (o1 & s1 & o2 & H1 & H2 & ->). inversion Q as [|? ? Qx Qn]; subst.
      destruct (Rule k frozen_precedence (fun _ => True) mode (set_position x p s) o1 s1 H1 Frozen Qx) as [G1 L1]. cbn [set_position s_last s_current s_position] in G1, L1.
      destruct (Appl k mode nodes (p + 1) s1 o2 s' H2 Qn) as (G2 & L2). split; [|congruence]. rewrite L1 in G2. constructor; assumption.
  - (* apply_rule *)
    intros k generation scope mode s out s' H Ch P. cbn [apply_rule] in H. specialize (Ch mode (s_current s)).
    destruct (choose (h_rules h) generation mode (s_current s)) as [[t p]|].
    + destruct Ch as (a & -> & Ap). destruct Tidy as [Ti _].
      destruct (All k (At (s_current s) (s_position s) (s_last s) (Some (a, mode))) _ _ out s' H (Ti _) P eq_refl) as (Gi & La & _).
      { left. split; [reflexivity|]. split; [reflexivity|]. intros a' m' X. injection X as <- <-. split; reflexivity. }
      { discriminate. }
      split; [econstructor; eassumption|exact La].
    + destruct P as (t & Et & P1 & P2 & P3). rewrite Et in H. destruct t as [i at_ ks].
      assert (Kids : has_children (Xt i at_ ks) = true -> i_kind i <> Xattribute ->
        restore_last (s_last s) (apply_each f h n k mode (kid_nodes f (s_current s)) 1 (set_last (Z.of_nat (length (kid_nodes f (s_current s)))) (set_rule mode (last_generation (h_rules h) generation (s_generation s)) s))) = Done out s' ->
        applies f sheets (h_body h) k scope mode (s_current s) (s_position s) (s_last s) out /\ s_last s' = s_last s).
      { intros Hc NA Hr. apply restore_done in Hr. destruct Hr as (s1 & Hr & ->). 
        destruct (Appl k mode _ 1 _ out s1 Hr (kids_proper f attributes _ _ Plain Et NA)) as [Gi La]. cbn [set_last s_last] in Gi.
        rewrite (kids_children f _ _ Plain Et NA) in Gi. split; [eapply P_content; eassumption|reflexivity]. }
      assert (Kt : t_kind (Xt i at_ ks) = i_kind i) by reflexivity. rewrite Kt in P1, P2, P3.
      destruct (i_kind i) eqn:Ki; try (exfalso; congruence).
      * apply Kids; [unfold has_children; rewrite Kt; reflexivity|discriminate|exact H].
      * apply Kids; [unfold has_children; rewrite Kt; reflexivity|discriminate|exact H].
      * apply Kids; [unfold has_children; rewrite Kt; reflexivity|discriminate|exact H].
      * injection H as <- <-. split; [eapply P_text; eauto|reflexivity].
      * injection H as <- <-. split; [eapply P_text; eauto|reflexivity].
      * injection H as <- <-. split; [eapply P_text; eauto|reflexivity].
      * injection H as <- <-. split; [eapply P_nothing; eauto|reflexivity].
      * injection H as <- <-. split; [eapply P_nothing; eauto|reflexivity].
      * injection H as <- <-. split; [eapply P_nothing; eauto|reflexivity].
Qed.
End Run.

Lemma transform_lemma : forall s c f body attributes x fuel mode g out st, load s = Val (Some c) -> plain f ->
  tidy_sheet f attributes (visit [] (tree_of s)) body -> proper f attributes x ->
  transform f (Sheet c body) fuel mode g x = Done out st ->
  applies f (visit [] (tree_of s)) body (Sink false false) (fun _ => True) [] x 1 1 out.
Proof.
  intros s c f body at_ x fuel mode g out st E P T Q H. unfold transform in H. apply restore_done in H. destruct H as (s1 & H & ->).
  destruct (run_ok f (Sheet c body) (visit [] (tree_of s)) at_ P T (apply_templates_lemma s c E) (apply_imports_lemma s c E)) with (n := fuel) as (_ & _ & _ & Ap & _).
  { intros name t N C. pose proof (named_lemma s c E name N) as X. cbn [h_rules] in C. rewrite C in X. exact X. }
  destruct (Ap _ _ _ _ _ _ _ H) as [G _]; [apply Forall_cons; [exact Q|apply Forall_nil]|]. cbn [s_last k_inside] in G.
  inversion G as [|? ? ? ? ? ? o1 o2 G1 G2]; subst. inversion G2; subst. rewrite app_nil_r. exact G1.
Qed.
