(** The priority attribute. *)
From Coq Require Import String SpecFloat.
From Verif.Model Require Import Base XNode XNumber XStep Precedence Template.
From Verif.Spec Require Import PrecedenceSpec TemplateSpec.
From Verif.Proof Require Import TemplateProof XSortProof.
From Coq Require Import List.
Import ListNotations.
Open Scope Z_scope.
Lemma asym : forall a b, SFltb a b = true -> SFltb b a = false.
Proof.
  intros a b H. apply XSortProof.ltb_asym; [destruct a; try reflexivity; discriminate H|destruct b; try reflexivity; destruct a as [| | |[]]; discriminate H|exact H].
Qed.
Lemma priority_lemma : forall ps qs p q n1 n2 mode b1 b2 x c,
  let t := make_template ps (Some p) n1 mode b1 in
  let u := make_template qs (Some q) n2 mode b2 in
  existsb (fun r => p_matches r x) ps = true -> SFltb q p = true ->
  (load [Declares t; Declares u] = Val (Some c) \/ load [Declares u; Declares t] = Val (Some c)) ->
  exists k, choose c frozen_precedence mode x = Some (t, k).
Proof.
  intros ps qs p q n1 n2 mode b1 b2 x c t u M L H. apply existsb_exists in M as (r & I & M).
  set (r1 := (Pattern (p_matches r) p, t)).
  assert (I1 : forall own, In t own -> In r1 (rules own)).
  { intros own J. unfold rules. apply in_concat. exists (map (fun p => (p, t)) (tm_patterns t)). split; [apply in_map_iff; exists t; split; [reflexivity|exact J]|].
    apply in_map_iff. exists (Pattern (p_matches r) p). split; [reflexivity|]. cbn. apply in_map_iff. exists r. split; [reflexivity|exact I]. }
  assert (A1 : applicable mode x r1) by (split; [exact M|reflexivity]).
  assert (Pt : forall own w, (forall v, In v own -> v = t \/ v = u) -> In w (rules own) -> snd w = t \/ (snd w = u /\ p_priority (fst w) = q)).
  { intros own w O J. unfold rules in J. apply in_concat in J as (l & J1 & J2). apply in_map_iff in J1 as (v & <- & J1). apply in_map_iff in J2 as (s & <- & J2).
    destruct (O v J1) as [-> | ->]; [left; reflexivity|right]. split; [reflexivity|]. cbn in J2. apply in_map_iff in J2 as (s' & <- & _). reflexivity. }
  assert (G : forall s own, load s = Val (Some c) -> visit [] (tree_of s) = [([], own)] -> In t own -> (forall v, In v own -> v = t \/ v = u) ->
    exists k, choose c frozen_precedence mode x = Some (t, k)).
  { intros s own Hl Hv It Io. pose proof (apply_templates_lemma s c Hl mode x) as Q. rewrite Hv in Q. destruct (choose c frozen_precedence mode x) as [[t' k]|].
    - exists k. destruct Q as (a & _ & lower & own' & higher & E & _ & _ & before & s' & after & Er & Ap & Hb & Ha).
      assert (own' = own).
      { destruct lower as [|? [|? ?]]; cbn in E; [injection E as _ E' _; symmetry; exact E'|discriminate E|discriminate E]. }
      subst own'. pose proof (Pt own (s', t') Io ltac:(rewrite Er; apply in_or_app; right; left; reflexivity)) as [E1|[E1 E2]]; cbn in E1; [subst; reflexivity|]. cbn in E2. exfalso.
      pose proof (I1 own It) as J. rewrite Er in J. apply in_app_or in J as [J|[J|J]].
      + specialize (Hb _ J A1). cbn in Hb. rewrite E2 in Hb. congruence.
      + injection J as J _. rewrite J in E2. cbn in E2. subst q. rewrite (asym _ _ L) in L. discriminate L.
      + specialize (Ha _ J A1). cbn in Ha. rewrite E2 in Ha. rewrite (asym _ _ L) in Ha. discriminate Ha.
    - exfalso. apply (Q [] own r1); [left; reflexivity|exact Logic.I|apply I1; exact It|exact A1]. }
  destruct H as [H|H].
  - apply (G _ [t; u] H); [reflexivity|left; reflexivity|]. intros v [<-|[<-|[]]]; auto.
  - apply (G _ [u; t] H); [reflexivity|right; left; reflexivity|]. intros v [<-|[<-|[]]]; auto.
Qed.
