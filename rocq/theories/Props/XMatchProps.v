From Coq Require Import String SpecFloat.
From Verif.Model Require Import Base XNode XAxis XNodeSet XCompare XStep XEval XMatch.
From Verif.Spec Require Import XOrder XAxisSpec XNodeSetSpec XCompareSpec XStepSpec XEvalSpec XMatchSpec.
From Verif.Proof Require Import XNodeSetProof XStepProof XEvalProof XMatchProof.
From Verif.Props Require Import FilterProps XOrderProps XAxisProps XStepProps XEvalProps.
From Coq Require Import List.
Import ListNotations.
Open Scope Z_scope.

(** Trying a pattern on a node always ends with an answer, and the answer is yes exactly if the
    node is among what the pattern gives as an expression, from the node itself or from some
    node above it.  Predicates that pick by position count the right nodes.  Partial: in one
    document; predicates must have values, and say openly whether they pick by position, which
    they may do only for elements and other children; the steps on the two sides of [//] must
    not fit the same nodes. *)
Theorem C61_match_partial : forall k d p x,
  sorts (e_sort k) -> documents (e_forest k) -> f_doc (e_forest k) d = d -> whole_document (f_tree (e_forest k) d) -> one_root (f_tree (e_forest k) d) ->
  location_sound k d p -> fst x = d -> matchable (f_tree (e_forest k) d) (snd x) ->
  exists b, location_matches k p x = Got b /\ (b = true <-> is_match k p x).
Proof. intros k d p x SS DOC OWN WD ONE. exact (location_lemma k d SS DOC OWN WD ONE p x). Qed.
Print Assumptions C61_match_partial.
(** A pattern with several alternatives matches what one of them matches. *)
Theorem C61_alternatives_partial : forall k d ps x,
  sorts (e_sort k) -> documents (e_forest k) -> f_doc (e_forest k) d = d -> whole_document (f_tree (e_forest k) d) -> one_root (f_tree (e_forest k) d) ->
  Forall (location_sound k d) ps -> fst x = d -> matchable (f_tree (e_forest k) d) (snd x) ->
  exists b, pattern_matches k ps x = Got b /\ (b = true <-> exists p, In p ps /\ is_match k p x).
Proof. exact pattern_lemma. Qed.
Print Assumptions C61_alternatives_partial.

(** In <r><a n="1"/><a/><g><a/></g></r>, r//a[position() = last()] matches the second and the
    third a, /r/a[2] only the second, a/@n the attribute, and / the root. *)
Definition marked : xtree := Xt (info Xelement "a") [Xt (Info Xattribute (lit "n") [] [] [] (lit "1")) [] []] [].
Definition match_doc : xtree := Xt (info Xdocument "") [] [el "r" [marked; el "a" []; el "g" [el "a" []]]].
Definition one : spec_float := of_Z 1.
Definition match_env : env := Env (fun _ => S754_nan) (fun _ => []) (fun _ _ => Got (VNum one)) insertion_sort (alone match_doc).
Definition kid (n : string) (qs : list expr) : pstep := PStep false false (Named (lit n)) qs.
Definition last_a : location := Steps Anywhere (kid "r" []) [(TwoSlashes, kid "a" [ERel OpEq (ECall Position []) (ECall Last [])])].
Definition second_a : location := Steps FromRoot (kid "r" []) [(OneSlash, kid "a" [ENumber (of_Z 2)])].
Definition its_n : location := Steps Anywhere (kid "a" []) [(OneSlash, PStep true false (Named (lit "n")) [])].
Definition matched (p : location) : list path := filter (fun x => match location_matches match_env p (0%nat, x) with Got b => b | _ => false end) (order match_doc []).
Lemma match_doc_ok : whole_document match_doc /\ one_root match_doc /\ documents (alone match_doc) /\ forall p, In p (order match_doc []) -> matchable match_doc p.
Proof.
  split; [|split; [|split]].
  - split; [reflexivity|]. split; [cbn; repeat split; try discriminate; try (repeat constructor); congruence|]. split; [cbn; repeat split; lia|]. split; [vm_compute; reflexivity|]. split.
    + intros p u I U. cbn in I. repeat (destruct I as [<-|I]; [vm_compute in U; injection U as <-; discriminate|]). contradiction.
    + intros i p u k I U K. cbn in I. repeat (destruct I as [I|I]; [try discriminate I; injection I as <- <-; vm_compute in U; injection U as <-; destruct K|]). contradiction.
  - intros p u I _ U. cbn in I. repeat (destruct I as [<-|I]; [vm_compute in U; injection U as <-; discriminate|]). contradiction.
  - intros i j; cbn; lia.
  - intros p I. split; [apply XAxisWalks.nodes_in; split; [exact I|]; cbn in I; repeat (destruct I as [<-|I]; [reflexivity|]); contradiction|]. intros u U _. cbn in I. repeat (destruct I as [<-|I]; [vm_compute in U; injection U as <-; discriminate|]). contradiction.
Qed.
Example C61_patterns : location_sound match_env 0 last_a /\ location_sound match_env 0 second_a /\ location_sound match_env 0 its_n /\
  matched last_a = [[Kid 1; Kid 0]; [Kid 0; Kid 2; Kid 0]] /\ matched second_a = [[Kid 1; Kid 0]] /\ matched its_n = [[Att 0; Kid 0; Kid 0]] /\ matched TheRoot = [[]].
Proof.
  split; [|split; [|split; [|repeat split; vm_compute; reflexivity]]].
  - repeat apply conj; try apply Forall_nil. + apply Forall_cons; [|apply Forall_nil]. split; [apply Forall_cons; [|apply Forall_nil]; intros x p l _ _; eexists; reflexivity|]. cbn [snd ps_attribute kid]. apply Forall_cons; [left; right; reflexivity|apply Forall_nil].
    + intros i (_ & _ & _ & A) (_ & _ & _ & B). rewrite A in B. vm_compute in B. discriminate.
    + exact Logic.I.
  - repeat apply conj; try apply Forall_nil; [|exact Logic.I]. apply Forall_cons; [|apply Forall_nil]. split; [apply Forall_cons; [|apply Forall_nil]; intros x p l _ _; eexists; reflexivity|]. cbn [snd ps_attribute kid]. apply Forall_cons; [left; left; reflexivity|apply Forall_nil].
  - repeat apply conj; try apply Forall_nil; [|exact Logic.I]. apply Forall_cons; [|apply Forall_nil]. split; [apply Forall_nil|]. cbn [snd ps_attribute ps_test]. split; [apply Forall_nil|]. intros E. vm_compute in E. discriminate.
Qed.

(** Refuted: a//a matches an a that has no a above it. *)
Theorem C61_descendant_refuted : location_matches match_env (Steps Anywhere (kid "a" []) [(TwoSlashes, kid "a" [])]) (0%nat, [Kid 1; Kid 0]) = Got true /\
  ~ is_match match_env (Steps Anywhere (kid "a" []) [(TwoSlashes, kid "a" [])]) (0%nat, [Kid 1; Kid 0]).
Proof.
  split; [vm_compute; reflexivity|]. intros (c & _ & L). apply (leads_next match_env) in L. destruct L as (y & l & SL & I & L). apply (leads_next match_env) in L. destruct L as (z & l2 & SL2 & I2 & L). apply (leads_next match_env) in L. destruct L as (w & l3 & SL3 & I3 & L). assert (W : w = (0%nat, [Kid 1; Kid 0])) by (inversion L; reflexivity). rewrite W in I3. clear W L w.
  destruct (step_down match_env (kid "a" []) _ _ _ SL I) as (D1 & s1 & E1). destruct (step_down match_env (kid "a" []) _ _ _ SL3 I3) as (D3 & s3 & E3). cbn [fst snd] in D1, E1, D3, E3.
  destruct match_doc_ok as (WD & OR & DOC & MA). destruct (leads_above match_env 0 eq_refl WD OR [at_any_depth] y z) as (_ & l0 & E2); [constructor; [cbn; auto|constructor]|eapply leads_on; [exact SL2|exact I2|constructor]|exact D1|]. rewrite E2, E1 in E3. injection E3 as <- E3. destruct l0 as [|s0 [|s2 l0]]; cbn [app] in E3; try discriminate. injection E3 as <- <-.
  assert (G : step_list (alone match_doc) Child (Named (lit "a")) (map computes []) (0%nat, []) []).
  { apply (code_gives (alone match_doc) 0 Child (Named (lit "a")) [] (0%nat, []) (Set_ [] true false)); [exact DOC|reflexivity|exact WD|reflexivity|apply MA; vm_compute; tauto|intros (i & q & E); discriminate|repeat split; discriminate|vm_compute; reflexivity]. }
  rewrite (step_unique _ _ _ [] _ _ _ SL G) in I. exact I.
Qed.
Print Assumptions C61_descendant_refuted.
(** Refuted: @n[1] does not match the only attribute n. *)
Theorem C61_attribute_position_refuted : location_matches match_env (Steps Anywhere (PStep true false (Named (lit "n")) [ENumber one]) []) (0%nat, [Att 0; Kid 0; Kid 0]) = Got false /\
  is_match match_env (Steps Anywhere (PStep true false (Named (lit "n")) [ENumber one]) []) (0%nat, [Att 0; Kid 0; Kid 0]).
Proof.
  split; [vm_compute; reflexivity|]. cbn [is_match fst snd further_steps]. exists [Kid 0; Kid 0]. split; [left; exists [Att 0]; split; [discriminate|reflexivity]|].
  destruct match_doc_ok as (WD & _ & DOC & MA). eapply leads_on; [apply (code_gives (alone match_doc) 0 Attribute (Named (lit "n")) [eval match_env (ENumber one)] (0%nat, [Kid 0; Kid 0])); [exact DOC|reflexivity|exact WD|reflexivity|apply MA; vm_compute; tauto|intros (i & q & E); discriminate| |vm_compute; reflexivity]|left; reflexivity|apply leads_nowhere].
  repeat split; try discriminate.
Qed.
Print Assumptions C61_attribute_position_refuted.
(** Refuted: with $v = 1, a[$v] matches the second a also. *)
Theorem C61_variable_refuted : location_matches match_env (Steps Anywhere (kid "a" [EVariable [] (lit "v")]) []) (0%nat, [Kid 1; Kid 0]) = Got true /\
  ~ is_match match_env (Steps Anywhere (kid "a" [EVariable [] (lit "v")]) []) (0%nat, [Kid 1; Kid 0]).
Proof.
  split; [vm_compute; reflexivity|]. intros (c & _ & L). apply (leads_next match_env) in L. destruct L as (y & l & SL & I & L). assert (W : y = (0%nat, [Kid 1; Kid 0])) by (inversion L; reflexivity). rewrite W in I. clear W L y. destruct (step_down match_env (kid "a" [EVariable [] (lit "v")]) _ _ _ SL I) as (_ & s1 & E1). cbn [snd] in E1. injection E1 as <- <-.
  destruct match_doc_ok as (WD & _ & DOC & MA). assert (G : step_list (alone match_doc) Child (Named (lit "a")) (map computes [eval match_env (EVariable [] (lit "v"))]) (0%nat, [Kid 0]) [(0%nat, [Kid 0; Kid 0])]).
  { apply (code_gives (alone match_doc) 0 Child (Named (lit "a")) [eval match_env (EVariable [] (lit "v"))] (0%nat, [Kid 0]) (Set_ [(0%nat, [Kid 0; Kid 0])] true false)); [exact DOC|reflexivity|exact WD|reflexivity|apply MA; vm_compute; tauto|intros (i & q & E); discriminate|repeat split; discriminate|vm_compute; reflexivity]. }
  rewrite (step_unique _ _ _ [eval match_env (EVariable [] (lit "v"))] _ _ _ SL G) in I. destruct I as [I|[]]. discriminate.
Qed.
Print Assumptions C61_variable_refuted.
(** Refuted: a[not(position() = 1)] does not match the second a. *)
Definition not_first : expr := ECall Not [ERel OpEq (ECall Position []) (ENumber one)].
Theorem C61_hidden_position_refuted : location_matches match_env (Steps Anywhere (kid "a" [not_first]) []) (0%nat, [Kid 1; Kid 0]) = Got false /\
  is_match match_env (Steps Anywhere (kid "a" [not_first]) []) (0%nat, [Kid 1; Kid 0]).
Proof.
  split; [vm_compute; reflexivity|]. cbn [is_match fst snd further_steps]. exists [Kid 0]. split; [left; exists [Kid 1]; split; [discriminate|reflexivity]|].
  destruct match_doc_ok as (WD & _ & DOC & MA). eapply leads_on; [apply (code_gives (alone match_doc) 0 Child (Named (lit "a")) [eval match_env not_first] (0%nat, [Kid 0])); [exact DOC|reflexivity|exact WD|reflexivity|apply MA; vm_compute; tauto|intros (i & q & E); discriminate| |vm_compute; reflexivity]|left; reflexivity|apply leads_nowhere].
  repeat split; try discriminate.
Qed.
Print Assumptions C61_hidden_position_refuted.
