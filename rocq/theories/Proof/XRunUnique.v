From Coq Require Import Lia.
From Verif.Proof Require Import XRunProof XRunComplete XRunEnds.
From Verif.Model Require Import Base XNode XOutput Precedence Template XRun.
From Verif.Spec Require Import PrecedenceSpec TemplateSpec XRunSpec.
From Coq Require Import List.
Import ListNotations.
Open Scope Z_scope.

(** * The specification gives one result *)
Section Unique.
Context (f : forest) (v : list (address * list template)) (body : nat -> list action).
Lemma when_unique : forall (e : place) before g l later before' g' l' later',
  before ++ (g, l) :: later = before' ++ (g', l') :: later' ->
  (forall b : expression bool * list action, In b before -> fst b (sight e) = Some false) -> (forall b : expression bool * list action, In b before' -> fst b (sight e) = Some false) ->
  g (sight e) = Some true -> g' (sight e) = Some true -> l = l'.
Proof.
  intros e before g l later before' g' l' later' E B B' G G'. destruct (split_compare _ _ _ _ _ _ E) as [(_ & X & _)|[[I J]|[I J]]].
  - injection X as _ X. exact X.
  - apply B' in I. cbn [fst] in I. congruence.
  - apply B in I. cbn [fst] in I. congruence.
Qed.
Ltac same_node := match goal with
  | A : tree_at f ?x = Some _, B : tree_at f ?x = Some _ |- _ => rewrite A in B; injection B as B; subst
  end.
Ltac kinds := repeat match goal with H : _ \/ _ |- _ => destruct H as [H|H] end; unfold t_kind in *; cbn [t_info] in *; try congruence.
Lemma unique_lemma :
  (forall k e a out, gives f v body k e a out -> forall out', gives f v body k e a out' -> out = out') /\
  (forall k e l out, gives_all f v body k e l out -> forall out', gives_all f v body k e l out' -> out = out') /\
  (forall k l size p nodes out, gives_each f v body k l size p nodes out -> forall out', gives_each f v body k l size p nodes out' -> out = out') /\
  (forall k mode size p nodes out, applies_each f v body k mode size p nodes out -> forall out', applies_each f v body k mode size p nodes out' -> out = out') /\
  (forall k scope mode x p size out, applies f v body k scope mode x p size out -> forall out', applies f v body k scope mode x p size out' -> out = out').
Proof.
  apply gives_mutual.
  - intros k e d t out' H. inversion H; subst. reflexivity.
  - intros k e d g t G out' H. inversion H; subst. congruence.
  - intros k e g p lo u l out K G _ IH out' H. inversion H; subst; [|congruence].
    match goal with X : g (sight e) = Some _ |- _ => rewrite G in X; injection X as <- <- <- end. f_equal. f_equal. apply IH. assumption.
  - intros k e g p lo u l K G out' H. inversion H; subst; congruence.
  - intros k e g p lo u l out G _ IH out' H. inversion H; subst.
    match goal with X : g (sight e) = Some _ |- _ => rewrite G in X; injection X as <- <- <- end. f_equal. f_equal. apply IH. assumption.
  - intros k e l out _ IH out' H. inversion H; subst. f_equal. f_equal. apply IH. assumption.
  - intros k e g t l out G _ IH out' H. inversion H; subst.
    match goal with X : g (sight e) = Some _ |- _ => rewrite G in X; injection X as <- end. f_equal. f_equal. apply IH. assumption.
  - intros k e g l out G _ IH out' H. inversion H; subst; [|congruence]. apply IH. assumption.
  - intros k e g l G out' H. inversion H; subst; [congruence|reflexivity].
  - intros k e before g l later ot out B G _ IH out' H. inversion H as [| | | | | | | | |? ? before' g' l' later' ot' o' B' G' X' E| ? ? ws ot' o' B' X'| | | | | | | | | | | |]; subst.
    + apply IH. rewrite (when_unique e before g l later before' g' l' later'); auto.
    + assert (I : In (g, l) (before ++ (g, l) :: later)) by (apply in_or_app; right; left; reflexivity). apply B' in I. cbn [fst] in I. congruence.
  - intros k e ws ot out B _ IH out' H. inversion H as [| | | | | | | | |? ? before' g' l' later' ot' o' B' G' X' E| ? ? ws' ot' o' B' X'| | | | | | | | | | | |]; subst.
    + assert (I : In (g', l') (before' ++ (g', l') :: later')) by (apply in_or_app; right; left; reflexivity). apply B in I. cbn [fst] in I. congruence.
    + apply IH. assumption.
  - intros k e g nodes l out G _ IH out' H. inversion H; subst. match goal with X : g (sight e) = Some _ |- _ => rewrite G in X; injection X as <- end. apply IH. assumption.
  - intros k e mode out _ IH out' H. inversion H; subst. apply IH. assumption.
  - intros k e g mode nodes out G _ IH out' H. inversion H; subst. match goal with X : g (sight e) = Some _ |- _ => rewrite G in X; injection X as <- end. apply IH. assumption.
  - intros k e a mode out R _ IH out' H. inversion H; subst. match goal with X : at_rule e = Some _ |- _ => rewrite R in X; injection X as <- <- end. apply IH. assumption.
  - intros k e name t out N _ IH out' H. inversion H; subst. match goal with X : named v name ?u |- _ => lazymatch u with t => fail | _ => rewrite <- (named_unique _ _ _ _ N X) in * end end. apply IH. assumption.
  - intros k e t l out Et K _ IH out' H. inversion H; subst; same_node; [apply IH; assumption|kinds|kinds|kinds].
  - intros k e i at_ ks l out K Et Ki _ IH out' H. inversion H; subst; same_node; [kinds| |congruence|kinds]. f_equal. f_equal. apply IH. assumption.
  - intros k e i at_ ks l K Et Ki out' H. inversion H; subst; same_node; [kinds|congruence|reflexivity|kinds].
  - intros k e t l out Et K1 K2 K3 C out' H. inversion H; subst; same_node; [kinds|kinds|kinds|].
    rewrite (proj1 copied_only _ _ C). match goal with X : copied _ out' |- _ => rewrite (proj1 copied_only _ _ X) end. reflexivity.
  - intros k e g t G out' H. inversion H; subst; congruence.
  - intros k e g nodes out G N out' H. inversion H; subst; [congruence|]. match goal with X : g (sight e) = Some _ |- _ => rewrite G in X; injection X as <- end.
    rewrite (nodes_copied_only _ _ _ N). match goal with X : nodes_copied _ _ out' |- _ => rewrite (nodes_copied_only _ _ _ X) end. reflexivity.
  - intros k e l out _ _ out' H. inversion H; subst. reflexivity.
  - intros k e out' H. inversion H; subst. reflexivity.
  - intros k e a l o1 o2 _ IH1 _ IH2 out' H. inversion H; subst. f_equal; [apply IH1; assumption|apply IH2; assumption].
  - intros k l size p out' H. inversion H; subst. reflexivity.
  - intros k l size p x nodes o1 o2 _ IH1 _ IH2 out' H. inversion H; subst. f_equal; [apply IH1; assumption|apply IH2; assumption].
  - intros k mode size p out' H. inversion H; subst. reflexivity.
  - intros k mode size p x nodes o1 o2 _ IH1 _ IH2 out' H. inversion H; subst. f_equal; [apply IH1; assumption|apply IH2; assumption].
  - intros k scope mode x p size t a out Ap _ IH out' H. inversion H; subst; try (exfalso; eapply applied_some; eassumption).
    match goal with X : applied v scope mode x _ _, Y : gives_all _ _ _ _ _ _ out' |- _ => destruct (applied_unique _ _ _ _ _ _ _ _ Ap X) as [-> ->] end. apply IH. assumption.
  - intros k scope mode x p size t out No Et Hc _ IH out' H. inversion H; subst; try (exfalso; eapply applied_some; eassumption); same_node.
    + apply IH. assumption.
    + unfold has_children in Hc. kinds; cbn [t_kind t_info] in Hc; exfalso; match goal with X : i_kind _ = _ |- _ => rewrite X in Hc end; discriminate.
    + unfold has_children in Hc. kinds; exfalso; match goal with X : i_kind _ = _ |- _ => rewrite X in Hc end; discriminate.
  - intros k scope mode x p size i at_ ks No Et Ki out' H. inversion H; subst; try (exfalso; eapply applied_some; eassumption); same_node.
    + match goal with Hc : has_children _ = true |- _ => unfold has_children in Hc; kinds; cbn [t_kind t_info] in Hc; exfalso; match goal with X : i_kind _ = _ |- _ => rewrite X in Hc end; discriminate end.
    + reflexivity.
    + kinds.
  - intros k scope mode x p size t No Et Ki out' H. inversion H; subst; try (exfalso; eapply applied_some; eassumption); same_node.
    + match goal with Hc : has_children _ = true |- _ => unfold has_children in Hc; kinds; exfalso; match goal with X : i_kind _ = _ |- _ => rewrite X in Hc end; discriminate end.
    + kinds.
    + reflexivity.
Qed.
End Unique.

(** * Checking documents *)
Fixpoint plain_tree (t : xtree) : bool :=
  match t with
  | Xt i attrs kids => (if has_children t then forallb is_child kids else xkind_eqb (i_kind i) Xattribute || match kids with [] => true | _ => false end)
      && forallb plain_tree attrs && forallb plain_tree kids
  end.
Lemma plain_subtree : forall t, plain_tree t = true -> forall p u, subtree t p = Some u -> plain_tree u = true.
Proof.
  intros t P p. induction p as [|s p IH]; intros u E; cbn [subtree] in E; [injection E as <-; exact P|].
  destruct (subtree t p) as [w|]; [|discriminate]. specialize (IH w eq_refl). destruct w as [i a k].
  assert (X : forallb plain_tree a = true /\ forallb plain_tree k = true) by (cbn [plain_tree] in IH; apply andb_prop in IH; destruct IH as [IH K]; apply andb_prop in IH; split; [exact (proj2 IH)|exact K]).
  destruct X as [Xa Xk]. rewrite forallb_forall in Xa, Xk. destruct s; cbn [t_kids t_attrs] in E.
  - apply Xk. eapply nth_error_In. exact E.
  - apply Xa. eapply nth_error_In. exact E.
  - injection E as <-. reflexivity.
Qed.
Lemma plain_checked : forall f, (forall n, plain_tree (f_tree f n) = true) -> plain f.
Proof.
  intros f H x t E. pose proof (plain_subtree _ (H (fst x)) _ _ E) as P. destruct t as [i a k]. cbn [plain_tree] in P. apply andb_prop in P. destruct P as [P _]. apply andb_prop in P. destruct P as [P _].
  cbn [t_kids]. change (t_kind (Xt i a k)) with (i_kind i). destruct (has_children (Xt i a k)); split; try discriminate; intros X; [exact P|].
  intros N. destruct (i_kind i); try congruence; destruct k; try reflexivity; discriminate P.
Qed.
Lemma children_kids : forall f x y, plain f -> In y (children f x) -> In y (kid_nodes f x) /\ exists t, tree_at f x = Some t /\ t_kind t <> Xattribute.
Proof.
  intros f x y P I. unfold children in I. destruct (tree_at f x) as [t|] eqn:E; [|destruct I]. destruct (has_children t) eqn:H; [|destruct I].
  assert (NA : t_kind t <> Xattribute) by (intros X; unfold has_children in H; rewrite X in H; discriminate).
  split; [|exists t; split; [reflexivity|exact NA]]. rewrite (kids_children f x t P E NA). unfold children. rewrite E, H. exact I.
Qed.
Lemma children_selected : forall f attributes, plain f -> selects f attributes (fun w => Some (children f (w_node w))) /\ goes_below f (fun w => Some (children f (w_node w))).
Proof.
  intros f at_ P. split; intros w l E; injection E as <-; apply Forall_forall; intros y I; destruct (children_kids f _ y P I) as [K (t & Et & NA)].
  - pose proof (kids_proper f at_ _ t P Et NA) as Q. rewrite Forall_forall in Q. exact (Q y K).
  - apply kids_below. exact K.
Qed.
