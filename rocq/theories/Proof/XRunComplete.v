From Coq Require Import Lia SpecFloat.
From Verif.Proof Require Import TemplateProof XRunProof.
From Verif.Model Require Import Base XNode XOutput Precedence Template XRun.
From Verif.Spec Require Import PrecedenceSpec TemplateSpec XRunSpec.
From Coq Require Import List.
Import ListNotations.
Open Scope Z_scope.

(** * The rule is determined *)
Lemma split_compare {A} : forall (l1 l1' l2 l2' : list A) x y, l1 ++ x :: l2 = l1' ++ y :: l2' ->
  (l1 = l1' /\ x = y /\ l2 = l2') \/ (In x l1' /\ In y l2) \/ (In y l1 /\ In x l2').
Proof.
  induction l1 as [|a l1 IH]; intros [|b l1'] l2 l2' x y E; cbn [app] in E; injection E as E1 E2; subst.
  - left. auto.
  - right. left. split; [left; reflexivity|apply in_or_app; right; left; reflexivity].
  - right. right. split; [left; reflexivity|apply in_or_app; right; left; reflexivity].
  - destruct (IH _ _ _ _ _ E2) as [(-> & -> & ->)|[[I J]|[I J]]]; [left; auto|right; left; split; [right; exact I|exact J]|right; right; split; [right; exact I|exact J]].
Qed.
Lemma applied_unique : forall v scope mode x t a t' a', applied v scope mode x t a -> applied v scope mode x t' a' -> t = t' /\ a = a'.
Proof.
  intros v scope mode x t a t' a' (lo & own & hi & -> & S1 & H1 & b & p & c & R & A & B & C) (lo' & own' & hi' & E & S1' & H1' & b' & p' & c' & R' & A' & B' & C').
  destruct (split_compare _ _ _ _ _ _ E) as [(-> & E' & ->)|[[I J]|[I J]]].
  - injection E' as <- <-. rewrite R in R'. destruct (split_compare _ _ _ _ _ _ R') as [(-> & E' & ->)|[[I J]|[I J]]].
    + injection E' as _ <-. auto.
    + specialize (B' _ I A). specialize (C _ J A'). cbn [fst] in *. congruence.
    + specialize (B _ I A'). specialize (C' _ J A). cbn [fst] in *. congruence.
  - exfalso. apply (H1 _ _ (p', t') J S1'); [rewrite R'; apply in_or_app; right; left; reflexivity|exact A'].
  - exfalso. apply (H1' _ _ (p, t) J S1); [rewrite R; apply in_or_app; right; left; reflexivity|exact A].
Qed.
Lemma applied_some : forall v scope mode x t a, applied v scope mode x t a -> ~ none_applicable v scope mode x.
Proof.
  intros v scope mode x t a (lo & own & hi & -> & S1 & _ & b & p & c & R & A & _) N.
  apply (N a own (p, t)); [apply in_or_app; right; left; reflexivity|exact S1|rewrite R; apply in_or_app; right; left; reflexivity|exact A].
Qed.
Lemma named_unique : forall v name t t', named v name t -> named v name t' -> t = t'.
Proof.
  intros v name t t' (lo & a & own & hi & -> & H & b & c & -> & N & D) (lo' & a' & own' & hi' & E & H' & b' & c' & -> & N' & D').
  destruct (split_compare _ _ _ _ _ _ E) as [(-> & E' & ->)|[[I J]|[I J]]].
  - injection E' as _ E'. destruct (split_compare _ _ _ _ _ _ E') as [(_ & -> & _)|[[I J]|[I J]]]; [reflexivity| |]; exfalso.
    + exact (D t' (or_intror J) N').
    + exact (D t' (or_introl I) N').
  - exfalso. apply (H _ _ t' J); [apply in_or_app; right; left; reflexivity|exact N'].
  - exfalso. apply (H' _ _ t J); [apply in_or_app; right; left; reflexivity|exact N].
Qed.

(** * More fuel does not change the result *)
Lemma more : forall f h n,
  (forall k x a s out s', perform f h n k x a s = Done out s' -> perform f h (S n) k x a s = Done out s') /\
  (forall k x l s out s', perform_all f h n k x l s = Done out s' -> perform_all f h (S n) k x l s = Done out s') /\
  (forall k l nodes p s out s', perform_each f h n k l nodes p s = Done out s' -> perform_each f h (S n) k l nodes p s = Done out s') /\
  (forall k mode nodes p s out s', apply_each f h n k mode nodes p s = Done out s' -> apply_each f h (S n) k mode nodes p s = Done out s') /\
  (forall k g mode x s out s', apply_rule f h n k g mode x s = Done out s' -> apply_rule f h (S n) k g mode x s = Done out s').
Proof.
  intros f h n. induction n as [|n (One & All & Each & Appl & Rule)].
  { repeat apply conj; intros; discriminate. }
  assert (St : forall k p l u s x b out s', start k p l u s (fun _ => perform_all f h n k x b s) = Done out s' -> start k p l u s (fun _ => perform_all f h (S n) k x b s) = Done out s').
  { intros k p l u s x b out s' H. unfold start in *. destruct (k_inside k); [exact H|]. apply wrap_done in H. destruct H as (o1 & H & ->). rewrite (All _ _ _ _ _ _ H). reflexivity. }
  assert (Re : forall m k mode nodes p s out s', restore_last m (apply_each f h n k mode nodes p s) = Done out s' -> restore_last m (apply_each f h (S n) k mode nodes p s) = Done out s').
  { intros m k mode nodes p s out s' H. apply restore_done in H. destruct H as (s1 & H & ->). rewrite (Appl _ _ _ _ _ _ _ H). reflexivity. }
  split; [|split; [|split; [|split]]].
  - intros k x a s out s' H. remember (S n) as m eqn:Em. cbn [perform]. rewrite Em in H. cbn [perform] in H.
    destruct a as [d t|d g|g l|g l|l|g l|g l|ws ot|g l|[g|] md| |name|l|g|te l]; try exact H; try (apply value_done in H; destruct H as (v & -> & H); cbn [with_value]); subst m.
    + destruct v as [[p lo] u]. apply St. exact H.
    + destruct v as [[p lo] u]. apply wrap_done in H. destruct H as (o1 & H & ->). rewrite (All _ _ _ _ _ _ H). reflexivity.
    + apply wrap_done in H. destruct H as (o1 & H & ->). rewrite (All _ _ _ _ _ _ H). reflexivity.
    + apply wrap_done in H. destruct H as (o1 & H & ->). rewrite (All _ _ _ _ _ _ H). reflexivity.
    + destruct v; [apply All; exact H|exact H].
    + apply All. exact H.
    + apply restore_done in H. destruct H as (s1 & H & ->). rewrite (Each _ _ _ _ _ _ _ H). reflexivity.
    + apply Re. exact H.
    + destruct (kid_nodes f x) as [|y ys]; [exact H|]. apply Re. exact H.
    + apply Rule. exact H.
    + apply All. exact H.
    + unfold copy_shallow in *. destruct (tree_at f x) as [[i at_ ks]|]; [|exact H]. destruct (i_kind i); try exact H; [apply All; exact H|apply All; exact H|apply St; exact H].
    + destruct (perform_all f h n (to_message k) x l s) as [o1 s1| |] eqn:Hb; try discriminate. rewrite (All _ _ _ _ _ _ Hb). exact H.
  - intros k x l s out s' H. remember (S n) as m eqn:Em. cbn [perform_all]. rewrite Em in H. cbn [perform_all] in H. subst m. destruct l as [|a l]; [exact H|].
    apply after_done in H. destruct H as (o1 & s1 & o2 & H1 & H2 & ->). rewrite (One _ _ _ _ _ _ H1). cbn [after]. rewrite (All _ _ _ _ _ _ H2). reflexivity.
  - intros k l nodes p s out s' H. remember (S n) as m eqn:Em. cbn [perform_each]. rewrite Em in H. cbn [perform_each] in H. subst m. destruct nodes as [|x nodes]; [exact H|].
    apply after_done in H. destruct H as (o1 & s1 & o2 & H1 & H2 & ->). rewrite (All _ _ _ _ _ _ H1). cbn [after]. rewrite (Each _ _ _ _ _ _ _ H2). reflexivity.
  - intros k mode nodes p s out s' H. remember (S n) as m eqn:Em. cbn [apply_each]. rewrite Em in H. cbn [apply_each] in H. subst m. destruct nodes as [|x nodes]; [exact H|].
    apply after_done in H. destruct H as (o1 & s1 & o2 & H1 & H2 & ->). rewrite (Rule _ _ _ _ _ _ _ H1). cbn [after]. rewrite (Appl _ _ _ _ _ _ _ H2). reflexivity.
  - intros k g mode x s out s' H. remember (S n) as m eqn:Em. cbn [apply_rule]. rewrite Em in H. cbn [apply_rule] in H. subst m. destruct (choose (h_rules h) g mode x) as [[t p]|].
    + apply All. exact H.
    + destruct (tree_at f x) as [[i at_ ks]|]; [|exact H]. destruct (i_kind i); try exact H; apply Re; exact H.
Qed.
Lemma more_than : forall f h n m, (n <= m)%nat ->
  (forall k x a s out s', perform f h n k x a s = Done out s' -> perform f h m k x a s = Done out s') /\
  (forall k x l s out s', perform_all f h n k x l s = Done out s' -> perform_all f h m k x l s = Done out s') /\
  (forall k l nodes p s out s', perform_each f h n k l nodes p s = Done out s' -> perform_each f h m k l nodes p s = Done out s') /\
  (forall k mode nodes p s out s', apply_each f h n k mode nodes p s = Done out s' -> apply_each f h m k mode nodes p s = Done out s') /\
  (forall k g mode x s out s', apply_rule f h n k g mode x s = Done out s' -> apply_rule f h m k g mode x s = Done out s').
Proof.
  intros f h n m L. induction L as [|m L (I1 & I2 & I3 & I4 & I5)]; [auto 10|].
  destruct (more f h m) as (M1 & M2 & M3 & M4 & M5). repeat apply conj; intros; [apply M1, I1|apply M2, I2|apply M3, I3|apply M4, I4|apply M5, I5]; assumption.
Qed.

(** * What the specification says is done *)
Scheme gives_min := Minimality for gives Sort Prop
  with gives_all_min := Minimality for gives_all Sort Prop
  with gives_each_min := Minimality for gives_each Sort Prop
  with applies_each_min := Minimality for applies_each Sort Prop
  with applies_min := Minimality for applies Sort Prop.
Combined Scheme gives_mutual from gives_min, gives_all_min, gives_each_min, applies_each_min, applies_min.
Scheme copied_min := Minimality for copied Sort Prop with copied_all_min := Minimality for copied_all Sort Prop.
Combined Scheme copied_mutual from copied_min, copied_all_min.
Lemma copied_only : (forall t out, copied t out -> out = copy_tree t) /\ (forall l out, copied_all l out -> out = concat (map copy_tree l)).
Proof.
  apply copied_mutual; intros; subst; cbn [copy_tree map concat];
    repeat match goal with H : _ \/ _ |- _ => destruct H as [H|H] | H : i_kind _ = _ |- _ => rewrite H end;
    rewrite ?map_app, ?concat_app; try reflexivity.
Qed.
Lemma nodes_copied_only : forall f l out, nodes_copied f l out -> out = concat (map (copy_node f) l).
Proof.
  intros f l out H. induction H as [|x l t o1 o2 E C N IH]; [reflexivity|]. cbn [map concat]. unfold copy_node at 1. rewrite E, IH, (proj1 copied_only _ _ C). reflexivity.
Qed.

Section Complete.
Context (f : forest) (h : sheet) (sheets : list (address * list template)) (attributes : bool).
Notation body := (h_body h).
Context (Plain : plain f) (Tidy : tidy_sheet f attributes sheets body)
  (Frozen : forall mode x, match choose (h_rules h) frozen_precedence mode x with
    | Some (t, p) => exists a, p = code a /\ applied sheets (fun _ => True) mode x t a
    | None => none_applicable sheets (fun _ => True) mode x end)
  (Imported : forall g mode x, match choose (h_rules h) (code g) mode x with
    | Some (t, p) => exists a, p = code a /\ applied sheets (imports_from g) mode x t a
    | None => none_applicable sheets (imports_from g) mode x end)
  (Called : forall name, name <> [] -> match called (h_rules h) name with
    | Some t => named sheets name t
    | None => forall a own u, In (a, own) sheets -> In u own -> tm_name u <> name end).

Lemma called_some : forall name t, name <> [] -> called (h_rules h) name = Some t -> named sheets name t.
Proof. intros name t N C. specialize (Called name N). rewrite C in Called. exact Called. Qed.

Lemma choose_when_total : forall v whens g l later otherwise, (forall b, In b whens -> fst b v = Some false) ->
  choose_when v whens otherwise = Some otherwise /\ (g v = Some true -> choose_when v (whens ++ (g, l) :: later) otherwise = Some l).
Proof.
  intros v whens g l later otherwise. induction whens as [|[g0 b0] whens IH]; intros H; cbn [app choose_when].
  - split; [reflexivity|]. intros ->. reflexivity.
  - pose proof (H (g0, b0) (or_introl eq_refl)) as H0. cbn [fst] in H0. rewrite H0. apply IH. intros b I. apply H. right. exact I.
Qed.
Lemma in_whens_tidy' : forall whens, (fix go (l : list (expression bool * list action)) : Prop :=
  match l with [] => True | (_, b) :: l => in_order (tidy f attributes) b /\ go l end) whens -> forall g l, In (g, l) whens -> in_order (tidy f attributes) l.
Proof. intros whens H g l. apply in_whens_tidy. exact H. Qed.

Definition P1 (k : sink) (e : place) (a : action) (out : list instruction) : Prop :=
  tidy f attributes a -> proper f attributes (at_node e) -> forall s, s_last s = at_size e -> agrees e s \/ unaffected a -> (at_rule e = None -> no_imports a = true) ->
  exists n s', perform f h n k (at_node e) a s = Done out s'.
Definition P2 (k : sink) (e : place) (l : list action) (out : list instruction) : Prop :=
  in_order (tidy f attributes) l -> proper f attributes (at_node e) -> forall s, s_last s = at_size e -> agrees e s \/ each unaffected l -> (at_rule e = None -> forallb no_imports l = true) ->
  exists n s', perform_all f h n k (at_node e) l s = Done out s'.
Definition P3 (k : sink) (l : list action) (size p : Z) (nodes : list xnode) (out : list instruction) : Prop :=
  in_order (tidy f attributes) l -> forallb no_imports l = true -> Forall (proper f attributes) nodes -> forall s, s_last s = size ->
  exists n s', perform_each f h n k l nodes p s = Done out s'.
Definition P4 (k : sink) (mode : str) (size p : Z) (nodes : list xnode) (out : list instruction) : Prop :=
  Forall (proper f attributes) nodes -> forall s, s_last s = size -> exists n s', apply_each f h n k mode nodes p s = Done out s'.
Definition P5 (k : sink) (scope : address -> Prop) (mode : str) (x : xnode) (p size : Z) (out : list instruction) : Prop :=
  proper f attributes x -> forall generation s, s_current s = x -> s_position s = p -> s_last s = size ->
  (forall mode x, match choose (h_rules h) generation mode x with
    | Some (t, p) => exists a, p = code a /\ applied sheets scope mode x t a
    | None => none_applicable sheets scope mode x end) ->
  exists n s', apply_rule f h n k generation mode x s = Done out s'.

Lemma complete_lemma :
  (forall k e a out, gives f sheets body k e a out -> P1 k e a out) /\
  (forall k e l out, gives_all f sheets body k e l out -> P2 k e l out) /\
  (forall k l size p nodes out, gives_each f sheets body k l size p nodes out -> P3 k l size p nodes out) /\
  (forall k mode size p nodes out, applies_each f sheets body k mode size p nodes out -> P4 k mode size p nodes out) /\
  (forall k scope mode x p size out, applies f sheets body k scope mode x p size out -> P5 k scope mode x p size out).
Proof.
  assert (Run := run_ok f h sheets attributes Plain Tidy Frozen Imported called_some).
  apply gives_mutual.
  - intros k e d t T P s L A NI. exists 1%nat, s. reflexivity.
  - intros k e d g t G T P s L A NI. exists 1%nat, s. cbn [perform]. rewrite (seen g e s L A), G. reflexivity.
  - intros k e g p lo u l out K G _ IH T P s L A NI.
    destruct (IH T P s L) as (n & s' & H); [destruct A as [A|A]; [left; exact A|right; exact (proj2 A)]|exact NI|].
    exists (S n), s'. cbn [perform]. rewrite (seen g e s L), G by (destruct A as [A|A]; [left; exact A|right; exact (proj1 A)]). cbn [with_value]. unfold start. rewrite K, H. reflexivity.
  - intros k e g p lo u l K G T P s L A NI. exists 1%nat, s. cbn [perform]. rewrite (seen g e s L), G by (destruct A as [A|A]; [left; exact A|right; exact (proj1 A)]).
    cbn [with_value]. unfold start. rewrite K. reflexivity.
  - intros k e g p lo u l out G _ IH T P s L A NI.
    destruct (IH T P s L) as (n & s' & H); [destruct A as [A|A]; [left; exact A|right; exact (proj2 A)]|exact NI|].
    exists (S n), s'. cbn [perform]. rewrite (seen g e s L), G by (destruct A as [A|A]; [left; exact A|right; exact (proj1 A)]). cbn [with_value]. rewrite H. reflexivity.
  - intros k e l out _ IH T P s L A NI. destruct (IH T P s L A NI) as (n & s' & H). exists (S n), s'. cbn [perform]. rewrite H. reflexivity.
  - intros k e g t l out G _ IH T P s L A NI.
    destruct (IH T P s L) as (n & s' & H); [destruct A as [A|A]; [left; exact A|right; exact (proj2 A)]|exact NI|].
    exists (S n), s'. cbn [perform]. rewrite (seen g e s L), G by (destruct A as [A|A]; [left; exact A|right; exact (proj1 A)]). cbn [with_value]. rewrite H. reflexivity.
  - intros k e g l out G _ IH T P s L A NI.
    destruct (IH T P s L) as (n & s' & H); [destruct A as [A|A]; [left; exact A|right; exact (proj2 A)]|exact NI|].
    exists (S n), s'. cbn [perform]. rewrite (seen g e s L), G by (destruct A as [A|A]; [left; exact A|right; exact (proj1 A)]). cbn [with_value]. exact H.
  - intros k e g l G T P s L A NI. exists 1%nat, s. cbn [perform]. rewrite (seen g e s L), G by (destruct A as [A|A]; [left; exact A|right; exact (proj1 A)]). reflexivity.
  - intros k e before g l later ot out B G _ IH [T1 T2] P s L A NI.
    assert (I : In (g, l) (before ++ (g, l) :: later)) by (apply in_or_app; right; left; reflexivity).
    destruct (IH (in_whens_tidy' _ T1 g l I) P s L) as (n & s' & H).
    { destruct A as [A|A]; [left; exact A|right; exact (proj2 (in_whens_unaffected _ g l (proj1 A) I))]. }
    { intros R. specialize (NI R). cbn [no_imports] in NI. apply andb_prop in NI. destruct NI as [NI _]. rewrite forallb_forall in NI. exact (NI (g, l) I). }
    exists (S n), s'. cbn [perform].
    rewrite (proj2 (choose_when_total (look (at_node e) s) before g l later ot ltac:(intros b Ib; rewrite (seen (fst b) e s L); [exact (B b Ib)|destruct A as [A|A]; [left; exact A|right; destruct b as [gb lb]; exact (proj1 (in_whens_unaffected _ gb lb (proj1 A) (in_or_app _ _ _ (or_introl Ib))))]]))).
    + cbn [with_value]. exact H.
    + rewrite (seen g e s L); [exact G|]. destruct A as [A|A]; [left; exact A|right; exact (proj1 (in_whens_unaffected _ g l (proj1 A) I))].
  - intros k e ws ot out B _ IH [T1 T2] P s L A NI.
    destruct (IH T2 P s L) as (n & s' & H).
    { destruct A as [A|A]; [left; exact A|right; exact (proj2 A)]. }
    { intros R. specialize (NI R). cbn [no_imports] in NI. apply andb_prop in NI. exact (proj2 NI). }
    exists (S n), s'. cbn [perform].
    rewrite (proj1 (choose_when_total (look (at_node e) s) ws (fun _ => None) [] [] ot ltac:(intros b Ib; rewrite (seen (fst b) e s L); [exact (B b Ib)|destruct A as [A|A]; [left; exact A|right; destruct b as [gb lb]; exact (proj1 (in_whens_unaffected _ gb lb (proj1 A) Ib))]]))).
    cbn [with_value]. exact H.
  - intros k e g nodes l out G _ IH (T1 & T2 & T3) P s L A NI. pose proof (T1 _ _ G) as Q.
    destruct (IH T3 T2 Q (set_last (Z.of_nat (length nodes)) s) eq_refl) as (n & s' & H).
    exists (S n), (set_last (s_last s) s'). cbn [perform]. rewrite (seen g e s L A), G. cbn [with_value]. rewrite H. reflexivity.
  - intros k e mode out _ IH T P s L A NI. cbn [tidy] in T. destruct P as (t & Et & P1' & P2' & P3').
    assert (NA : t_kind t <> Xattribute) by (intros X; specialize (P3' X); congruence).
    assert (K := kids_children f _ t Plain Et NA). assert (Q := kids_proper f attributes _ t Plain Et NA). rewrite <- K in IH.
    destruct (IH Q (set_last (Z.of_nat (length (kid_nodes f (at_node e)))) s) eq_refl) as (n & s' & H).
    destruct (kid_nodes f (at_node e)) as [|y ys] eqn:EK.
    + destruct n as [|n]; [discriminate H|]. cbn [apply_each] in H. injection H as <- _. exists 1%nat, s. cbn [perform]. rewrite EK. reflexivity.
    + exists (S n), (set_last (s_last s) s'). cbn [perform]. rewrite EK, H. reflexivity.
  - intros k e g mode nodes out G _ IH T P s L A NI. pose proof (T _ _ G) as Q.
    destruct (IH Q (set_last (Z.of_nat (length nodes)) s) eq_refl) as (n & s' & H).
    exists (S n), (set_last (s_last s) s'). cbn [perform]. rewrite (seen g e s L A), G. cbn [with_value]. rewrite H. reflexivity.
  - intros k e ad mode out R _ IH T P s L A NI. destruct A as [(A1 & A2 & A3)|[]]. destruct (A3 ad mode R) as [M G].
    destruct (IH P (code ad) s A1 A2 L (Imported ad)) as (n & s' & H). exists (S n), s'. cbn [perform]. rewrite M, G. exact H.
  - intros k e name t out N _ IH T P s L A NI. cbn [tidy] in T. destruct A as [A|[]]. destruct Tidy as [Ti Nm].
    destruct (IH (Ti _) P s L (or_introl A)) as (n & s' & H).
    { intros _. destruct N as (lower & ad & own & higher & -> & _ & before & later & -> & <- & _). apply (Nm ad (before ++ t :: later) t); [apply in_or_app; right; left; reflexivity|apply in_or_app; right; left; reflexivity|exact T]. }
    exists (S n), s'. cbn [perform]. specialize (Called name T). destruct (called (h_rules h) name) as [t'|] eqn:C.
    + rewrite (named_unique _ _ _ _ Called N). cbn [with_value]. exact H.
    + exfalso. destruct N as (lower & ad & own & higher & -> & _ & before & later & -> & N & _). apply (Called ad (before ++ t :: later) t); [apply in_or_app; right; left; reflexivity|apply in_or_app; right; left; reflexivity|exact N].
  - intros k e t l out Et K _ IH T P s L A NI. destruct (IH T P s L A NI) as (n & s' & H). exists (S n), s'. cbn [perform]. unfold copy_shallow. rewrite Et.
    destruct t as [i at_ ks]. change (t_kind (Xt i at_ ks)) with (i_kind i) in K. destruct K as [->| ->]; exact H.
  - intros k e i at_ ks l out K Et Ki _ IH T P s L A NI. destruct (IH T P s L A NI) as (n & s' & H). exists (S n), s'. cbn [perform]. unfold copy_shallow. rewrite Et, Ki.
    unfold start. rewrite K, H. reflexivity.
  - intros k e i at_ ks l K Et Ki T P s L A NI. exists 1%nat, s. cbn [perform]. unfold copy_shallow. rewrite Et, Ki. unfold start. rewrite K. reflexivity.
  - intros k e t l out Et K1 K2 K3 C T P s L A NI. exists 1%nat, s. cbn [perform]. unfold copy_shallow. rewrite (proj1 copied_only _ _ C).
    assert (Ec : copy_node f (at_node e) = copy_tree t) by (unfold copy_node; rewrite Et; reflexivity). rewrite <- Ec. rewrite Et.
    destruct t as [i at_ ks]. change (t_kind (Xt i at_ ks)) with (i_kind i) in *. destruct (i_kind i); try reflexivity; congruence.
  - intros k e g t G T P s L A NI. exists 1%nat, s. cbn [perform]. rewrite (seen g e s L A), G. reflexivity.
  - intros k e g nodes out G N T P s L A NI. exists 1%nat, s. cbn [perform]. rewrite (seen g e s L A), G. cbn [with_value]. rewrite (nodes_copied_only _ _ _ N). reflexivity.
  - intros k e l out _ IH T P s L A NI. destruct (IH T P s L A NI) as (n & s' & H). exists (S n), s'. cbn [perform]. rewrite H. reflexivity.
  - intros k e T P s L A NI. exists 1%nat, s. reflexivity.
  - intros k e a l o1 o2 _ IH1 _ IH2 (T1 & T2 & T3) P s L A NI.
    assert (NI1 : at_rule e = None -> no_imports a = true) by (intros R; specialize (NI R); cbn [forallb] in NI; apply andb_prop in NI; exact (proj1 NI)).
    assert (NI2 : at_rule e = None -> forallb no_imports l = true) by (intros R; specialize (NI R); cbn [forallb] in NI; apply andb_prop in NI; exact (proj2 NI)).
    assert (A1 : agrees e s \/ unaffected a) by (destruct A as [A|A]; [left; exact A|right; exact (proj1 A)]).
    destruct (IH1 T1 P s L A1 NI1) as (n1 & s1 & H1).
    destruct (Run n1) as (One & _). destruct (One k e a s o1 s1 H1 T1 P L A1 NI1) as (_ & L1 & M1).
    destruct (IH2 T2 P s1) as (n2 & s2 & H2); [congruence| |exact NI2|].
    { destruct A as [A|A]; [|right; exact (proj2 A)]. destruct (moves a) eqn:M; [right; exact (T3 eq_refl)|left; rewrite (M1 eq_refl); exact A]. }
    exists (S (max n1 n2)), s2. cbn [perform_all].
    rewrite (proj1 (more_than f h n1 (max n1 n2) (Nat.le_max_l _ _)) _ _ _ _ _ _ H1). cbn [after].
    rewrite (proj1 (proj2 (more_than f h n2 (max n1 n2) (Nat.le_max_r _ _))) _ _ _ _ _ _ H2). reflexivity.
  - intros k l size p T NI Q s L. exists 1%nat, s. reflexivity.
  - intros k l size p x nodes o1 o2 _ IH1 _ IH2 T NI Q s L. inversion Q as [|? ? Qx Qn]; subst.
    assert (Ag : agrees (At x p (s_last s) None) (set_position x p s)) by (split; [reflexivity|split; [reflexivity|intros ? ? X; discriminate X]]).
    destruct (IH1 T Qx (set_position x p s) eq_refl (or_introl Ag) (fun _ => NI)) as (n1 & s1 & H1). cbn [at_node] in H1.
    destruct (Run n1) as (_ & All & _). destruct (All k (At x p (s_last s) None) l (set_position x p s) o1 s1 H1 T Qx eq_refl (or_introl Ag) (fun _ => NI)) as (_ & L1 & _).
    destruct (IH2 T NI Qn s1 L1) as (n2 & s2 & H2).
    exists (S (max n1 n2)), s2. cbn [perform_each].
    rewrite (proj1 (proj2 (more_than f h n1 (max n1 n2) (Nat.le_max_l _ _))) _ _ _ _ _ _ H1). cbn [after].
    rewrite (proj1 (proj2 (proj2 (more_than f h n2 (max n1 n2) (Nat.le_max_r _ _)))) _ _ _ _ _ _ _ H2). reflexivity.
  - intros k mode size p Q s L. exists 1%nat, s. reflexivity.
  - intros k mode size p x nodes o1 o2 _ IH1 _ IH2 Q s L. inversion Q as [|? ? Qx Qn]; subst.
    destruct (IH1 Qx frozen_precedence (set_position x p s) eq_refl eq_refl eq_refl Frozen) as (n1 & s1 & H1).
    destruct (Run n1) as (_ & _ & _ & _ & Rule). destruct (Rule k frozen_precedence (fun _ => True) mode (set_position x p s) o1 s1 H1 Frozen Qx) as (_ & L1).
    destruct (IH2 Qn s1 L1) as (n2 & s2 & H2).
    exists (S (max n1 n2)), s2. cbn [apply_each].
    rewrite (proj2 (proj2 (proj2 (proj2 (more_than f h n1 (max n1 n2) (Nat.le_max_l _ _))))) _ _ _ _ _ _ _ H1). cbn [after].
    rewrite (proj1 (proj2 (proj2 (proj2 (more_than f h n2 (max n1 n2) (Nat.le_max_r _ _))))) _ _ _ _ _ _ _ H2). reflexivity.
  - intros k scope mode x p size t a out Ap _ IH P generation s Ec Ep El Ch. destruct Tidy as [Ti _].
    destruct (IH (Ti _) P (set_rule mode (code a) s)) as (n & s' & H).
    { exact El. }
    { left. split; [exact Ec|split; [exact Ep|]]. intros a' m' X. injection X as <- <-. split; reflexivity. }
    { discriminate. }
    exists (S n), s'. cbn [apply_rule]. specialize (Ch mode x). destruct (choose (h_rules h) generation mode x) as [[t' p']|].
    + destruct Ch as (a' & -> & Ap'). destruct (applied_unique _ _ _ _ _ _ _ _ Ap Ap') as [<- <-]. exact H.
    + exfalso. exact (applied_some _ _ _ _ _ _ Ap Ch).
  - intros k scope mode x p size t out No Et Hc _ IH P generation s Ec Ep El Ch.
    assert (NA : t_kind t <> Xattribute) by (intros X; unfold has_children in Hc; rewrite X in Hc; discriminate).
    assert (K := kids_children f _ t Plain Et NA). assert (Q := kids_proper f attributes _ t Plain Et NA). rewrite <- K in IH.
    destruct (IH Q (set_last (Z.of_nat (length (kid_nodes f x))) (set_rule mode (last_generation (h_rules h) generation (s_generation s)) s)) eq_refl) as (n & s' & H).
    exists (S n), (set_last (s_last s) s'). cbn [apply_rule]. specialize (Ch mode x). destruct (choose (h_rules h) generation mode x) as [[t' p']|].
    + exfalso. destruct Ch as (a' & -> & Ap'). exact (applied_some _ _ _ _ _ _ Ap' No).
    + rewrite Et. destruct t as [i at_ ks]. unfold has_children in Hc. change (t_kind (Xt i at_ ks)) with (i_kind i) in Hc.
      destruct (i_kind i); try discriminate Hc; rewrite H; reflexivity.
  - intros k scope mode x p size i at_ ks No Et Ki P generation s Ec Ep El Ch. eexists 1%nat, _. cbn [apply_rule]. specialize (Ch mode x). destruct (choose (h_rules h) generation mode x) as [[t' p']|].
    + exfalso. destruct Ch as (a' & -> & Ap'). exact (applied_some _ _ _ _ _ _ Ap' No).
    + rewrite Et. destruct Ki as [Ki|[Ki|Ki]]; rewrite Ki; reflexivity.
  - intros k scope mode x p size t No Et Ki P generation s Ec Ep El Ch. eexists 1%nat, _. cbn [apply_rule]. specialize (Ch mode x). destruct (choose (h_rules h) generation mode x) as [[t' p']|].
    + exfalso. destruct Ch as (a' & -> & Ap'). exact (applied_some _ _ _ _ _ _ Ap' No).
    + rewrite Et. destruct t as [i at_ ks]. change (t_kind (Xt i at_ ks)) with (i_kind i) in Ki. destruct Ki as [Ki|[Ki|Ki]]; rewrite Ki; reflexivity.
Qed.
End Complete.

Lemma transform_complete : forall s c f body attributes x mode g out, load s = Val (Some c) -> plain f ->
  tidy_sheet f attributes (visit [] (tree_of s)) body -> proper f attributes x ->
  applies f (visit [] (tree_of s)) body (Sink false false) (fun _ => True) [] x 1 1 out ->
  exists fuel st, transform f (Sheet c body) fuel mode g x = Done out st.
Proof.
  intros s c f body at_ x mode g out E P T Q H.
  destruct (complete_lemma f (Sheet c body) (visit [] (tree_of s)) at_ P T (apply_templates_lemma s c E) (apply_imports_lemma s c E) (named_lemma s c E)) as (_ & _ & _ & Ap & _).
  destruct (Ap (Sink false false) [] 1 1 [x] out) with (s := State x (-1) 1 mode g) as (n & s' & Hn).
  { rewrite <- (app_nil_r out). constructor; [exact H|constructor]. }
  { apply Forall_cons; [exact Q|apply Forall_nil]. }
  { reflexivity. }
  exists n, (set_last (-1) s'). unfold transform. rewrite Hn. reflexivity.
Qed.
