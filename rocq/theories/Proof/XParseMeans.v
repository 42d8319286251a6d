From Coq Require Import SpecFloat Sorted Permutation.
From Verif.Model Require Import Base XNode XAxis XNodeSet XCompare XStep XEval XParse.
From Verif.Spec Require Import XOrder XAxisSpec XNodeSetSpec XCompareSpec XStepSpec XEvalSpec XParseSpec.
From Verif.Proof Require Import XOrderProof XAxisProof XAxisWalks XNodeSetProof XStepProof XEvalProof XParseTree.
From Verif.Spec Require Import XStepSpec.
From Coq Require Import List.
Import ListNotations.

(** * Dissolved paths are the same paths *)
Lemma flag_keep l : Forall (step_all (fun e => forall b, gives_attribute b (flat e) = gives_attribute b e)) l -> forall b, fold_left flag (map keep l) b = fold_left flag l b.
Proof. intro H. induction H as [|s l D H IH]; intro b; [reflexivity|]. cbn [map fold_left]. rewrite IH. f_equal. destruct s as [a s qs|e qs]; [reflexivity|]. apply (proj1 D). Qed.
Lemma flag_flat e : forall b, gives_attribute b (flat e) = gives_attribute b e.
Proof.
  induction e using expr_ind2; intro b'; try reflexivity.
  - cbn [flat gives_attribute]. rewrite IHe1, IHe2. reflexivity.
  - rewrite flat_path. change (fold_left flag (if b then map keep steps else flat_first steps) (if b then false else b') = fold_left flag steps (if b then false else b')).
    destruct b; [apply flag_keep, H|]. destruct steps as [|[a s qs|e [|q qs]] steps]; cbn [flat_first]; try (apply flag_keep, H).
    inversion H as [|? ? DD HR]; subst. destruct DD as [D _]. rewrite fold_left_app, (flag_keep _ HR). cbn [fold_left flag]. f_equal. rewrite <- D. unfold flat_start. destruct (flat e) as [| | | | | | | | | |[] [|s l]]; reflexivity.
Qed.

Section Allowed.
  Context (t : xtree).
  Fixpoint goes (from : bool) (l : list (step_of expr)) : Prop :=
    match l with
    | [] => True
    | AxisStep a s qs :: r => step_allowed t from a s /\ fold_right and True (map (allowed t (to_attribute a from)) qs) /\ goes (to_attribute a from) r
    | FilterStep _ _ :: _ => False
    end.
  Definition begins_path (b : bool) (l : list (step_of expr)) : Prop :=
    match l with
    | FilterStep e qs :: r => allowed t b e /\ fold_right and True (map (allowed t (gives_attribute b e)) qs) /\ goes (gives_attribute b e) r
    | _ => goes b l
    end.
  Lemma allowed_relative b l : allowed t b (EPath false l) <-> begins_path b l.
  Proof. destruct l as [|[a s qs|e qs] l]; cbn [allowed begins_path]; [reflexivity|reflexivity|]. split; [intros [_ H]; exact H|intro H; split; [reflexivity|exact H]]. Qed.
  Lemma goes_begins b l : goes b l -> begins_path b l.
  Proof. destruct l as [|[a s qs|e qs] l]; trivial. contradiction. Qed.
  Lemma allowed_absolute b l : allowed t b (EPath true l) <-> goes false l.
  Proof. destruct l as [|[a s qs|e qs] l]; [reflexivity|reflexivity|]. split; [intros [D _]; discriminate D|contradiction]. Qed.
  Lemma goes_app l m : forall b, goes b (l ++ m) <-> goes b l /\ goes (fold_left flag l b) m.
  Proof.
    induction l as [|[a s qs|e qs] l IH]; intro b; cbn [app goes fold_left flag]; [tauto| |tauto]. rewrite IH. tauto.
  Qed.
  Lemma begins_app l m b : l <> [] -> (begins_path b (l ++ m) <-> begins_path b l /\ goes (fold_left flag l b) m).
  Proof. intro N. destruct l as [|[a s qs|e qs] l]; [elim N; reflexivity|apply goes_app|]. cbn [app begins_path fold_left flag]. rewrite goes_app. tauto. Qed.
  Local Notation same := (fun e => forall b, allowed t b (flat e) <-> allowed t b e).
  Lemma all_same l : Forall same l -> forall b, fold_right and True (map (allowed t b) (map flat l)) <-> fold_right and True (map (allowed t b) l).
  Proof. intros H b. induction H as [|e l D H IH]; [reflexivity|]. cbn [map fold_right]. rewrite (D b), IH. reflexivity. Qed.
  Lemma goes_keep l : Forall (step_all same) l -> forall b, goes b (map keep l) <-> goes b l.
  Proof.
    intro H. induction H as [|s l D H IH]; intro b; [reflexivity|]. destruct s as [a s qs|e qs]; cbn [map keep goes]; [|reflexivity]. rewrite IH, (all_same _ D). reflexivity.
  Qed.
  Lemma begins_keep l : Forall (step_all same) l -> forall b, begins_path b (map keep l) <-> begins_path b l.
  Proof.
    intros H b. destruct l as [|[a s qs|e qs] l]; [reflexivity|exact (goes_keep _ H b)|]. inversion H as [|? ? DD HR]; subst. destruct DD as [D DQ]. cbn [map keep begins_path]. rewrite (D b), (all_same _ DQ), (goes_keep _ HR), flag_flat. reflexivity.
  Qed.
  Lemma allowed_flat e : forall b, allowed t b (flat e) <-> allowed t b e.
  Proof.
    induction e using expr_ind2; intro b'; try reflexivity; try (cbn [flat allowed]; rewrite IHe1, IHe2; reflexivity).
    - cbn [flat allowed]. apply IHe.
    - cbn [flat allowed]. apply all_same, H.
    - rewrite flat_path. destruct b; [rewrite !allowed_absolute; apply goes_keep, H|]. rewrite !allowed_relative. destruct steps as [|[a s qs|e [|q qs]] steps]; cbn [flat_first]; try (apply begins_keep, H).
      inversion H as [|? ? DD HR]; subst. destruct DD as [D _]. rewrite (begins_app _ _ _ (flat_start_some e)), (goes_keep _ HR). cbn [begins_path map fold_right].
      assert (begins_path b' (flat_start e) <-> allowed t b' e) as ->.
      { rewrite <- (D b'). unfold flat_start. destruct (flat e) as [| | | | | | | | | |[] [|s l]]; try (cbn [begins_path map fold_right goes]; tauto). symmetry. apply allowed_relative. }
      assert (fold_left flag (flat_start e) b' = gives_attribute b' e) as ->; [|tauto].
      rewrite <- flag_flat. unfold flat_start. destruct (flat e) as [| | | | | | | | | |[] [|s l]]; reflexivity.
  Qed.
End Allowed.

(** * and they mean the same *)
Section Means.
  Context (ss : sorter) (f : forest) (d : nat) (c : conversions) (vars : str -> str -> value -> Prop).
  Hypothesis SS : sorts ss.
  Hypothesis DOC : documents f.
  Hypothesis OWN : f_doc f d = d.
  Hypothesis WD : whole_document (f_tree f d).
  Local Notation t := (f_tree f d).
  Local Notation fine := (fine f d).
  Hypothesis VARS : forall uri name s, vars uri name (VSet s) -> Forall (fine true) (s_nodes s).
  Local Notation means := (means c f vars).
  Definition want (s : step_of expr) : wanted := match s with AxisStep a s qs => ByAxis a s (map means qs) | FilterStep e qs => ByValue (means e) (map means qs) end.

  Definition imp (b : bool) (q q' : meaning) : Prop := forall x p l v, fine b x -> q x p l v -> q' x p l v.
  Lemma kept_imp b q q' size p l m : imp b q q' -> kept q size p l m -> Forall (fine b) l -> kept q' size p l m /\ Forall (fine b) m.
  Proof.
    intros I K. induction K as [p|p x l m v Q H K IH|p x l m v Q H K IH]; intro F; [split; [constructor|exact F]|inversion F as [|? ? F1 F2]; subst; destruct (IH F2) as [A B]..].
    - split; [eapply kept_in; [apply I; eassumption|exact H|exact A]|constructor; assumption].
    - split; [eapply kept_out; [apply I; eassumption|exact H|exact A]|exact B].
  Qed.
  Lemma filtered_imp b qs qs' l m : Forall2 (imp b) qs qs' -> filtered qs l m -> Forall (fine b) l -> filtered qs' l m /\ Forall (fine b) m.
  Proof.
    intros I K. revert qs' I. induction K as [l|q qs l m n K H IH]; intros qs' I F; inversion I as [|? q' ? r' I1 I2]; subst; [split; [constructor|exact F]|].
    destruct (kept_imp b q q' _ _ _ _ I1 K F) as [A B]. destruct (IH _ I2 B) as [C D]. split; [econstructor; eassumption|exact D].
  Qed.
  Lemma imp_refl b l : Forall2 (imp b) l l.
  Proof. induction l as [|m l IH]; constructor; [intros x p s v _ H; exact H|exact IH]. Qed.
  Lemma step_imp b a s qs qs' x l : fine b x -> Forall2 (imp (to_attribute a b)) qs qs' -> step_list f a s qs x l -> step_list f a s qs' x l /\ Forall (fine (to_attribute a b)) l.
  Proof.
    intros [D [IN FL]] I [ns [ts [AL [PK FI]]]]. rewrite D in *.
    assert (Forall (fine (to_attribute a b)) (map (pair d) ts)) as FT.
    { rewrite Forall_forall. intros y Y. apply in_map_iff in Y. destruct Y as [p [<- P]]. apply (picks_incl _ _ _ PK) in P. destruct P as [P _]. apply (axis_in _ _ _ _ AL) in P. destruct P as [P1 P2]. split; [reflexivity|]. split; [exact P1|]. intro TA. exact (attribute_flag t a b (snd x) p IN P1 P2 FL TA). }
    destruct (filtered_imp _ _ _ _ _ I FI FT) as [A B]. split; [|exact B]. unfold step_list. rewrite D. exists ns, ts. split; [exact AL|]. split; [exact PK|exact A].
  Qed.
  (** Steps along axes whose predicates mean the same. *)
  Inductive axes : bool -> list wanted -> list wanted -> bool -> Prop :=
    | axes_end b : axes b [] [] b
    | axes_one b a s qs qs' r r' b' : Forall2 (imp (to_attribute a b)) qs qs' -> axes (to_attribute a b) r r' b' -> axes b (ByAxis a s qs :: r) (ByAxis a s qs' :: r') b'.
  Lemma axes_imp b ws ws' b' : axes b ws ws' b' -> forall p q l m, gives f p q ws l m -> Forall (fine b) l -> gives f p q ws' l m /\ Forall (fine b') m.
  Proof.
    intro A. induction A as [b|b a s qs qs' r r' b' I A IH]; intros p q l m G F.
    - inversion G as [? ? H| |]; subst. split; [constructor; exact H|]. rewrite Forall_forall in *. intros x X. apply F, H, X.
    - inversion G as [|? ? ? ? ? ? g H G'|]; subst. rewrite Forall_forall in F. destruct (IH p q _ _ G') as [C D].
      + rewrite Forall_forall. intros y Y. apply in_flat_map in Y. destruct Y as [x [X Y]]. destruct (step_imp b a s qs qs' x (g x) (F x X) I (H x X)) as [_ FY]. rewrite Forall_forall in FY. apply FY, Y.
      + split; [|exact D]. eapply gives_axis; [|exact C]. intros x X. apply (step_imp b a s qs qs' x (g x) (F x X) I (H x X)).
  Qed.
  (** An expression, with predicates, and then such steps. *)
  Lemma value_imp b a v v' qs qs' r r' b' : imp b v v' -> (forall x p l s, fine b x -> v x p l (VSet s) -> Forall (fine a) (s_nodes s)) -> Forall2 (imp a) qs qs' -> axes a r r' b' ->
    forall p q x m, fine b x -> gives f p q (ByValue v qs :: r) [x] m -> gives f p q (ByValue v' qs' :: r') [x] m /\ Forall (fine b') m.
  Proof.
    intros I FV IQ A p q x m F G. inversion G as [| |? ? ? ? ? y w n E V O G']; subst. assert (y = x) as -> by (symmetry; destruct (proj2 (E y) eq_refl) as [H|[]]; exact H).
    destruct w as [| | |s].
    1-3: subst n; destruct (axes_imp _ _ _ _ A _ _ _ _ G' (Forall_nil _)) as [C D]; (split; [|exact D]); eapply gives_value; [exact E|apply I; [exact F|exact V]|reflexivity|exact C].
    destruct O as [o [O1 [O2 O3]]]. assert (Forall (fine a) o) as FO by (specialize (FV x p q s F V); rewrite Forall_forall in *; intros y Y; apply FV, O1, Y).
    destruct (filtered_imp _ _ _ _ _ IQ O3 FO) as [B FN]. destruct (axes_imp _ _ _ _ A _ _ _ _ G' FN) as [C D]. split; [|exact D].
    eapply gives_value; [exact E|apply I; [exact F|exact V]| |exact C]. exists o. auto.
  Qed.

  (** The nodes that an expression means are nodes of the document. *)
  Lemma axes_refl l : forall b, goes t b l -> axes b (map want l) (map want l) (fold_left flag l b).
  Proof. induction l as [|[a s qs|e qs] l IH]; intros b G; [constructor| |contradiction]. cbn [map want fold_left flag]. constructor; [apply imp_refl|apply IH, G]. Qed.
  Lemma means_path absolute steps x p l v : means (EPath absolute steps) x p l v <-> exists s, v = VSet s /\ gives f p l (map want steps) [if absolute then (fst x, []) else x] (s_nodes s).
  Proof. reflexivity. Qed.
  Lemma root_is_fine : fine false (d, []).
  Proof.
    split; [reflexivity|]. split; [|intros _ [i [q E]]; discriminate]. cbn [snd]. apply nodes_in. split; [apply in_order; left; split; [exact Logic.I|exists t; reflexivity]|]. unfold continues, is_text. cbn [subtree]. unfold tree_is_text. rewrite (proj1 WD). reflexivity.
  Qed.
  Lemma start_fine (absolute : bool) b x : fine b x -> fine (if absolute then false else b) (if absolute then (fst x, []) else x).
  Proof. intro F. destruct absolute; [|exact F]. rewrite (proj1 F). exact root_is_fine. Qed.
  Lemma applies_plain g x p l vs v s : applies c f g x p l vs v -> v <> VSet s.
  Proof.
    intros A ->. destruct g; cbn [applies] in A; repeat match type of A with
      | match ?vs with _ => _ end => destruct vs; try contradiction
      | exists _, _ => destruct A as [? A]
      | _ /\ _ => let H := fresh in destruct A as [H A]; try discriminate H
      | about _ _ _ _ _ => unfold about in A
      | _ => first [discriminate A|contradiction A]
    end.
  Qed.
  Lemma means_fine e : forall b, allowed t b e -> forall x p l s, fine b x -> means e x p l (VSet s) -> Forall (fine (gives_attribute b e)) (s_nodes s).
  Proof.
    induction e using expr_ind2; intros b' A x p l r F M.
    - discriminate M.
    - discriminate M.
    - exact (VARS _ _ _ M).
    - destruct M as [? [_ [[_ D]|[_ [? [_ D]]]]]]; discriminate D.
    - destruct M as [? [_ [[_ D]|[_ [? [_ D]]]]]]; discriminate D.
    - destruct M as [? [? [? [_ [_ [D _]]]]]]; discriminate D.
    - destruct M as [? [? [? [? [? [_ [_ [_ [_ [D _]]]]]]]]]]; discriminate D.
    - destruct M as [? [? [_ [_ D]]]]; discriminate D.
    - destruct M as [s1 [s2 [s3 [M1 [M2 [E H]]]]]]. injection E as <-. destruct A as [A1 A2]. specialize (IHe1 b' A1 x p l s1 F M1). specialize (IHe2 b' A2 x p l s2 F M2). rewrite Forall_forall in *. intros y Y. cbn [gives_attribute].
      apply H in Y. destruct Y as [Y|Y]; [destruct (IHe1 y Y) as [B [C D]]|destruct (IHe2 y Y) as [B [C D]]]; (split; [exact B|split; [exact C|]]; intro O; apply Bool.orb_false_iff in O; apply D, O).
    - destruct M as [[vs [_ M]]|[_ [? [_ [_ D]]]]]; [|discriminate D]. elim (applies_plain _ _ _ _ _ _ _ M eq_refl).
    - apply means_path in M. destruct M as [s [E G]]. injection E as <-. change (gives_attribute b' (EPath b steps)) with (fold_left flag steps (if b then false else b')).
      assert (exists y, fine (if b then false else b') y /\ gives f p l (map want steps) [y] (s_nodes r)) as [y [FX G']] by (eexists; split; [exact (start_fine b b' x F)|exact G]). clear G. rename G' into G.
      assert (begins_path t (if b then false else b') steps) as BP by (destruct b; [apply goes_begins; apply allowed_absolute in A; exact A|apply allowed_relative; exact A]).
      destruct steps as [|[a s qs|e qs] steps].
      + apply (axes_imp _ _ _ _ (axes_refl [] (if b then false else b') BP) _ _ _ _ G). constructor; [exact FX|constructor].
      + apply (axes_imp _ _ _ _ (axes_refl (AxisStep a s qs :: steps) (if b then false else b') BP) _ _ _ _ G). constructor; [exact FX|constructor].
      + destruct BP as [A1 [A2 A3]]. inversion H as [|? ? DD _]; subst. destruct DD as [D _]. cbn [map want fold_left flag] in *.
        eapply (value_imp _ _ _ _ _ _ _ _ _ (fun x p l v _ M => M) (D _ A1) (imp_refl _ _) (axes_refl steps _ A3)); [exact FX|exact G].
  Qed.

  (** Paths put together. *)
  Lemma gives_in p q ws l l' m : (forall x, In x l <-> In x l') -> gives f p q ws l m -> gives f p q ws l' m.
  Proof.
    intros E G. revert l' E. induction G as [l m H|a s qs r l m g H G IH|v qs r l m x w n H V O G IH]; intros l' E.
    - constructor. intro x. rewrite <- E. apply H.
    - eapply (gives_axis _ _ _ _ _ _ _ _ _ g); [intros x X; apply H, E, X|]. apply IH. intro x. rewrite !in_flat_map. split; intros [y [Y I]]; exists y; (split; [apply E, Y|exact I]).
    - eapply gives_value; [intro y; rewrite <- E; apply H|exact V|exact O|exact G].
  Qed.
  Lemma gives_app p q ws ws' l m : gives f p q (ws ++ ws') l m <-> exists n, gives f p q ws l n /\ gives f p q ws' n m.
  Proof.
    split.
    - revert l. induction ws as [|w ws IH]; intros l G; [exists l; split; [constructor; reflexivity|exact G]|]. cbn [app] in G. inversion G as [|? ? ? ? ? ? g H G'|? ? ? ? ? x u n H V O G']; subst; destruct (IH _ G') as [o [A B]]; exists o; (split; [|exact B]).
      + eapply gives_axis; eassumption.
      + eapply gives_value; eassumption.
    - intros [n [A B]]. induction A as [l n H|a s qs r l n g H G IH|v qs r l n x w o H V O G IH]; cbn [app].
      + eapply gives_in; [|exact B]. intro x. symmetry. apply H.
      + eapply gives_axis; [exact H|apply IH, B].
      + eapply gives_value; [exact H|exact V|exact O|apply IH, B].
  Qed.
  Lemma in_order_list a s : Forall (fine a) (s_nodes s) -> exists o, (forall y, In y o <-> In y (s_nodes s)) /\ StronglySorted (precedes f) o.
  Proof.
    intro F. pose (u := push_all (s_nodes s) (new_set true)). destruct (push_all_nodes (s_nodes s) (new_set true)) as [N [_ S1]]. cbn [new_set s_nodes app] in N.
    destruct (good_ordered ss f d SS DOC a u) as [_ [O [IN _]]].
    - apply good_unsorted; [exact OWN|exact WD|apply S1; reflexivity|unfold u; rewrite N; exact F].
    - exists (s_nodes (to_document_order ss f u)). split; [|exact O]. intro y. rewrite IN. unfold u. rewrite N. reflexivity.
  Qed.

  (** The operators. *)
  Lemma or_imp b e1 e2 e1' e2' : imp b (means e1) (means e1') -> imp b (means e2) (means e2') -> imp b (means (EOr e1 e2)) (means (EOr e1' e2')).
  Proof.
    intros I1 I2 x p l v F [u [M1 H]]. exists u. split; [apply I1; assumption|]. destruct H as [H|[T [w [M2 E]]]]; [left; exact H|]. right. split; [exact T|]. exists w. split; [apply I2; assumption|exact E].
  Qed.
  Lemma and_imp b e1 e2 e1' e2' : imp b (means e1) (means e1') -> imp b (means e2) (means e2') -> imp b (means (EAnd e1 e2)) (means (EAnd e1' e2')).
  Proof.
    intros I1 I2 x p l v F [u [M1 H]]. exists u. split; [apply I1; assumption|]. destruct H as [H|[T [w [M2 E]]]]; [left; exact H|]. right. split; [exact T|]. exists w. split; [apply I2; assumption|exact E].
  Qed.
  Lemma rel_imp b op e1 e2 e1' e2' : imp b (means e1) (means e1') -> imp b (means e2) (means e2') -> imp b (means (ERel op e1 e2)) (means (ERel op e1' e2')).
  Proof. intros I1 I2 x p l v F [u [w [r [M1 [M2 H]]]]]. exists u, w, r. split; [apply I1; assumption|]. split; [apply I2; assumption|exact H]. Qed.
  Lemma arith_imp b op e1 e2 e1' e2' : imp b (means e1) (means e1') -> imp b (means e2) (means e2') -> imp b (means (EArith op e1 e2)) (means (EArith op e1' e2')).
  Proof. intros I1 I2 x p l v F [u [w [m [n [r [M1 [M2 H]]]]]]]. exists u, w, m, n, r. split; [apply I1; assumption|]. split; [apply I2; assumption|exact H]. Qed.
  Lemma negate_imp b e1 e1' : imp b (means e1) (means e1') -> imp b (means (ENegate e1)) (means (ENegate e1')).
  Proof. intros I1 x p l v F [u [n [M1 H]]]. exists u, n. split; [apply I1; assumption|exact H]. Qed.
  Lemma union_imp b e1 e2 e1' e2' : imp b (means e1) (means e1') -> imp b (means e2) (means e2') -> imp b (means (EUnion e1 e2)) (means (EUnion e1' e2')).
  Proof. intros I1 I2 x p l v F [u [w [r [M1 [M2 H]]]]]. exists u, w, r. split; [apply I1; assumption|]. split; [apply I2; assumption|exact H]. Qed.
  Lemma values_imp b ms ms' : Forall2 (imp b) ms ms' -> forall x p l vs, fine b x -> Forall2 (fun (m : meaning) w => m x p l w) ms vs -> Forall2 (fun (m : meaning) w => m x p l w) ms' vs.
  Proof. intro H. induction H as [|m m' ms ms' I H IH]; intros x p l vs F V; inversion V; subst; constructor; [apply I; assumption|apply IH; assumption]. Qed.
  Lemma call_imp b g es es' : Forall2 (imp b) (map means es) (map means es') -> imp b (means (ECall g es)) (means (ECall g es')).
  Proof.
    intros I x p l v F [[vs [V A]]|[G [u [M H]]]].
    - left. exists vs. split; [exact (values_imp _ _ _ I x p l vs F V)|exact A].
    - right. split; [exact G|]. exists u. split; [|exact H]. inversion I as [Z1 Z2|? ? ? ? I1 _ Z1 Z2]; rewrite <- Z1 in M; [contradiction|apply I1; assumption].
  Qed.

  Definition dissolves (e : expr) : Prop := forall b, allowed t b e -> imp b (means e) (means (flat e)) /\ imp b (means (flat e)) (means e).
  Lemma all_dissolve l : Forall dissolves l -> forall b, fold_right and True (map (allowed t b) l) -> Forall2 (imp b) (map means l) (map means (map flat l)) /\ Forall2 (imp b) (map means (map flat l)) (map means l).
  Proof.
    intros H b. induction H as [|e l D H IH]; intro A; [split; constructor|]. cbn [map fold_right] in *. destruct A as [A1 A2]. destruct (D b A1) as [P Q], (IH A2) as [P' Q']. split; constructor; assumption.
  Qed.
  Lemma axes_dissolve l : Forall (step_all dissolves) l -> forall b, goes t b l -> axes b (map want l) (map want (map keep l)) (fold_left flag l b) /\ axes b (map want (map keep l)) (map want l) (fold_left flag l b).
  Proof.
    intro H. induction H as [|s l D H IH]; intros b G; [split; constructor|]. destruct s as [a s qs|e qs]; [|contradiction]. destruct G as [_ [A G]]. cbn [map want keep fold_left flag]. destruct (all_dissolve qs D _ A) as [P Q], (IH _ G) as [P' Q']. split; constructor; assumption.
  Qed.
  (** Kept as they are, step by step. *)
  Lemma kept_dissolve l : Forall (step_all dissolves) l -> forall b, begins_path t b l -> forall p q x m, fine b x -> gives f p q (map want l) [x] m <-> gives f p q (map want (map keep l)) [x] m.
  Proof.
    intros H b BP p q x m F. assert (Forall (fine b) [x]) as FX by (constructor; [exact F|constructor]). destruct l as [|[a s qs|e qs] l].
    - reflexivity.
    - destruct (axes_dissolve _ H b BP) as [P Q]. split; intro G; [apply (axes_imp _ _ _ _ P _ _ _ _ G FX)|apply (axes_imp _ _ _ _ Q _ _ _ _ G FX)].
    - inversion H as [|? ? DD HR]; subst. destruct DD as [D DQ]. destruct BP as [A1 [A2 A3]]. destruct (D b A1) as [P Q], (all_dissolve qs DQ _ A2) as [PQ QQ], (axes_dissolve l HR _ A3) as [PA QA]. cbn [map want keep]. split; intro G.
      + eapply (value_imp _ _ _ _ _ _ _ _ _ P (means_fine e b A1) PQ PA _ _ _ _ F G).
      + eapply (value_imp _ _ _ _ _ _ _ _ _ Q (fun x p l s FX M => means_fine e b A1 x p l s FX (Q x p l _ FX M)) QQ QA _ _ _ _ F G).
  Qed.
  Lemma start_cases e : flat_start e = [FilterStep (flat e) []] \/ exists s l, flat e = EPath false (s :: l) /\ flat_start e = s :: l.
  Proof. unfold flat_start. destruct (flat e) as [| | | | | | | | | |[] [|s l]]; try (left; reflexivity). right. exists s, l. split; reflexivity. Qed.
  Lemma first_dissolve l : Forall (step_all dissolves) l -> forall b, begins_path t b l -> forall p q x m, fine b x -> gives f p q (map want l) [x] m <-> gives f p q (map want (flat_first l)) [x] m.
  Proof.
    intros H b BP p q x m F. destruct l as [|[a s qs|e [|q0 qs]] l]; try exact (kept_dissolve _ H b BP p q x m F). cbn [flat_first]. destruct (start_cases e) as [->|[s [l' [E ->]]]]; [exact (kept_dissolve _ H b BP p q x m F)|].
    inversion H as [|? ? DD HR]; subst. destruct DD as [D DQ]. destruct BP as [A1 [A2 A3]]. destruct (D b A1) as [P Q], (axes_dissolve l HR _ A3) as [PA QA]. rewrite map_app, gives_app. split.
    - intro G. cbn [map want] in G. inversion G as [| |? ? ? ? ? y w n EX V O G']; subst. assert (y = x) as -> by (symmetry; destruct (proj2 (EX y) eq_refl) as [Y|[]]; exact Y).
      pose proof (P x p q w F V) as M. rewrite E in M. apply means_path in M. destruct M as [r [-> GR]]. destruct O as [o [O1 [O2 O3]]]. inversion O3; subst.
      assert (Forall (fine (gives_attribute b e)) n) as FN by (pose proof (means_fine e b A1 x p q r F V) as FR; rewrite Forall_forall in *; intros y Y; apply FR, O1, Y).
      exists n. split; [|exact (proj1 (axes_imp _ _ _ _ PA _ _ _ _ G' FN))]. eapply gives_out; [exact GR|]. intro y. symmetry. apply O1.
    - intros [n [GN GM]]. pose (u := push_all n (new_set true)). assert (s_nodes u = n) as EU by (apply (proj1 (push_all_nodes n (new_set true)))).
      assert (means (flat e) x p q (VSet u)) as M by (rewrite E; apply means_path; exists u; split; [reflexivity|rewrite EU; exact GN]). apply Q in M; [|exact F].
      pose proof (means_fine e b A1 x p q u F M) as FU. destruct (in_order_list _ _ FU) as [o [O1 O2]]. rewrite EU in *.
      pose proof (proj1 (axes_imp _ _ _ _ QA _ _ _ _ GM FU)) as GL. cbn [map want]. eapply (gives_value _ _ _ _ _ _ _ _ x (VSet u) o); [|exact M| |].
      + intro y. split; [intros [<-|[]]; reflexivity|intros ->; left; reflexivity].
      + exists o. split; [rewrite EU; exact O1|]. split; [exact O2|constructor].
      + eapply gives_in; [|exact GL]. intro y. symmetry. apply O1.
  Qed.
  Lemma means_flat e : dissolves e.
  Proof.
    induction e using expr_ind2; intros b' A; try (split; intros x p l v F M; exact M).
    - destruct A as [A1 A2]. destruct (IHe1 b' A1) as [P Q], (IHe2 b' A2) as [P' Q']. split; apply or_imp; assumption.
    - destruct A as [A1 A2]. destruct (IHe1 b' A1) as [P Q], (IHe2 b' A2) as [P' Q']. split; apply and_imp; assumption.
    - destruct A as [A1 A2]. destruct (IHe1 b' A1) as [P Q], (IHe2 b' A2) as [P' Q']. split; apply rel_imp; assumption.
    - destruct A as [A1 A2]. destruct (IHe1 b' A1) as [P Q], (IHe2 b' A2) as [P' Q']. split; apply arith_imp; assumption.
    - destruct (IHe b' A) as [P Q]. split; apply negate_imp; assumption.
    - destruct A as [A1 A2]. destruct (IHe1 b' A1) as [P Q], (IHe2 b' A2) as [P' Q']. split; apply union_imp; assumption.
    - cbn [flat]. destruct (all_dissolve args H b' A) as [P Q]. split; apply call_imp; assumption.
    - rewrite flat_path. assert (begins_path t (if b then false else b') steps) as BP by (destruct b; [apply goes_begins; apply allowed_absolute in A; exact A|apply allowed_relative; exact A]).
      assert (forall x p q m, fine b' x -> gives f p q (map want steps) [if b then (fst x, []) else x] m <-> gives f p q (map want (if b then map keep steps else flat_first steps)) [if b then (fst x, []) else x] m) as G.
      { intros x p q m F. pose proof (start_fine b b' x F) as FX. destruct b; [exact (kept_dissolve steps H false BP p q _ m FX)|exact (first_dissolve steps H b' BP p q _ m FX)]. }
      split; intros x p l v F M; apply means_path in M; destruct M as [s [-> M]]; apply means_path; exists s; (split; [reflexivity|apply G; assumption]).
  Qed.
End Means.

(** What an expression that differs only in such parentheses gives. *)
Lemma evaluate_flat k d (from : bool) e e' x position last v : sorts (e_sort k) -> documents (e_forest k) -> f_doc (e_forest k) d = d -> proper (f_tree (e_forest k) d) ->
  (forall uri name v, e_vars k uri name = Got v -> usable (e_sort k) (e_forest k) d v) ->
  fst x = d -> In (snd x) (nodes (f_tree (e_forest k) d)) -> (from = false -> ~ is_attribute (snd x)) -> allowed (f_tree (e_forest k) d) from e ->
  flat e' = flat e -> evaluate k e' x position last = Got v ->
  (forall s, v = VSet s -> NoDup (s_nodes s) /\ forall y, In y (s_nodes s) -> fst y = d /\ In (snd y) (nodes (f_tree (e_forest k) d))) /\
  exists w, means (conversions_of k) (e_forest k) (variables_of k) e x position last w /\ same_value v w.
Proof.
  intros SO DOC OWN PR VARS D IN NA AL FE E. assert (allowed (f_tree (e_forest k) d) from e') as AL' by (apply allowed_flat; rewrite FE; apply allowed_flat; exact AL).
  destruct (evaluate_lemma k d from e' x position last v SO DOC OWN PR VARS D IN NA AL' E) as [H [w [M S1]]]. split; [exact H|]. exists w. split; [|exact S1].
  assert (forall uri name s, variables_of k uri name (VSet s) -> Forall (fine (e_forest k) d true) (s_nodes s)) as VF.
  { intros uri name s V. destruct (VARS _ _ _ V) as [_ [_ H1]]. rewrite Forall_forall. intros y Y. destruct (H1 y Y) as [Y1 Y2]. split; [exact Y1|split; [exact Y2|discriminate]]. }
  assert (fine (e_forest k) d from x) as F by (split; [exact D|split; [exact IN|exact NA]]).
  apply (proj2 (means_flat (e_sort k) (e_forest k) d (conversions_of k) (variables_of k) SO DOC OWN (proj1 PR) VF e from AL)); [exact F|]. rewrite <- FE.
  apply (proj1 (means_flat (e_sort k) (e_forest k) d (conversions_of k) (variables_of k) SO DOC OWN (proj1 PR) VF e' from AL')); [exact F|exact M].
Qed.
