From Coq Require Import SpecFloat Sorted Permutation.
From Verif.Model Require Import Base Containers Text XNode XAxis XNodeSet XCompare XString XStep XEval.
From Verif.Spec Require Import TextSpec XOrder XAxisSpec XNodeSetSpec XCompareSpec XNumberSpec XStringSpec XStepSpec XEvalSpec XSafeSpec.
From Verif.Proof Require Import Tac ContainersProof TextProof XOrderProof XAxisProof XAxisWalks XAxisSimple XNodeSetProof XCompareProof XNumberProof XIntProof XStringProof XStepProof XEvalProof.

(** * Answers *)
Lemma ends_then : forall {A B} (a : answer A) (g : A -> answer B), ends a -> (forall v, a = Got v -> ends (g v)) -> ends (andthen a g).
Proof. intros A B [v| | |] g E H; cbn in *; auto. Qed.
Lemma ends_option : forall {A} (o : option A), ends (from_option o).
Proof. intros A [x|]; exact I. Qed.
Lemma ends_text : forall k v, ends (to_text k v).
Proof. intros k [| | |s]; cbn; try exact I. apply ends_option. Qed.
Lemma ends_number : forall k v, ends (to_number k v).
Proof. intros k [| | |s]; cbn; try exact I. apply ends_then; [apply ends_option|]. intros v _. exact I. Qed.
Lemma ends_sum : forall k l z, ends (sum_nodes k l z).
Proof. intros k. induction l as [|x l IH]; intros z; cbn [sum_nodes]; [exact I|]. apply ends_then; [apply ends_option|]. intros v _. apply IH. Qed.
Lemma ends_compared : forall k op v w, equality op = true \/ (forall s, v <> VSet s) \/ (forall s, w <> VSet s) -> ends (compared k op v w).
Proof.
  intros k op v w H. unfold compared. destruct (has_text k v && has_text k w); [|exact I].
  enough (E : compare_values (reader_of k) (fun s => match set_text k s with Got t => t | _ => [] end) op v w <> None) by (destruct (compare_values _ _ op v w); [exact I|congruence]).
  destruct H as [H|[H|H]]; [|destruct v as [| | |s]; [| | |destruct (H s eq_refl)]|destruct w as [| | |s]; [| | |destruct (H s eq_refl)]];
  destruct op; try discriminate H; try (destruct v); try (destruct w); cbn; discriminate.
Qed.
Lemma set_some : forall n c v, (n < length v)%nat -> exists v', set_nth n c v = Val v' /\ length v' = length v.
Proof.
  induction n as [|n IH]; intros c [|x v] L; cbn in L; try lia; [eexists; split; reflexivity|]. destruct (IH c v) as (v' & E & LE); [lia|]. cbn [set_nth]. rewrite E. exists (x :: v'). split; [reflexivity|cbn; lia].
Qed.
Lemma translate_ends : forall n v i p from to, (i + n <= length v)%nat -> (p <= i)%nat -> exists v' p', translate_loop n v i p from to = Val (v', p') /\ length v' = length v /\ (p' <= i + n)%nat.
Proof.
  induction n as [|n IH]; intros v i p from to L P; cbn [translate_loop]; [exists v, p; split; [reflexivity|split; [reflexivity|lia]]|]. unfold get_nth. destruct (nth_error v i) as [c|] eqn:E; [|apply nth_error_None in E; lia]. cbn [obind].
  destruct (find_char c from) as [r|].
  - destruct (nth_error to r) as [x|].
    + destruct (set_some p x v) as (v' & -> & LE); [lia|]. cbn [obind]. destruct (IH v' (S i) (S p) from to) as (w & q & -> & A & B); [lia|lia|]. exists w, q. split; [reflexivity|split; lia].
    + destruct (IH v (S i) p from to) as (w & q & -> & A & B); [lia|lia|]. exists w, q. split; [reflexivity|split; lia].
  - destruct (IH v (S i) (S p) from to) as (w & q & -> & A & B); [lia|lia|]. exists w, q. split; [reflexivity|split; lia].
Qed.
Lemma translate_some : forall s from to, exists r, translate s from to = Val r.
Proof.
  intros s from to. unfold translate. destruct (translate_ends (length s) s 0 0 from to) as (v & p & -> & L & P); [lia|lia|]. cbn [obind]. destruct (Nat.eqb p (length v)) eqn:Q; [eexists; reflexivity|]. apply Nat.eqb_neq in Q. destruct (set_some p 0 v) as (v' & -> & _); [lia|]. eexists. reflexivity.
Qed.

(** * Predicates *)
Definition ends_on (ok : xnode -> Prop) (q : expression) : Prop := forall x position last, ok x -> int position -> int last -> ends (q x position last).
Lemma as_int_int : forall z, int (as_int z).
Proof. intros z. unfold int, as_int, wrap32. pose proof (Z.mod_pos_bound z 4294967296 ltac:(lia)). cbv zeta. destruct (Z.ltb_spec (z mod 4294967296) 2147483648); lia. Qed.
Lemma small_long : forall z, int z -> to_long (of_Z z) = Some z /\ is_nan (of_Z z) = false.
Proof. intros z B. unfold int in B. destruct (of_Z_int z) as (A & _); [lia|]. apply is_integer_long; [exact A|lia]. Qed.
Lemma mod_ends : forall m z, int m -> int z -> z <> 0 -> ends (arithmetic Mod (of_Z m) (of_Z z)).
Proof.
  intros m z M Z N. cbn [arithmetic]. unfold modulus. destruct (small_long m M) as (-> & ->), (small_long z Z) as (-> & ->). cbn [orb]. unfold int in M. destruct (Z.eqb_spec z 0); [contradiction|]. destruct (Z.eqb_spec m (-9223372036854775808)); [lia|]. exact I.
Qed.
Lemma keep_ends : forall ok q, ends_on ok q -> forall last l p res, Forall ok l -> Forall ok (s_nodes res) ->
  ends (keep q last p l res) /\ forall r, keep q last p l res = Got r -> Forall ok (s_nodes r).
Proof.
  intros ok q Q last. induction l as [|x l IH]; intros p res F R; cbn [keep]; [split; [exact I|intros r E; injection E as <-; exact R]|]. inversion F as [|? ? X F']; subst.
  assert (R' : forall v, Forall ok (s_nodes (if passes p v then push_node x res else res))). { intros v. destruct (passes p v); [|exact R]. cbn [push_node s_nodes]. apply Forall_app. split; [exact R|constructor; [exact X|constructor]]. }
  split.
  - apply ends_then; [apply Q; [exact X|apply as_int_int|apply as_int_int]|]. intros v _. exact (proj1 (IH _ _ F' (R' v))).
  - intros r E. destruct (q x (as_int p) (as_int last)) as [v| | |]; cbn [andthen] in E; try discriminate. exact (proj2 (IH _ _ F' (R' v)) r E).
Qed.
Lemma predicates_end : forall ok qs, Forall (ends_on ok) qs -> forall s, Forall ok (s_nodes s) -> ends (apply_predicates qs s).
Proof.
  intros ok qs H. induction H as [|q qs Q H IH]; intros s F; cbn [apply_predicates]; [exact I|]. destruct (s_nodes s) as [|y l] eqn:E; [exact I|]. rewrite <- E in F. unfold apply_predicate.
  destruct (keep_ends ok q Q (Z.of_nat (length (s_nodes s))) (s_nodes s) 1 (new_set (is_forward s)) F (Forall_nil _)) as (A & B). apply ends_then; [exact A|]. intros v V. apply IH. exact (B v V).
Qed.

(** * Steps *)
Section Document.
  Variables (k : env) (d : nat).
  Let f := e_forest k.
  Let ss := e_sort k.
  Let t := f_tree f d.
  Hypothesis SS : sorts ss.
  Hypothesis DOC : documents f.
  Hypothesis OWN : f_doc f d = d.
  Hypothesis PR : proper t.
  Hypothesis VARS : forall uri name v, e_vars k uri name = Got v -> usable ss f d v.
  Hypothesis VEND : forall uri name, ends (e_vars k uri name).
  Let WD : whole_document t := proj1 PR.
  Lemma walk_ends : forall a s (from : bool) x, fine f d from x -> step_allowed t from a s -> exists l, enumerate (tree_size t) t 0 a (snd x) = Nodes l.
  Proof.
    intros a s from x (D & IN & FL) (NN & PP & CH & AT). fold t in IN. destruct WD as (TK & SH & SM & SZ & NK & TX). assert (RK : t_kind t <> Xattribute) by (rewrite TK; discriminate).
    assert (FU : tree_size t = length (order t [])) by (symmetry; apply size_eq).
    assert (DEC : provided t a (snd x) \/ (a = Child /\ is_attribute (snd x))).
    { destruct (attb (snd x)) eqn:AB; [apply attb_ok in AB|assert (~ is_attribute (snd x)) by (intros H; apply attb_ok in H; congruence)].
      - destruct a; try (left; split; [discriminate|split; [discriminate|split; [intros _; exact TK|exact PP]]]); auto; contradiction.
      - left. split; [exact NN|]. split; [auto|]. split; [intros _; exact TK|exact PP]. }
    destruct DEC as [PV|(-> & IA)].
    - destruct (axis_lemma t (snd x) a (tree_size t) 0 SH RK IN PV) as (la & E1 & _); [rewrite FU; lia|]. exists la. exact E1.
    - destruct IA as (i & p & EX). apply nodes_in in IN. destruct IN as (IO & _). rewrite EX in IO |- *. pose proof IO as IO0. apply in_order in IO. destruct IO as [(K & _)|(i' & p' & EE & K & u & U)]; [contradiction|]. injection EE as <- <-.
      destruct (attribute_child t i p u (tree_size t) U) as (l & E1 & _); [rewrite Forall_forall; intros y KK; exact (TX i p u y IO0 U KK)|rewrite FU; apply order_some|]. exists l. exact E1.
  Qed.
  Lemma over_ends : forall a s qs (from : bool) x results, fine f d from x -> step_allowed t from a s -> Forall (ends_on (fine f d (to_attribute a from))) qs -> ends (enumerate_over f a (get_test a s) qs x results).
  Proof.
    intros a s qs from x results F SA Q. destruct (walk_ends a s from x F SA) as (l & E). pose proof (proj1 F) as D.
    assert (G : exists r, enumerate_over f a (get_test a s) [] x (new_set true) = Got r) by (unfold enumerate_over; rewrite D; fold t; rewrite E; eexists; reflexivity). destruct G as (r & G).
    destruct (step_lemma f d OWN WD a s [] [] from x (new_set true) r F SA (Forall2_nil _) G) as (_ & FN). unfold from_one in FN. rewrite G in FN.
    unfold enumerate_over in *. rewrite D in *. fold t in G |- *. rewrite E in *. injection G as <-. set (tested := map _ _) in *. clearbody tested. destruct qs as [|q qs]; [exact I|].
    apply ends_then; [|intros m _; exact I]. apply (predicates_end _ _ Q). destruct (push_all_nodes tested (set_forward (axis_forward a) (new_set true))) as (A & _). destruct (push_all_nodes tested (new_set (axis_forward a))) as (A' & _). rewrite A in FN. rewrite A'.
    replace (s_nodes (set_forward (axis_forward a) (new_set true))) with (@nil xnode) in FN by (unfold set_forward; destruct (Bool.eqb _ _); reflexivity). exact FN.
  Qed.
  Lemma over_all_ends : forall a s qs (from : bool), step_allowed t from a s -> Forall (ends_on (fine f d (to_attribute a from))) qs -> forall l results, Forall (fine f d from) l -> ends (over_all f a (get_test a s) qs l results).
  Proof.
    intros a s qs from SA Q. induction l as [|x l IH]; intros results F; cbn [over_all]; [exact I|]. inversion F as [|? ? X F']; subst. apply ends_then; [exact (over_ends a s qs from x results X SA Q)|]. intros r _. apply IH. exact F'.
  Qed.
  Lemma over_all_fine : forall a s qs (from : bool) l r, step_allowed t from a s -> Forall (fine f d from) l -> over_all f a (get_test a s) qs l (new_set true) = Got r -> Forall (fine f d (to_attribute a from)) (s_nodes r).
  Proof.
    intros a s qs from l r SA F E. destruct (over_all_lemma f d OWN WD a s qs (map computes qs) from SA (computes_all _ qs) l (new_set true) r F eq_refl E) as (N & _ & H). rewrite N. cbn [new_set s_nodes app]. rewrite Forall_forall. intros y Y. apply in_flat_map in Y. destruct Y as (x & X & Y). destruct (H x X) as (_ & FX). rewrite Forall_forall in FX. apply FX. exact Y.
  Qed.
  (** Steps along axes whose predicates end. *)
  Inductive safe_steps : bool -> list step -> Prop :=
    | safe_end : forall b, safe_steps b []
    | safe_axis : forall b a s qs r, step_allowed t b a s -> Forall (ends_on (fine f d (to_attribute a b))) qs -> safe_steps (to_attribute a b) r -> safe_steps b (TestStep a (get_test a s) qs :: r).
  Lemma steps_end : forall b steps, safe_steps b steps -> forall nodes position last, Forall (fine f d b) (s_nodes nodes) -> ends (steps_value ss f steps nodes position last).
  Proof.
    intros b steps S. induction S as [b|b a s qs r SA Q S IH]; intros nodes position last F; cbn [steps_value step_value]; [exact I|]. destruct (over_all f a (get_test a s) qs (s_nodes nodes) (new_set true)) as [r1| | |] eqn:E.
    - cbn [andthen as_set]. apply IH. exact (over_all_fine a s qs b _ _ SA F E).
    - exact I.
    - pose proof (over_all_ends a s qs b SA Q (s_nodes nodes) (new_set true) F) as H. rewrite E in H. exact H.
    - pose proof (over_all_ends a s qs b SA Q (s_nodes nodes) (new_set true) F) as H. rewrite E in H. exact H.
  Qed.
  Lemma path_ends : forall b steps x position last, safe_steps b steps -> fine f d b x -> ends (relative_path ss f steps x position last).
  Proof. intros b steps x p l S F. unfold relative_path. apply ends_then; [|intros v _; exact I]. apply (steps_end b steps S). constructor; [exact F|constructor]. Qed.
  Lemma filter_path_ends : forall b c e m qs steps x position last, sound f d b c e m -> ends_on (fine f d b) e -> Forall (ends_on (fine f d c)) qs -> safe_steps c steps -> fine f d b x -> int position -> int last -> ends (relative_path ss f (ExprStep e qs :: steps) x position last).
  Proof.
    intros b c e m qs steps x p l SO EE Q S F IP IL. unfold relative_path. apply ends_then; [|intros v _; exact I]. cbn [steps_value step_value]. rewrite (top_one ss f d SS DOC OWN WD b x F). apply ends_then.
    - unfold filter_value. destruct qs as [|q qs]; [apply EE; assumption|]. apply ends_then; [apply EE; assumption|]. intros v V. apply ends_then; [|intros s _; exact I]. destruct (SO x p l v F V) as (G & _). apply (predicates_end _ _ Q).
      assert (GS : good f d c (as_set v)) by (destruct v; try (apply (good_empty f d OWN WD)); exact G). exact (proj2 (proj1 (good_ordered ss f d SS DOC c _ GS))).
    - intros v V. destruct (filter_lemma ss f d SS DOC OWN WD b c e m qs (map computes qs) x p l v SO (computes_all _ qs) F V) as (_ & G & _). apply (steps_end c steps S). destruct v; try constructor. exact (proj2 G).
  Qed.

  (** * Functions and expressions *)
  Lemma fine_subtree : forall b x, fine f d b x -> exists u, subtree (f_tree f (fst x)) (snd x) = Some u.
  Proof. intros b x (D & IN & _). rewrite D. apply nodes_in in IN. destruct IN as (IN & _). apply in_order in IN. destruct IN as [(_ & U)|(i & q & _ & _ & U)]; exact U. Qed.
  Lemma named_ends : forall g b es ms x p l, Forall2 (esound k d b true) es ms -> Forall (ends_on (fine f d b)) es -> fine f d b x -> int p -> int l -> ends (andthen (node_arg k es x p l) (named k g)).
  Proof.
    intros g b es ms x p l S E F IP IL. destruct es as [|e es]; cbn [node_arg].
    - cbn [andthen named]. destruct (fine_subtree b x F) as (u & U). fold f. rewrite U. exact I.
    - inversion E as [|? ? E1 _]; subst. inversion S as [|? m ? ? S1 _]; subst. destruct (e x p l) as [v| | |] eqn:V; cbn [andthen]; try exact I; try (pose proof (E1 x p l F IP IL) as H; rewrite V in H; exact H).
      destruct (S1 x p l v F V) as (G & _). destruct (s_nodes (as_set v)) as [|y r] eqn:N; [exact I|]. destruct v as [| | |s]; cbn [as_set new_set s_nodes] in N |- *; try discriminate. destruct G as (GS & FI). destruct (top_lemma ss f s SS DOC GS) as (z & T & Z & _); [rewrite N; discriminate|]. fold ss f. rewrite T. cbn [andthen named].
      rewrite Forall_forall in FI. destruct (fine_subtree true z (FI z Z)) as (u & U). fold f. rewrite U. exact I.
  Qed.
  Lemma call_ends : forall g b es ms x p l, Forall2 (esound k d b true) es ms -> Forall (ends_on (fine f d b)) es -> fine f d b x -> int p -> int l -> g <> Substring -> ends (call k g es x p l).
  Proof.
    intros g b es ms x p l S E F IP IL NS.
    assert (TX : forall e, ends_on (fine f d b) e -> ends (andthen (e x p l) (to_text k))) by (intros e H; apply ends_then; [apply H; assumption|intros v _; apply ends_text]).
    assert (NX : forall e, ends_on (fine f d b) e -> ends (andthen (e x p l) (to_number k))) by (intros e H; apply ends_then; [apply H; assumption|intros v _; apply ends_number]).
    assert (TA : ends (text_arg k es x p l)) by (destruct E as [|e es' E1 E2]; cbn [text_arg]; [apply ends_option|apply TX; exact E1]).
    assert (TS : ends (text_args k es x p l)). { clear - E TX. induction E as [|e es E1 E2 IH]; cbn [text_args]; [exact I|]. apply ends_then; [apply TX; exact E1|]. intros s _. apply ends_then; [exact IH|]. intros r _. exact I. }
    destruct g; cbn [call]; try contradiction;
      try (apply (named_ends _ b es ms); assumption);
      try (apply ends_then; [exact TA|intros s _; exact I]);
      try (apply ends_then; [exact TS|intros s _; exact I]);
      try (apply ends_then; [exact TA|intros s _; rewrite normalize_whitespace_spec; exact I]);
      (destruct E as [|e1 es E1 E]; [|destruct E as [|e2 es E2 E]; [|destruct E as [|e3 es E3 E]; [|destruct E as [|e4 es E4 E]]]]); try exact I;
      try (apply ends_then; [apply E1; assumption|intros v _; exact I]);
      try (apply ends_then; [apply NX; exact E1|intros v _; exact I]);
      try (apply ends_then; [apply ends_option|intros v _; exact I]);
      try (apply ends_then; [apply TX; exact E1|intros v _; apply ends_then; [apply TX; exact E2|intros w _; exact I]]).
    - apply ends_then; [apply TX; exact E1|]. intros v _. apply ends_then; [apply TX; exact E2|]. intros w _. destruct (starts_with_ok v w) as (r & -> & _). exact I.
    - apply ends_then; [apply TX; exact E1|]. intros v _. apply ends_then; [apply TX; exact E2|]. intros w _. apply ends_then; [apply TX; exact E3|]. intros u _. destruct (translate_some v w u) as (r & ->). exact I.
    - apply ends_then; [apply E1; assumption|]. intros v _. apply ends_then; [apply ends_sum|]. intros n _. exact I.
  Qed.
  Definition safe (e : expr) : Prop := forall b, compiles e = true -> allowed t b e -> tame e -> ends_on (fine f d b) (eval k e).
  Definition step_tame (s : step_of expr) : Prop := match s with AxisStep _ _ qs => fold_right and True (map tame qs) | FilterStep e qs => tame e /\ fold_right and True (map tame qs) end.
  Lemma all_safe : forall es, Forall safe es -> forall b, forallb (fun b => b) (map compiles es) = true -> fold_right and True (map (allowed t b) es) -> fold_right and True (map tame es) -> Forall (ends_on (fine f d b)) (map (eval k) es).
  Proof.
    intros es H. induction H as [|e es D H IH]; intros b CO AL TM; [constructor|]. cbn [map forallb fold_right] in *. apply andb_true_iff in CO. destruct CO as (C1 & C2), AL as (A1 & A2), TM as (T1 & T2). constructor; [apply D; assumption|apply IH; assumption].
  Qed.
  Lemma axes_safe : forall steps, Forall (step_all safe) steps -> forall b, forallb (fun b => b) (map step_compiles steps) = true -> go k d b steps -> fold_right and True (map step_tame steps) -> safe_steps b (map (code_of k) steps).
  Proof.
    intros steps H. induction H as [|s steps D H IH]; intros b CO GO TM; [constructor|]. destruct s as [a s qs|e qs]; [|contradiction]. cbn [map forallb step_compiles go code_of step_all step_tame fold_right] in *. apply andb_true_iff in CO. destruct CO as (C1 & C2), GO as (SA & AL & GO), TM as (T1 & T2).
    constructor; [exact SA| |apply IH; assumption]. apply all_safe; assumption.
  Qed.
  Lemma not_set : forall e b, not_a_set e -> compiles e = true -> allowed t b e -> forall x p l v, fine f d b x -> eval k e x p l = Got v -> forall s, v <> VSet s.
  Proof.
    intros e b N CO AL x p l v F E s ->. destruct e as [n|s'|u n|a a'|a a'|op a a'|op a a'|a|a a'|g args|ab steps]; try contradiction; cbn [eval] in E; try discriminate.
    - destruct (eval k a x p l) as [va| | |]; cbn [andthen] in E; try discriminate. destruct (as_bool va); [discriminate|]. destruct (eval k a' x p l) as [vb| | |]; discriminate.
    - destruct (eval k a x p l) as [va| | |]; cbn [andthen] in E; try discriminate. destruct (as_bool va); [|discriminate]. destruct (eval k a' x p l) as [vb| | |]; discriminate.
    - destruct (eval k a x p l) as [va| | |]; cbn [andthen] in E; try discriminate. destruct (eval k a' x p l) as [vb| | |]; cbn [andthen] in E; try discriminate. unfold compared in E. destruct (has_text k va && has_text k vb); [|discriminate]. destruct (compare_values _ _ op va vb); discriminate.
    - destruct (eval k a x p l) as [va| | |]; cbn [andthen] in E; try discriminate. destruct (to_number k va) as [m| | |]; cbn [andthen] in E; try discriminate. destruct (eval k a' x p l) as [vb| | |]; cbn [andthen] in E; try discriminate. destruct (to_number k vb) as [n| | |]; cbn [andthen] in E; try discriminate. destruct op; cbn [arithmetic] in E; try discriminate. destruct (modulus m n); discriminate.
    - destruct (eval k a x p l) as [va| | |]; cbn [andthen] in E; try discriminate. destruct (to_number k va) as [m| | |]; discriminate.
    - cbn [compiles] in CO. apply andb_true_iff in CO. destruct CO as (AR & CO).
      destruct (call_lemma k d SS DOC OWN PR VARS g b (map (eval k) args) (map (means (Conversions (e_num k) (e_show k)) f (fun uri name v => e_vars k uri name = Got v)) args) x p l (VSet s)) as (NS & _); [|rewrite map_length; exact AR|exact F|exact E|exact (NS s eq_refl)].
      apply (all_done k d); [|exact CO|exact AL]. apply Forall_forall. intros e _. apply (eval_lemma k d SS DOC OWN PR VARS).
  Qed.
  Lemma every_done : forall es, Forall (done k d) es.
  Proof. intros es. apply Forall_forall. intros e _. apply (eval_lemma k d SS DOC OWN PR VARS). Qed.
  Lemma whole_int : forall e b, whole_number e -> compiles e = true -> allowed t b e -> forall x p l v m, fine f d b x -> int p -> int l -> eval k e x p l = Got v -> to_number k v = Got m -> exists z, int z /\ m = of_Z z.
  Proof.
    intros e b WH CO AL x p l v m F IP IL V M. destruct e as [n|s|u n|a a'|a a'|op a a'|op a a'|a|a a'|g args|ab steps]; try contradiction.
    - destruct WH as (z & IZ & ->). injection V as <-. injection M as <-. exists z. auto.
    - destruct g; try contradiction; cbn [compiles arity_ok arity] in CO; destruct args as [|e args]; try discriminate CO; cbn [eval map call] in V.
      + injection V as <-. injection M as <-. exists p. auto.
      + injection V as <-. injection M as <-. exists l. auto.
      + destruct args as [|e' args]; [|discriminate CO]. cbn [map] in V. destruct (eval k e x p l) as [w| | |] eqn:W; cbn [andthen] in V; try discriminate. injection V as <-. injection M as <-. eexists. split; [|reflexivity].
        cbn [map forallb length Nat.leb andb] in CO. apply andb_true_iff in CO. destruct CO as (CO & _). destruct AL as (AL & _). destruct (eval_lemma k d SS DOC OWN PR VARS e b CO AL x p l w F W) as (G & ND & _).
        assert (LE : (length (s_nodes (as_set w)) <= length (order t []))%nat). { destruct w as [| | |s]; try (cbn; lia). cbn [as_set]. destruct G as (_ & FI). transitivity (length (map (pair d) (nodes t))); [|rewrite map_length; apply nodes_length]. apply NoDup_incl_length; [exact ND|]. intros y Y. rewrite Forall_forall in FI. destruct (FI y Y) as (D & IY & _). apply in_map_iff. exists (snd y). split; [rewrite <- D; destruct y; reflexivity|exact IY]. }
        pose proof (proj1 (proj2 (proj2 (proj2 WD)))) as SZ. unfold int. lia.
  Qed.
  Lemma safe_lemma : forall e, safe e.
  Proof.
    apply expr_ind2; unfold safe.
    - intros n b _ _ _ x p l F IP IL. exact I.
    - intros s b _ _ _ x p l F IP IL. exact I.
    - intros u n b _ _ _ x p l F IP IL. apply VEND.
    - intros a b' IA IB b CO (AA & AB) (TA & TB) x p l F IP IL. cbn [compiles] in CO. apply andb_true_iff in CO. destruct CO as (CA & CB). cbn [eval]. apply ends_then; [exact (IA b CA AA TA x p l F IP IL)|]. intros v _. destruct (as_bool v); [exact I|]. apply ends_then; [exact (IB b CB AB TB x p l F IP IL)|]. intros w _. exact I.
    - intros a b' IA IB b CO (AA & AB) (TA & TB) x p l F IP IL. cbn [compiles] in CO. apply andb_true_iff in CO. destruct CO as (CA & CB). cbn [eval]. apply ends_then; [exact (IA b CA AA TA x p l F IP IL)|]. intros v _. destruct (as_bool v); [|exact I]. apply ends_then; [exact (IB b CB AB TB x p l F IP IL)|]. intros w _. exact I.
    - intros op a b' IA IB b CO (AA & AB) (EQ & TA & TB) x p l F IP IL. cbn [compiles] in CO. apply andb_true_iff in CO. destruct CO as (CA & CB). cbn [eval]. apply ends_then; [exact (IA b CA AA TA x p l F IP IL)|]. intros v V. apply ends_then; [exact (IB b CB AB TB x p l F IP IL)|]. intros w W. apply ends_compared. destruct EQ as [EQ|[NA|NB]]; [left; exact EQ| |].
      + right. left. exact (not_set a b NA CA AA x p l v F V).
      + right. right. exact (not_set b' b NB CB AB x p l w F W).
    - intros op a b' IA IB b CO (AA & AB) (NM & TA & TB) x p l F IP IL. cbn [compiles] in CO. apply andb_true_iff in CO. destruct CO as (CA & CB). cbn [eval]. apply ends_then; [exact (IA b CA AA TA x p l F IP IL)|]. intros v V. apply ends_then; [apply ends_number|]. intros m M. apply ends_then; [exact (IB b CB AB TB x p l F IP IL)|]. intros w W. apply ends_then; [apply ends_number|]. intros n N. destruct op; try exact I. destruct NM as [NM|(WH & z & IZ & NZ & ->)]; [contradiction|].
      injection W as <-. injection N as <-. destruct (whole_int a b WH CA AA x p l v m F IP IL V M) as (y & IY & ->). apply mod_ends; assumption.
    - intros a IA b CO AA TA x p l F IP IL. cbn [eval]. apply ends_then; [exact (IA b CO AA TA x p l F IP IL)|]. intros v _. apply ends_then; [apply ends_number|]. intros m _. exact I.
    - intros a b' IA IB b CO (AA & AB) (TA & TB) x p l F IP IL. cbn [compiles] in CO. apply andb_true_iff in CO. destruct CO as (CA & CB). cbn [eval]. unfold united. apply ends_then; [exact (IA b CA AA TA x p l F IP IL)|]. intros [| | |s] _; try exact I. apply ends_then; [exact (IB b CB AB TB x p l F IP IL)|]. intros [| | |r] _; exact I.
    - intros g args IH b CO AL (NS & TM) x p l F IP IL. cbn [compiles] in CO. apply andb_true_iff in CO. destruct CO as (AR & CO). cbn [eval].
      apply (call_ends g b (map (eval k) args) (map (means (Conversions (e_num k) (e_show k)) f (fun uri name v => e_vars k uri name = Got v)) args) x p l); [|apply all_safe; assumption|exact F|exact IP|exact IL|exact NS]. apply (all_done k d); [apply every_done|exact CO|exact AL].
    - intros absolute steps IH b CO AL TM x p l F IP IL. cbn [eval]. change (map (fun s => match s with AxisStep a s0 qs => TestStep a (get_test a s0) (map (eval k) qs) | FilterStep e rs => ExprStep (eval k e) (map (eval k) rs) end) steps) with (map (code_of k) steps).
      change (forallb (fun b => b) (map step_compiles steps) = true) in CO. change (fold_right and True (map step_tame steps)) in TM.
      assert (AX : match steps with FilterStep _ _ :: _ => False | _ => True end -> ends ((if absolute then absolute_path else relative_path) (e_sort k) (e_forest k) (map (code_of k) steps) x p l)).
      { intros NF. assert (GO : go k d (if absolute then false else b) steps) by (destruct steps as [|[a s qs|e qs] steps]; [exact I|exact AL|contradiction]). pose proof (axes_safe steps IH _ CO GO TM) as S.
        destruct absolute; [|exact (path_ends b _ x p l S F)]. unfold absolute_path. pose proof (root_ok k d OWN PR b x F) as RO. fold f in RO |- *. rewrite RO. apply (path_ends false _ _ p l S). apply (root_fine k d PR). }
      destruct steps as [|[a s qs|e qs] steps]; [apply AX; exact I|apply AX; exact I|]. clear AX.
      change (absolute = false /\ allowed t b e /\ fold_right and True (map (allowed t (gives_attribute b e)) qs) /\ go k d (gives_attribute b e) steps) in AL. destruct AL as (-> & A1 & A2 & A3). inversion IH as [|? ? DD HR]; subst. destruct DD as (D & DQ). cbn [map forallb step_compiles fold_right step_tame] in CO, TM. apply andb_true_iff in CO. destruct CO as (C1 & C2). apply andb_true_iff in C1. destruct C1 as (C0 & C1). destruct TM as ((T0 & T1) & T2).
      cbn [map code_of]. eapply filter_path_ends; [apply esound_sound; apply (eval_lemma k d SS DOC OWN PR VARS e b C0 A1)|exact (D b C0 A1 T0)|apply all_safe; assumption|apply axes_safe; assumption|exact F|exact IP|exact IL].
  Qed.
End Document.
Lemma evaluate_ends : forall k d (from : bool) e x position last, sorts (e_sort k) -> documents (e_forest k) -> f_doc (e_forest k) d = d -> proper (f_tree (e_forest k) d) ->
  (forall uri name, ends (e_vars k uri name) /\ forall v, e_vars k uri name = Got v -> usable (e_sort k) (e_forest k) d v) ->
  fst x = d -> In (snd x) (nodes (f_tree (e_forest k) d)) -> (from = false -> ~ is_attribute (snd x)) -> allowed (f_tree (e_forest k) d) from e -> tame e -> int position -> int last ->
  ends (evaluate k e x position last).
Proof.
  intros k d from e x p l SS DOC OWN PR VARS D IN NA AL TM IP IL. unfold evaluate. destruct (compiles e) eqn:CO; [|exact I].
  apply (safe_lemma k d SS DOC OWN PR (fun u n => proj2 (VARS u n)) (fun u n => proj1 (VARS u n)) e from CO AL TM x p l); [|exact IP|exact IL]. split; [exact D|]. split; [exact IN|exact NA].
Qed.
