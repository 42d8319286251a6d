(** What is written as XPath says is compiled to the expression it stands for. *)
From Coq Require Import String.
From Verif.Model Require Import Base XNode XAxis XCompare XStep XSort XEval XParse.
From Verif.Spec Require Import XParseSpec.
From Verif.Proof Require Import XParsePeg XParseToken XParseTree XParseStep.
From Coq Require Import Lia Bool List. Import ListNotations. Open Scope Z_scope.

(** * What may follow an expression *)
Definition rank (l : level) : nat :=
  match l with OrLevel => 0 | AndLevel => 1 | EqualityLevel => 2 | RelationalLevel => 3 | AdditiveLevel => 4 | MultiplicativeLevel => 5 | UnaryLevel => 6 | UnionLevel => 7 | PathLevel => 8 end%nat.
Inductive stops (l : level) : str -> Prop :=
  | stop_end : stops l []
  | stop_close c r : In c [41; 93; 44; 125] -> stops l (c :: r)
  | stop_op k m op f r : infix k m op f -> (rank k < rank l)%nat -> stops l (op ++ r).
Definition heads : list Z := [41; 93; 44; 125; 111; 97; 61; 33; 60; 62; 43; 45; 42; 100; 109; 124].
Lemma stops_clear f l rest : forallb (fun c => negb (f c)) heads = true -> stops l rest -> clear f rest.
Proof.
  intros H S1. rewrite forallb_forall in H. destruct S1 as [|c r I|k m op f' r I L]; [exact Logic.I| |].
  - apply negb_true_iff, H. cbn in *. intuition.
  - destruct I; apply negb_true_iff, H; cbn; tauto.
Qed.
Lemma stops_looser l m rest : (rank l <= rank m)%nat -> stops l rest -> stops m rest.
Proof. intros L [|c r I|k k2 op f r I J]; [constructor|constructor; exact I|]. eapply stop_op; [exact I|lia]. Qed.
Definition meets (s rest : str) : Prop :=
  (ends_in_name s -> clear name_p rest) /\ (ends_in_slash s -> clear (fun c => start_p c || (c =? 42)) rest).
Lemma meets_suffix a b rest : meets (a ++ b) rest -> meets b rest.
Proof.
  intros [A B]. split; intros [c [d [E N]]]; [apply A|apply B]; exists (a ++ c), d; (split; [subst b; rewrite app_assoc; reflexivity|exact N]).
Qed.
Lemma meets_other s rest : clear name_p rest -> clear (fun c => start_p c || (c =? 42)) rest -> meets s rest.
Proof. intros A B. split; intros _; assumption. Qed.
Lemma meets_apart s op t z : op <> [] -> apart s op t -> meets s (op ++ z).
Proof.
  intros NE [A [_ B]]. destruct op as [|c op]; [elim NE; reflexivity|]. split; intro E; cbn.
  - destruct (name_p c) eqn:N; [|reflexivity]. elim (A (ex_intro _ c (ex_intro _ op (conj eq_refl (proj2 (in_name_p c) N)))) E).
  - destruct (start_p c || (c =? 42)) eqn:N; [|reflexivity]. apply orb_true_iff in N. elim (fun H => B (ex_intro _ c (ex_intro _ op (conj eq_refl H))) E).
    destruct N as [N|N]; [left; apply start_starts, N|right; apply Z.eqb_eq, N].
Qed.

(** * The grammar of the operators *)
Definition lrule (l : level) : rid :=
  match l with OrLevel => OrExpr_id | AndLevel => AndExpr_id | EqualityLevel => EqualityExpr_id | RelationalLevel => RelationalExpr_id | AdditiveLevel => AdditiveExpr_id
  | MultiplicativeLevel => MultiplicativeExpr_id | UnaryLevel => UnaryExpr_id | UnionLevel => UnionExpr_id | PathLevel => PathExpr_id end.
Definition next (l : level) : level :=
  match l with OrLevel => AndLevel | AndLevel => EqualityLevel | EqualityLevel => RelationalLevel | RelationalLevel => AdditiveLevel | AdditiveLevel => MultiplicativeLevel
  | MultiplicativeLevel => UnaryLevel | UnaryLevel => UnionLevel | UnionLevel => PathLevel | PathLevel => PathLevel end.
Definition ops (l : level) : parser :=
  match l with
  | OrLevel => Rule OrOperator_id
  | AndLevel => Rule AndOperator_id
  | EqualityLevel => Alt (Rule EqualsOperator_id) (Rule NotEqualsOperator_id)
  | RelationalLevel => Alt (Alt (Alt (Rule LessThanEqualsOperator_id) (Rule GreaterThanEqualsOperator_id)) (Rule LessThanOperator_id)) (Rule GreaterThanOperator_id)
  | AdditiveLevel => Alt (Rule PlusOperator_id) (Rule MinusOperator_id)
  | MultiplicativeLevel => Alt (Alt (Rule MultiplyOperator_id) (Rule DivOperator_id)) (Rule ModOperator_id)
  | _ => Rule UnionOperator_id
  end.
Definition infixed (l : level) : Prop := l <> UnaryLevel /\ l <> PathLevel.
Lemma infix_next l m op f : infix l m op f -> m = next l /\ infixed l /\ op <> [] /\ (rank l < rank m)%nat.
Proof. intros []; (split; [reflexivity|]); (split; [split; discriminate|]); (split; [discriminate|]); cbn; lia. Qed.
Lemma lrule_infixed l : infixed l -> rule (lrule l) = Seq (Rule (lrule (next l))) (Star (Seq (ops l) (Rule (lrule (next l))))) /\ binary_id (lrule l) = true.
Proof. intros [A B]. destruct l; try congruence; split; reflexivity. Qed.
Ltac f_op := eapply f_word; [reflexivity|]; first [reflexivity|apply (strip_none_clear _ _ _ eq_refl); assumption].
Lemma strip2 c d t : clear (is d) t -> strip_prefix [c; d] (c :: t) = None.
Proof. intro C. cbn. rewrite Z.eqb_refl. destruct t as [|e t]; [reflexivity|]. cbn in C. unfold is in C. rewrite C. reflexivity. Qed.
Lemma g_op l m op f t : infix l m op f -> clear (is 61) t -> exists o, gets (ops l) op t [o] /\ operator (id_of o) = Some f.
Proof.
  intros I C. destruct I; cbn [ops];
    try (eexists; split; [first [apply g_word; [reflexivity|discriminate]|apply g_sign; reflexivity]|reflexivity]).
  - eexists; split; [apply g_left, g_sign; reflexivity|reflexivity].
  - eexists; split; [apply g_right; [eapply f_sign; reflexivity|apply g_word; [reflexivity|discriminate]]|reflexivity].
  - eexists; split; [apply g_left, g_right; [apply F_alt; [eapply f_word; [reflexivity|apply strip2, C]|eapply f_word; reflexivity]|apply g_sign; reflexivity]|reflexivity].
  - eexists; split; [apply g_left, g_left, g_left, g_word; [reflexivity|discriminate]|reflexivity].
  - eexists; split; [apply g_right; [repeat apply F_alt; [eapply f_word; reflexivity|eapply f_word; [reflexivity|apply strip2, C]|eapply f_sign; reflexivity]|apply g_sign; reflexivity]|reflexivity].
  - eexists; split; [apply g_left, g_left, g_right; [eapply f_word; reflexivity|apply g_word; [reflexivity|discriminate]]|reflexivity].
  - eexists; split; [apply g_left, g_sign; reflexivity|reflexivity].
  - eexists; split; [apply g_right; [eapply f_sign; reflexivity|apply g_sign; reflexivity]|reflexivity].
  - eexists; split; [apply g_left, g_left, g_sign; reflexivity|reflexivity].
  - eexists; split; [apply g_left, g_right; [eapply f_sign; reflexivity|apply g_word; [reflexivity|discriminate]]|reflexivity].
  - eexists; split; [apply g_right; [apply F_alt; [eapply f_sign; reflexivity|eapply f_word; reflexivity]|apply g_word; [reflexivity|discriminate]]|reflexivity].
Qed.
Definition op_heads (l : level) : list Z :=
  match l with OrLevel => [111] | AndLevel => [97] | EqualityLevel => [61; 33] | RelationalLevel => [60; 62] | AdditiveLevel => [43; 45] | MultiplicativeLevel => [42; 100; 109] | _ => [124] end.
Definition among (cs : list Z) (c : Z) : bool := existsb (fun k => k =? c) cs.
Lemma among_is cs k s : clear (among cs) s -> In k cs -> clear (is k) s.
Proof.
  intros C I. destruct s as [|c s]; [exact Logic.I|]. cbn in *. destruct (is k c) eqn:E; [|reflexivity]. assert (among cs c = true); [|congruence]. apply existsb_exists. exists k. split; assumption.
Qed.
Lemma f_ops l s : infixed l -> clear (among (op_heads l)) s -> fails (ops l) s.
Proof.
  intros [A B] C. pose proof (fun k => among_is _ k _ C) as H. destruct l; try congruence; cbn [ops op_heads In] in *; repeat apply F_alt;
    first [eapply f_sign; [reflexivity|apply H; tauto] | eapply f_word; [reflexivity|]; eapply strip_none_clear; [reflexivity|apply H; tauto]].
Qed.
Lemma stops_ops l rest : infixed l -> stops l rest -> fails (ops l) rest.
Proof.
  intros N S1. apply f_ops; [exact N|]. destruct S1 as [|c r I|k m op f r I L]; [exact Logic.I| |].
  - cbn in I. destruct N as [N1 N2]. destruct I as [<-|[<-|[<-|[<-|[]]]]]; destruct l; try congruence; reflexivity.
  - destruct N as [N1 N2]. destruct I; destruct l; try congruence; cbn in L; try lia; reflexivity.
Qed.

(** * Expressions with operators *)
Definition tight_p (c : Z) : bool := start_p c || digit_p c || among [46; 47; 42; 64; 36; 40; 34; 39] c.
Definition lead_p (l : level) (c : Z) : bool := match l with UnionLevel | PathLevel => tight_p c | _ => tight_p c || (c =? 45) end.
Definition first_of (f : Z -> bool) (s : str) : Prop := exists c r, s = c :: r /\ f c = true.
Lemma first_clear f g s z : (forall c, f c = true -> g c = false) -> first_of f s -> clear g (s ++ z).
Proof. intros H [c [r [-> E]]]. apply H, E. Qed.
Lemma first_imp f g s : (forall c, f c = true -> g c = true) -> first_of f s -> first_of g s.
Proof. intros H [c [r [-> E]]]. exists c, r. split; [reflexivity|apply H, E]. Qed.
Lemma among_in cs c : among cs c = true -> In c cs.
Proof. intro H. apply existsb_exists in H. destruct H as [k [I E]]. apply Z.eqb_eq in E. subst. exact I. Qed.
Lemma tight_cases c (P : Z -> bool) : (forall d, start_p d = true -> P d = false) -> (forall d, digit_p d = true -> P d = false) -> forallb (fun d => negb (P d)) [46; 47; 42; 64; 36; 40; 34; 39] = true ->
  tight_p c = true -> P c = false.
Proof.
  intros A B C H. unfold tight_p in H. rewrite !orb_true_iff in H. destruct H as [[H|H]|H]; [apply A, H|apply B, H|]. apply among_in in H. rewrite forallb_forall in C. apply negb_true_iff, C, H.
Qed.
Lemma digit_name d : digit_p d = true -> name_p d = true.
Proof. unfold name_p. intros ->. rewrite orb_true_r. reflexivity. Qed.
Lemma tight_space c : tight_p c = true -> space_p c = false.
Proof. apply tight_cases; [apply start_space|intros d H; apply name_not_space, digit_name, H|reflexivity]. Qed.
Lemma digit_is d k : digit_p d = true -> digit_p k = false -> is k d = false.
Proof. intros D K. unfold is. destruct (k =? d) eqn:E; [|reflexivity]. apply Z.eqb_eq in E. congruence. Qed.
Lemma start_is2 d k : start_p d = true -> start_p k = false -> is k d = false.
Proof. intros D K. unfold is. destruct (k =? d) eqn:E; [|reflexivity]. apply Z.eqb_eq in E. congruence. Qed.
Lemma tight_minus c : tight_p c = true -> is 45 c = false.
Proof. apply tight_cases; [intros d H; apply start_is2; [exact H|reflexivity]|intros d H; apply digit_is; [exact H|reflexivity]|reflexivity]. Qed.
Lemma tight_equals c : tight_p c = true -> is 61 c = false.
Proof. apply tight_cases; [intros d H; apply start_is2; [exact H|reflexivity]|intros d H; apply digit_is; [exact H|reflexivity]|reflexivity]. Qed.
Lemma lead_tight l c : tight_p c = true -> lead_p l c = true.
Proof. intro T. destruct l; cbn; rewrite ?T; reflexivity. Qed.
Lemma lead_any l c : lead_p l c = true -> tight_p c || (c =? 45) = true.
Proof. destruct l; cbn; intro H; rewrite ?H; auto. Qed.
Lemma lead_next l c : infixed l -> lead_p (next l) c = true -> lead_p l c = true.
Proof. intros [A B] H. destruct l; try congruence; cbn in *; rewrite ?H; auto. Qed.
Lemma lead_space l c : lead_p l c = true -> space_p c = false.
Proof. intro H. apply lead_any in H. apply orb_true_iff in H. destruct H as [H|H]; [apply tight_space, H|]. apply Z.eqb_eq in H. subst. reflexivity. Qed.
Lemma lead_equals l c : lead_p l c = true -> is 61 c = false.
Proof. intro H. apply lead_any in H. apply orb_true_iff in H. destruct H as [H|H]; [apply tight_equals, H|]. apply Z.eqb_eq in H. subst. reflexivity. Qed.

Section with_lexicon.
Context (x : lexicon).
Definition parsed_at (l : level) (s : str) (e : expr) : Prop :=
  exists w s', s = w ++ s' /\ blank w /\ first_of (lead_p l) s' /\
    forall rest, stops l rest -> meets s rest -> exists t, good x t e /\ gets (Rule (lrule l)) s rest [t] /\ gets (Rule (lrule l)) s' rest [t].
Inductive pieces (l : level) : str -> expr -> Prop :=
  | piece s e : parsed_at (next l) s e -> pieces l s e
  | more_pieces op f s a t b : infix l (next l) op f -> pieces l s a -> parsed_at (next l) t b -> apart s op t -> pieces l (s ++ op ++ t) (f a b).
Lemma parsed_equals l s e z : parsed_at l s e -> clear (is 61) (s ++ z).
Proof.
  intros [w [s' [-> [B [F _]]]]]. rewrite <- app_assoc. apply blank_clear; try reflexivity; [exact B|]. eapply first_clear; [|exact F]. intros c H. eapply lead_equals, H.
Qed.
Lemma pieces_chain l s e : infixed l -> pieces l s e -> exists w s', s = w ++ s' /\ blank w /\ first_of (lead_p l) s' /\
  forall more rest us, stops (next l) (more ++ rest) -> meets s (more ++ rest) -> gets (Star (Seq (ops l) (Rule (lrule (next l))))) more rest us ->
    exists ts, chained x ts e /\ gets (rule (lrule l)) (s ++ more) rest (ts ++ us) /\ gets (rule (lrule l)) (s' ++ more) rest (ts ++ us).
Proof.
  intros N P. rewrite (proj1 (lrule_infixed l N)). induction P as [s e Q|op f s a t b I P IH Q A].
  - destruct Q as [w [s' [-> [B [F Q]]]]]. exists w, s'. split; [reflexivity|]. split; [exact B|]. split; [eapply first_imp; [|exact F]; intros c; apply lead_next, N|].
    intros more rest us S1 M G. destruct (Q _ S1 M) as [t [GT [G1 G2]]]. exists [t]. split; [constructor; exact GT|]. split; apply g_seq; assumption.
  - destruct IH as [w [s' [-> [B [F IH]]]]]. exists w, (s' ++ op ++ t). split; [rewrite <- app_assoc; reflexivity|]. split; [exact B|]. split.
    { destruct F as [c [r [-> F]]]. exists c, (r ++ op ++ t). split; [reflexivity|exact F]. }
    intros more rest us S1 M G. destruct (infix_next _ _ _ _ I) as [_ [_ [NE RK]]].
    pose proof (parsed_equals _ _ _ (more ++ rest) Q) as CE.
    destruct Q as [wt [t' [_ [_ [_ Q]]]]]. destruct (Q (more ++ rest) S1) as [tt [GT [G1 _]]]; [eapply meets_suffix; rewrite app_assoc in M; exact M|].
    destruct (g_op _ _ _ _ (t ++ more ++ rest) I CE) as [o [GO EO]].
    assert (gets (Star (Seq (ops l) (Rule (lrule (next l))))) (op ++ t ++ more) rest ([o; tt] ++ us)) as GS.
    { rewrite app_assoc. apply g_star; [|exact G]. apply (g_seq _ _ op t _ [o] [tt]); assumption. }
    destruct (IH (op ++ t ++ more) rest ([o; tt] ++ us)) as [ts [CH [R1 R2]]].
    + rewrite <- app_assoc. eapply stop_op; [exact I|exact RK].
    + rewrite <- app_assoc. eapply meets_apart; [exact NE|exact A].
    + exact GS.
    + exists (ts ++ [o; tt]). split; [eapply chain_more; eassumption|]. split; [eapply g_eq; [exact R1|texts|texts]|eapply g_eq; [exact R2|texts|texts]].
Qed.
Lemma pieces_parsed l s e : infixed l -> pieces l s e -> parsed_at l s e.
Proof.
  intros N P. destruct (pieces_chain l s e N P) as [w [s' [E [B [F H]]]]]. exists w, s'. split; [exact E|]. split; [exact B|]. split; [exact F|].
  intros rest S1 M. destruct (H [] rest []) as [ts [CH [G1 G2]]].
  - apply (stops_looser l); [destruct N; destruct l; cbn; try congruence; lia|exact S1].
  - exact M.
  - apply g_stop, F_first, stops_ops; assumption.
  - rewrite !app_nil_r in *. destruct (chained_group x (lrule l) ts e (proj2 (lrule_infixed l N)) CH) as [t [E1 G]]. exists t. split; [exact G|].
    assert (s' <> []) as NE by (destruct F as [c [r [-> _]]]; discriminate). split; (eapply g_node; [|eassumption|exact E1]); [|exact NE].
    rewrite E. destruct w; [exact NE|discriminate].
Qed.
Lemma unary_parsed s e : parsed_at UnionLevel s e -> parsed_at UnaryLevel s e.
Proof.
  intros [w [s' [-> [B [F Q]]]]]. exists w, s'. split; [reflexivity|]. split; [exact B|]. split; [eapply first_imp; [|exact F]; intro c; apply lead_tight|].
  intros rest S1 M. destruct (Q rest) as [t [GT [_ G]]]; [apply (stops_looser UnaryLevel); [cbn; lia|exact S1]|exact M|]. exists t. split; [exact GT|].
  assert (forall v, blank v -> gets (Rule UnaryExpr_id) (v ++ s') rest [t]) as H.
  { intros v V. eapply g_node; [|cbn [rule]|apply (good_group x UnaryExpr_id t e GT)].
    - destruct F as [c [r [-> _]]]. destruct v; discriminate.
    - eapply (g_join _ _ (v ++ []) s' _ [] [t]); [|exact G|rewrite app_nil_r; reflexivity|reflexivity].
      apply (g_seq _ _ v [] _ [] []); [apply d_white; [exact V|]; cbn [app]; eapply first_clear; [|exact F]; intros c; apply tight_space|].
      apply g_stop. eapply f_sign; [reflexivity|]. eapply first_clear; [|exact F]; intros c; apply tight_minus. }
  split; [apply H, B|apply (H []); constructor].
Qed.
Lemma g_minuses k s rest : clear (is 45) (s ++ rest) -> gets (Star (Rule UnaryMinusOperator_id)) (repeat 45 k) (s ++ rest) (repeat (Tree (Some UnaryMinusOperator_id) [45] []) k).
Proof.
  intro C. induction k as [|k IH]; [apply g_stop; eapply f_sign; [reflexivity|exact C]|]. cbn [repeat].
  apply (g_star _ [45] (repeat 45 k) _ [Tree (Some UnaryMinusOperator_id) [45] []]); [apply g_sign; reflexivity|exact IH].
Qed.
Lemma minus_parsed w k s e : blank w -> parsed_at UnionLevel s e -> parsed_at UnaryLevel (w ++ repeat 45 (S k) ++ s) (Nat.iter (S k) ENegate e).
Proof.
  intros B [v [s' [E [V [F Q]]]]]. exists w, (repeat 45 (S k) ++ s). split; [reflexivity|]. split; [exact B|]. split; [exists 45, (repeat 45 k ++ s); split; reflexivity|].
  intros rest S1 M. destruct (Q rest) as [t [GT [G _]]]; [apply (stops_looser UnaryLevel); [cbn; lia|exact S1]|rewrite app_assoc in M; eapply meets_suffix, M|].
  pose (m := Tree (Some UnaryMinusOperator_id) [45] []). exists (Tree (Some UnaryExpr_id) [] (repeat m (S k) ++ [t])). split; [apply minus_node; [reflexivity|exact GT]|].
  assert (clear (is 45) (s ++ rest)) as CM.
  { rewrite E, <- app_assoc. apply blank_clear; try reflexivity; [exact V|]. eapply first_clear; [|exact F]. intros c; apply tight_minus. }
  assert (forall v, blank v -> gets (Rule UnaryExpr_id) (v ++ repeat 45 (S k) ++ s) rest [Tree (Some UnaryExpr_id) [] (repeat m (S k) ++ [t])]) as H.
  { intros v' V'. eapply g_node; [destruct v'; discriminate|cbn [rule]|].
    - eapply (g_join _ _ (v' ++ repeat 45 (S k)) s _ (repeat m (S k)) [t]); [|exact G|rewrite app_assoc; reflexivity|reflexivity].
      apply (g_seq _ _ v' (repeat 45 (S k)) _ [] (repeat m (S k))); [apply d_white; [exact V'|reflexivity]|apply g_minuses, CM].
    - unfold group. rewrite map_claim; [destruct k; reflexivity|]. intros y I. apply in_app_or in I. destruct I as [I|[<-|[]]].
      + apply repeat_spec in I. subst y. eexists; reflexivity.
      + destruct (good_id x _ _ GT) as [i [EI _]]. exists i. exact EI. }
  split; [apply H, B|apply (H []); constructor].
Qed.

(** * Paths *)
Local Notation path_p := (Alt (Seq (Rule FilterExpr_id) (Opt (Seq (Alt (Rule SlashSlash_id) (Rule Slash_id)) (Rule RelativeLocationPath_id)))) (Rule LocationPath_id)).
Definition path_parsed (s : str) (e : expr) : Prop :=
  first_of tight_p s /\ forall rest, stops PathLevel rest -> meets s rest ->
    exists a v t ts, s = a ++ v /\ a <> [] /\ blank v /\ good x t e /\ group PathExpr_id ts = [t] /\ gets path_p a (v ++ rest) ts.
Definition path_single (s : str) (e : expr) : Prop :=
  first_of tight_p s /\ forall rest, stops PathLevel rest -> meets s rest ->
    exists a v t, s = a ++ v /\ a <> [] /\ blank v /\ good x t e /\ gets path_p a (v ++ rest) [t].
Lemma single_path s e : path_single s e -> path_parsed s e.
Proof.
  intros [F H]. split; [exact F|]. intros rest S1 M. destruct (H rest S1 M) as [a [v [t [E [NE [V [G GP]]]]]]]. exists a, v, t, [t].
  split; [exact E|]. split; [exact NE|]. split; [exact V|]. split; [exact G|]. split; [apply (good_group x _ _ _ G)|exact GP].
Qed.
Lemma stops_space l rest : stops l rest -> clear space_p rest.
Proof. apply stops_clear. reflexivity. Qed.
Lemma path_level w s e : blank w -> path_parsed s e -> parsed_at PathLevel (w ++ s) e.
Proof.
  intros B [F H]. exists w, s. split; [reflexivity|]. split; [exact B|]. split; [exact F|]. intros rest S1 M.
  destruct (H rest S1 (meets_suffix _ _ _ M)) as [a [v [t [ts [-> [NE [V [G [EG GP]]]]]]]]]. exists t. split; [exact G|].
  assert (forall u, blank u -> gets (Rule PathExpr_id) (u ++ a ++ v) rest [t]) as GG.
  { intros u U. eapply g_node; [|cbn [rule]|exact EG].
    - destruct u; [|discriminate]. destruct a; [elim NE; reflexivity|discriminate].
    - eapply (g_join _ _ (u ++ a) v _ ts []); [|apply d_white; [exact V|apply (stops_space _ _ S1)]|rewrite app_assoc; reflexivity|rewrite app_nil_r; reflexivity].
      apply (g_seq _ _ u a _ [] ts); [|exact GP]. apply d_white; [exact U|]. rewrite app_assoc. eapply first_clear; [|exact F]. intro c; apply tight_space. }
  split; [apply GG, B|apply (GG []); constructor].
Qed.

(** * Steps *)
Definition after_step (s z : str) : Prop :=
  (begins (eq 46) s \/ clear space_p z) /\ clear (is 40) z /\ clear (is 58) z /\ clear (is 91) z /\ clear (is 46) z /\ clear digit_p z /\ (ends_in_name s -> clear name_p z).
Definition predicates_parsed (u : str) (qs : list expr) : Prop :=
  (u = [] /\ qs = [] \/ (exists r, u = 91 :: r) /\ qs <> []) /\
  forall z, clear space_p z -> clear (is 91) z -> exists ps, gets (Star (Rule Predicate_id)) u z ps /\ predicate_trees x ps qs.
Lemma f_predicate z : clear space_p z -> clear (is 91) z -> fails (Rule Predicate_id) z.
Proof.
  intros C D. apply F_rule. cbn [rule]. do 3 apply F_first. change z with ([] ++ z). eapply f_second; [apply (g_white []); [constructor|exact C]|]. eapply f_sign; [reflexivity|exact D].
Qed.
Lemma no_predicate_parsed : predicates_parsed [] [].
Proof. split; [left; split; reflexivity|]. intros z C D. exists []. split; [apply g_stop, f_predicate; assumption|apply no_predicates]. Qed.
Lemma g_expr_rule i s rest t e : rule i = Rule OrExpr_id \/ rule i = Rule Expr_id -> s <> [] -> good x t e -> gets (Rule OrExpr_id) s rest [t] -> gets (Rule i) s rest [t].
Proof.
  intros R N G H. destruct R as [R|R].
  - eapply g_node; [exact N|rewrite R; exact H|apply (good_group x i t e G)].
  - eapply g_node; [exact N|rewrite R|apply (good_group x i t e G)]. eapply g_node; [exact N|exact H|apply (good_group x _ t e G)].
Qed.
Lemma parsed_not_nil l s e : parsed_at l s e -> s <> [].
Proof. intros [w [s' [-> [_ [[c [r [-> _]]] _]]]]]. destruct w; discriminate. Qed.
Lemma close_parsed s e c z : In c [41; 93; 44; 125] -> parsed_at OrLevel s e -> exists t, good x t e /\ gets (Rule OrExpr_id) s (c :: z) [t].
Proof.
  intros I [w [s' [_ [_ [_ H]]]]]. destruct (H (c :: z)) as [t [G [GT _]]].
  - apply stop_close. cbn in *. tauto.
  - apply meets_other; destruct I as [<-|[<-|[<-|[<-|[]]]]]; reflexivity.
  - exists t. split; assumption.
Qed.
Lemma predicate_parsed s e w t qs : parsed_at OrLevel s e -> blank w -> predicates_parsed t qs -> predicates_parsed (91 :: s ++ 93 :: w ++ t) (e :: qs).
Proof.
  intros P W [HT PT]. split; [right; split; [eexists; reflexivity|discriminate]|]. intros z C D. destruct (PT z C D) as [ps [GP TP]].
  destruct (close_parsed s e 93 (w ++ t ++ z)) as [te [G GT]]; [cbn; tauto|exact P|]. pose proof (parsed_not_nil _ _ _ P) as NE.
  pose (l := Tree (Some LeftSquare_id) [91] []). pose (r := Tree (Some RightSquare_id) [93] []). pose (p := Tree (Some Predicate_id) [] (l :: te :: r :: white w)).
  exists (p :: ps). split; [|eapply more_predicates; [reflexivity|exists l; reflexivity|reflexivity|exact G|exact TP]].
  change (p :: ps) with ([p] ++ ps). eapply g_eq; [eapply (g_star _ (91 :: s ++ 93 :: w) t); [|exact GP]|texts|reflexivity].
  eapply g_node; [discriminate|cbn [rule]|].
  - eapply (g_join _ _ ((([] ++ [91]) ++ s) ++ [93]) w _ ((([] ++ [l]) ++ [te]) ++ [r]) (white w)); [|apply g_white; [exact W|]|texts|reflexivity].
    + eapply g_seq; [eapply g_seq; [eapply g_seq; [apply (g_white []); [constructor|reflexivity]|apply g_sign; reflexivity]|]|apply g_sign; reflexivity].
      apply (g_expr_rule _ _ _ _ e); [right; reflexivity|exact NE|exact G|]. eapply g_eq; [|reflexivity|reflexivity].
      replace ([93] ++ w ++ t ++ z) with (93 :: w ++ t ++ z) by reflexivity. exact GT.
    + destruct HT as [[-> _]|[[r' ->] _]]; [exact C|reflexivity].
  - unfold group. cbn [app]. rewrite map_claim; [reflexivity|]. intros y [<-|[<-|[<-|I]]]; [eexists; reflexivity| |eexists; reflexivity|eexists; exact (white_ids _ _ I)].
    destruct (good_id x _ _ G) as [i [E _]]. exists i. exact E.
Qed.
Definition test_first (c : Z) : bool := start_p c || (c =? 42).
Lemma test_head t n : test_written (l_uri x) t n -> first_of test_first t.
Proof.
  assert (forall n m, ncname n -> first_of test_first (n ++ m)) as H.
  { intros m k N. destruct (ncname_head m N) as [c [r [-> S1]]]. exists c, (r ++ k). split; [reflexivity|]. unfold test_first. rewrite S1. reflexivity. }
  intros [n' N|p u n' P N U| |p u P U|s k v v2 K V V2|l t' v L NE V].
  - rewrite <- (app_nil_r n'). apply H, N.
  - apply H, P.
  - exists 42, []. split; reflexivity.
  - apply H, P.
  - apply H, (kind_names s k K).
  - eexists; eexists; split; reflexivity.
Qed.
Lemma test_axis t n w z : test_written (l_uri x) t n -> blank w -> clear space_p z -> clear (is 58) z -> (w = [] -> ends_in_name t -> clear name_p z) ->
  fails (Seq (Seq (Rule AxisName_id) (Rule S_id)) (Txt [58; 58])) (t ++ w ++ z).
Proof.
  intros H B C D N. destruct H as [n H|p u n P H U| |p u P U|s k v v2 K V V2|l t' v L NE V].
  - apply axis_stop; [apply ncname_chars, H|exact B|exact C| |apply (strip_none_clear _ 58); [reflexivity|exact D]]. intro W. apply N; [exact W|apply (ends_name n H [])].
  - rewrite <- app_assoc. apply (axis_stop p []); [apply ncname_chars, P|constructor|reflexivity|reflexivity|]. apply strip2. destruct (ncname_head n H) as [c [r [-> S1]]]. cbn. apply start_is; [exact S1|reflexivity].
  - apply f_axis_sign; reflexivity.
  - rewrite <- app_assoc. apply (axis_stop p []); [apply ncname_chars, P|constructor|reflexivity|reflexivity|reflexivity].
  - rewrite <- !app_assoc. apply axis_stop; [apply ncname_chars, (kind_names s k K)|exact V|reflexivity|reflexivity|reflexivity].
  - rewrite <- app_assoc. apply (axis_stop _ []); [reflexivity|constructor|reflexivity|reflexivity|reflexivity].
Qed.
Lemma ends_suffix a b : ends_in_name b -> ends_in_name (a ++ b).
Proof. intros [c [n [-> N]]]. exists (a ++ c), n. split; [rewrite app_assoc; reflexivity|exact N]. Qed.
Lemma pred_clear f u qs z : predicates_parsed u qs -> f 91 = false -> clear f z -> clear f (u ++ z).
Proof. intros [[[-> _]|[[r ->] _]] _] A B; [exact B|exact A]. Qed.
Definition step_parsed (s : str) (st : step_of expr) : Prop :=
  forall w z, blank w -> (w = [] \/ ~ begins (eq 46) s) -> after_step s z -> exists u, gets (Rule Step_id) (w ++ s) z [u] /\ step_good x u st.
Lemma f_test_axis_dot z : fails (Seq (Seq (Rule AxisSpecifier_id) (Rule NodeTest_id)) (Star (Rule Predicate_id))) (46 :: z).
Proof. apply (f_axis_step (46 :: z) []); [constructor|reflexivity..]. Qed.
Lemma self_parsed : step_parsed [46] self_step.
Proof.
  intros w z B D [_ [_ [_ [_ [P _]]]]]. destruct D as [->|D]; [|elim D; exists 46, []; split; reflexivity]. eexists. split; [|apply (self_leaf x [46])].
  eapply (g_node _ _ _ [Tree (Some SelfSelect_id) [46] []]); [discriminate| |reflexivity]. cbn [rule]. apply g_right; [apply f_test_axis_dot|].
  eapply (g_node _ _ _ [Tree (Some SelfSelect_id) [46] []]); [discriminate| |reflexivity]. cbn [rule]. apply g_right; [eapply f_word; [reflexivity|]; apply (strip2 46 46), P|apply g_sign; reflexivity].
Qed.
Lemma parent_parsed : step_parsed [46; 46] parent_step.
Proof.
  intros w z B D [_ [_ [_ [_ [P _]]]]]. destruct D as [->|D]; [|elim D; exists 46, [46]; split; reflexivity]. eexists. split; [|apply (parent_leaf x [46; 46])].
  eapply (g_node _ _ _ [Tree (Some ParentSelect_id) [46; 46] []]); [discriminate| |reflexivity]. cbn [rule]. apply g_right; [apply f_test_axis_dot|].
  eapply (g_node _ _ _ [Tree (Some ParentSelect_id) [46; 46] []]); [discriminate| |reflexivity]. cbn [rule]. apply g_left, g_word; [reflexivity|discriminate].
Qed.
Lemma axis_not_dot s a t m : axis_written s a -> first_of test_first t -> ~ begins (eq 46) (s ++ t ++ m).
Proof.
  intros A [c [r [-> F]]] [d [k [E <-]]]. destruct A as [|v V|a u v U V].
  - injection E as -> _. discriminate F.
  - discriminate E.
  - destruct a; discriminate E.
Qed.
Lemma axis_step_parsed s a t n w u qs : axis_written s a -> test_written (l_uri x) t n -> blank w -> predicates_parsed u qs -> step_parsed (s ++ t ++ w ++ u) (AxisStep a n qs).
Proof.
  intros A T B P v z V _ [SP [Z1 [Z2 [Z3 [_ [_ Z4]]]]]]. pose proof (test_head t n T) as HT.
  assert (clear space_p z) as SZ by (destruct SP as [SP|SP]; [elim (axis_not_dot s a t (w ++ u) A HT SP)|exact SP]).
  assert (clear space_p (u ++ z)) as S1 by (eapply pred_clear; [exact P|reflexivity|exact SZ]).
  assert (clear (is 40) (u ++ z)) as S2 by (eapply pred_clear; [exact P|reflexivity|exact Z1]).
  assert (clear (is 58) (u ++ z)) as S3 by (eapply pred_clear; [exact P|reflexivity|exact Z2]).
  assert (w = [] -> ends_in_name t -> clear name_p (u ++ z)) as S4.
  { intros -> N. destruct P as [[[-> _]|[[r ->] _]] _]; [|reflexivity]. apply Z4. cbn [app]. rewrite app_nil_r. apply ends_suffix, N. }
  destruct (g_test x t n w (u ++ z) T B S1 S2 S3 S4) as [tt [GT TT]].
  destruct (g_axis s a v ((t ++ w) ++ u ++ z) A V) as [ax [GX AX]].
  { rewrite <- app_assoc. eapply first_clear; [|exact HT]. intros c F. unfold test_first in F. apply orb_true_iff in F. destruct F as [F|F]; [apply start_space, F|apply Z.eqb_eq in F; subst; reflexivity]. }
  { intros _. split; [|rewrite <- app_assoc; eapply test_axis; eassumption]. rewrite <- app_assoc. eapply first_clear; [|exact HT]. intros c F. unfold test_first in F. apply orb_true_iff in F. destruct F as [F|F]; [apply start_is; [exact F|reflexivity]|apply Z.eqb_eq in F; subst; reflexivity]. }
  destruct (proj2 P z SZ Z3) as [ps [GP PS]]. destruct (step_group x ax a tt n ps qs AX TT PS) as [st [ES GS]]. exists st. split; [|exact GS].
  eapply g_node; [destruct HT as [c [r [-> _]]]; destruct v; destruct s; discriminate|cbn [rule]; apply g_left|exact ES].
  eapply (g_join _ _ ((v ++ s) ++ t ++ w) u _ (ax ++ [tt]) ps); [|exact GP|texts|texts].
  apply g_seq; [exact GX|exact GT].
Qed.
(** A step is no primary expression. *)
Lemma f_primary_step s st z : step_written (l_uri x) (l_double x) s st -> after_step s z -> fails (Rule PrimaryExpr_id) (s ++ z).
Proof.
  intros H [SP [Z1 [Z2 [Z3 [Z4 [Z5 Z6]]]]]]. destruct H as [| |s a t n w u qs A T B P].
  - apply f_primary; try reflexivity; [intros r E; injection E as <-; exact Z5|apply f_call_name_first, f_function_name; reflexivity].
  - apply f_primary; try reflexivity; [intros r E; injection E as <-; reflexivity|apply f_call_name_first, f_function_name; reflexivity].
  - pose proof (test_head t n T) as HT.
    assert (clear space_p z) as SZ by (destruct SP as [SP|SP]; [elim (axis_not_dot s a t (w ++ u) A HT SP)|exact SP]).
    assert (u = [] \/ exists r, u = 91 :: r) as PU by (destruct P; [left; reflexivity|right; eexists; reflexivity]).
    assert (forall f, f 91 = false -> clear f z -> clear f (u ++ z)) as PC by (intros f F1 F2; destruct PU as [->|[r ->]]; assumption).
    assert (first_of (fun c => test_first c || (c =? 64)) ((s ++ t ++ w ++ u) ++ z)) as FO.
    { destruct A as [|v V|a v v2 V V2].
      - destruct HT as [c [r [-> F]]]. eexists; eexists; split; [reflexivity|]. cbn beta. rewrite F. reflexivity.
      - eexists; eexists; split; reflexivity.
      - destruct a; eexists; eexists; split; reflexivity. }
    assert (forall k, start_p k = false -> k <> 42 -> k <> 64 -> clear (is k) ((s ++ t ++ w ++ u) ++ z)) as CK.
    { intros k K1 K2 K3. destruct FO as [c [r [-> F]]]. cbn. unfold is. destruct (k =? c) eqn:Q; [|reflexivity]. apply Z.eqb_eq in Q. subst c. unfold test_first in F. rewrite K1 in F. apply orb_true_iff in F. rewrite !Z.eqb_eq in F. cbn in F. rewrite Z.eqb_eq in F. tauto. }
    apply f_primary; try (apply CK; first [reflexivity|discriminate]).
    + destruct FO as [c [r [-> F]]]. cbn. unfold test_first in F. rewrite !orb_true_iff, !Z.eqb_eq in F. destruct F as [[F|F]|F]; [apply start_space, F|subst; reflexivity|subst; reflexivity].
    + destruct FO as [c [r [-> F]]]. cbn. unfold test_first in F. rewrite !orb_true_iff, !Z.eqb_eq in F. destruct F as [[F|F]|F]; [|subst; reflexivity|subst; reflexivity].
      destruct (digit_p c) eqn:DC; [|reflexivity]. unfold start_p, alpha_p in F. unfold digit_p in DC. rewrite !orb_true_iff, !andb_true_iff, !Z.leb_le, !Z.eqb_eq in F. rewrite andb_true_iff, !Z.leb_le in DC. lia.
    + intros r E. destruct FO as [c [r' [E' F]]]. rewrite E' in E. injection E as -> _. discriminate F.
    + destruct A as [|v V|a v v2 V V2].
      * cbn [app]. rewrite <- !app_assoc. destruct T as [n N|p uu n NP N U| |p uu NP U|ss k v v2 K V V2|l t' v L NE V].
        -- apply f_call_name; [exact N|exact B|apply PC; [reflexivity|exact SZ]| |apply blank_clear; try reflexivity; [exact B|apply PC; [reflexivity|exact Z2]]|apply PC; [reflexivity|exact Z1]].
           intros ->. destruct PU as [->|[r ->]]; [|reflexivity]. apply Z6. cbn [app]. rewrite app_nil_r. apply (ends_name n N []).
        -- apply f_call_prefixed; [exact NP|exact N|exact B|apply PC; [reflexivity|exact SZ]| |apply PC; [reflexivity|exact Z1]].
           intros ->. destruct PU as [->|[r ->]]; [|reflexivity]. apply Z6. cbn [app]. rewrite app_nil_r. change (p ++ 58 :: n) with (p ++ [58] ++ n). rewrite app_assoc. apply ends_name, N.
        -- apply f_call_name_first, f_function_name. reflexivity.
        -- apply f_call_name_first, F_rule. cbn [rule]. apply F_less. rewrite <- app_assoc. apply f_qname_colon; [exact NP|reflexivity].
        -- rewrite <- !app_assoc. eapply f_call_kind; [exact K|apply blank_not_name; [exact V|reflexivity]|apply blank_clear; try reflexivity; exact V].
        -- rewrite <- app_assoc. apply (f_call_kind (OfPi [])); reflexivity.
      * apply f_call_name_first, f_function_name. reflexivity.
      * destruct v as [|b v].
        -- replace (((axis_name a ++ [] ++ [58; 58] ++ v2) ++ t ++ w ++ u) ++ z) with (axis_name a ++ 58 :: 58 :: v2 ++ t ++ w ++ u ++ z) by texts.
           apply f_call_name_first, F_rule. cbn [rule]. apply F_less, f_qname_colon; [apply axis_name_ncname|reflexivity].
        -- replace (((axis_name a ++ (b :: v) ++ [58; 58] ++ v2) ++ t ++ w ++ u) ++ z) with (axis_name a ++ (b :: v) ++ 58 :: 58 :: v2 ++ t ++ w ++ u ++ z) by texts.
           apply f_call_name; [apply axis_name_ncname|exact V|reflexivity|discriminate| |reflexivity]. cbn. apply blank_cons in V. destruct V as [V _]. cbn in V. destruct V as [<-|[<-|[<-|[<-|[]]]]]; reflexivity.
Qed.

(** * Relative location paths *)
Local Notation steps_p := (Star (Seq (Alt (Rule SlashSlash_id) (Discard (Rule Slash_id))) (Rule Step_id))).
Definition step_first (c : Z) : bool := test_first c || (c =? 64) || (c =? 46).
Definition relative_parsed (s : str) (steps : list (step_of expr)) : Prop :=
  first_of step_first s /\ (forall rest, stops PathLevel rest -> meets s rest -> fails (Rule PrimaryExpr_id) (s ++ rest)) /\
  forall w rest, blank w -> (w = [] \/ ~ begins (eq 46) s) -> stops PathLevel rest -> meets s rest ->
    exists b c v u st ts, s = b ++ c ++ v /\ b <> [] /\ blank v /\ gets (Rule Step_id) (w ++ b) (c ++ v ++ rest) [u] /\ gets steps_p c (v ++ rest) ts /\ step_good x u st /\
      (ts = [] /\ steps = [st] \/ exists ss more ts' steps', ts = ss ++ ts' /\ between ss more /\ steps_trees x ts' steps' /\ steps = st :: more ++ steps').
Lemma step_head s st : step_written (l_uri x) (l_double x) s st -> first_of step_first s.
Proof.
  intros [| |s' a t n w u qs A T B P].
  - exists 46, []. split; reflexivity.
  - exists 46, [46]. split; reflexivity.
  - pose proof (test_head t n T) as [c [r [-> F]]]. destruct A as [|v V|a v v2 V V2].
    + eexists; eexists; split; [reflexivity|]. unfold step_first. rewrite F. reflexivity.
    + eexists; eexists; split; reflexivity.
    + destruct a; eexists; eexists; split; reflexivity.
Qed.
Lemma step_first_not c k : step_first c = true -> start_p k = false -> k <> 42 -> k <> 64 -> k <> 46 -> is k c = false.
Proof.
  intros F K1 K2 K3 K4. unfold is. destruct (k =? c) eqn:Q; [|reflexivity]. apply Z.eqb_eq in Q. subst c. unfold step_first, test_first in F. rewrite K1, !orb_true_iff, !Z.eqb_eq in F. cbn in F. rewrite ?Z.eqb_eq in F. intuition congruence.
Qed.
Lemma step_first_space c : step_first c = true -> space_p c = false.
Proof. unfold step_first, test_first. rewrite !orb_true_iff, !Z.eqb_eq. intros [[[H|H]|H]|H]; [apply start_space, H|subst; reflexivity..]. Qed.
Lemma step_first_tight c : step_first c = true -> tight_p c = true.
Proof. unfold step_first, test_first, tight_p. rewrite !orb_true_iff, !Z.eqb_eq. intros [[[H|H]|H]|H]; [rewrite H; auto|subst; right; reflexivity..]. Qed.
Lemma first_app f a b : first_of f a -> first_of f (a ++ b).
Proof. intros [c [r [-> F]]]. exists c, (r ++ b). split; [reflexivity|exact F]. Qed.
Lemma after_last s w rest : (w = [] \/ begins (eq 46) s /\ blank w) -> stops PathLevel rest -> meets (s ++ w) rest -> after_step s (w ++ rest).
Proof.
  intros D S1 M. assert (blank w) as B by (destruct D as [->|[_ B]]; [constructor|exact B]).
  assert (forall f, not_blank f -> clear f rest -> clear f (w ++ rest)) as C by (intros f N C; apply clear_blank; [exact N|exact B|intros _; exact C]).
  split; [destruct D as [->|[D _]]; [right; cbn [app]; apply (stops_space _ _ S1)|left; exact D]|].
  split; [apply C; [repeat split|eapply stops_clear; [|exact S1]; reflexivity]|].
  split; [apply C; [repeat split|eapply stops_clear; [|exact S1]; reflexivity]|].
  split; [apply C; [repeat split|eapply stops_clear; [|exact S1]; reflexivity]|].
  split; [apply C; [repeat split|eapply stops_clear; [|exact S1]; reflexivity]|].
  split; [apply C; [repeat split|eapply stops_clear; [|exact S1]; reflexivity]|].
  intro E. apply blank_not_name; [exact B|]. intros ->. rewrite app_nil_r in M. apply M, E.
Qed.
Lemma after_slash_char s z : after_step s (47 :: z).
Proof. repeat split; try reflexivity. right. reflexivity. Qed.
Lemma last_parsed s st w : step_written (l_uri x) (l_double x) s st -> step_parsed s st -> (w = [] \/ begins (eq 46) s /\ blank w) -> relative_parsed (s ++ w) [st].
Proof.
  intros H P D. split; [apply first_app, (step_head _ _ H)|]. split.
  - intros rest S1 M. rewrite <- app_assoc. eapply f_primary_step; [exact H|apply after_last; assumption].
  - intros v rest V DV S1 M. destruct (P v (w ++ rest) V) as [u [G GU]].
    + destruct DV as [DV|DV]; [left; exact DV|right]. intro N. apply DV. destruct N as [c [r [-> E]]]. exists c, (r ++ w). split; [reflexivity|exact E].
    + apply after_last; assumption.
    + exists s, [], w, u, st, []. split; [reflexivity|]. split; [destruct (step_head _ _ H) as [c [r [-> _]]]; discriminate|].
      assert (blank w) as B by (destruct D as [->|[_ B]]; [constructor|exact B]). split; [exact B|]. split; [exact G|].
      assert (clear (is 47) (w ++ rest)) as C by (apply blank_clear; try reflexivity; [exact B|eapply stops_clear; [|exact S1]; reflexivity]).
      split; [|split; [exact GU|left; split; reflexivity]]. apply g_stop, F_first, F_alt; [eapply f_word; [reflexivity|]; apply (strip_none_clear _ 47); [reflexivity|exact C]|].
      apply F_discard. eapply f_sign; [reflexivity|exact C].
Qed.
Lemma g_separator sep more z : separator sep more -> clear (is 47) z -> exists ss, gets (Alt (Rule SlashSlash_id) (Discard (Rule Slash_id))) sep z ss /\ between ss more.
Proof.
  intros [] C.
  - exists []. split; [|left; split; reflexivity]. apply g_right; [eapply f_word; [reflexivity|apply strip2, C]|eapply g_discard, g_sign; reflexivity].
  - eexists. split; [apply g_left, g_word; [reflexivity|discriminate]|]. right. eexists. split; reflexivity.
Qed.
Lemma sep_slash sep more : separator sep more -> exists r, sep = 47 :: r.
Proof. intros []; eexists; reflexivity. Qed.
Lemma more_parsed s st sep more w t steps : step_written (l_uri x) (l_double x) s st -> step_parsed s st -> separator sep more -> blank w -> (w = [] \/ ~ begins (eq 46) t) -> relative_parsed t steps ->
  relative_parsed (s ++ sep ++ w ++ t) (st :: more ++ steps).
Proof.
  intros H P SP W DW [FT [_ R]]. destruct (sep_slash _ _ SP) as [sr ES]. split; [apply first_app, (step_head _ _ H)|]. split.
  - intros rest S1 M. rewrite <- app_assoc. eapply f_primary_step; [exact H|]. rewrite ES. apply after_slash_char.
  - intros v rest V DV S1 M. destruct (P v ((sep ++ w ++ t) ++ rest) V) as [u [G GU]].
    + destruct DV as [DV|DV]; [left; exact DV|right]. intro N. apply DV. destruct N as [c [r [-> E]]]. eexists c, _. split; [reflexivity|exact E].
    + rewrite ES. apply after_slash_char.
    + destruct (R w rest W DW S1) as [b [c [v' [u' [st' [ts [ET [NB [BV [G1 [G2 [GU' D]]]]]]]]]]]]; [rewrite !app_assoc in M; eapply meets_suffix, M|].
      assert (clear (is 47) ((w ++ b) ++ c ++ v' ++ rest)) as C.
      { replace ((w ++ b) ++ c ++ v' ++ rest) with (w ++ t ++ rest) by (rewrite ET; texts). apply blank_clear; try reflexivity; [exact W|]. eapply first_clear; [|exact FT]. intros d F. apply step_first_not; [exact F|reflexivity|discriminate..]. }
      destruct (g_separator sep more _ SP C) as [ss [GS BS]].
      exists s, (sep ++ w ++ b ++ c), v', u, st, (ss ++ u' :: ts). split; [rewrite ET; texts|]. split; [destruct (step_head _ _ H) as [d [r [-> _]]]; discriminate|]. split; [exact BV|].
      split; [eapply g_eq; [|reflexivity|reflexivity]; replace ((sep ++ w ++ b ++ c) ++ v' ++ rest) with ((sep ++ w ++ t) ++ rest) by (rewrite ET; texts); exact G|].
      split.
      { eapply g_eq; [eapply (g_star _ (sep ++ w ++ b) c (v' ++ rest) (ss ++ [u']) ts); [|exact G2]|texts|rewrite <- app_assoc; reflexivity]. apply g_seq; [exact GS|exact G1]. }
      split; [exact GU|]. right. exists ss, more, (u' :: ts), steps. split; [reflexivity|]. split; [exact BS|]. split; [|reflexivity].
      destruct D as [[-> ->]|[ss2 [more2 [ts2 [steps2 [-> [B2 [T2 ->]]]]]]]]; [apply one_steps, GU'|apply more_steps_trees; assumption].
Qed.
Lemma relative_rule s steps w rest : relative_parsed s steps -> blank w -> (w = [] \/ ~ begins (eq 46) s) -> stops PathLevel rest -> meets s rest ->
  exists a v t, s = a ++ v /\ a <> [] /\ blank v /\ gets (Rule RelativeLocationPath_id) (w ++ a) (v ++ rest) [t] /\ path_tree x t steps.
Proof.
  intros [_ [_ R]] W DW S1 M. destruct (R w rest W DW S1 M) as [b [c [v [u [st [ts [E [NB [V [G1 [G2 [GU D]]]]]]]]]]]].
  assert (gets (rule RelativeLocationPath_id) (w ++ b ++ c) (v ++ rest) (u :: ts)) as G.
  { cbn [rule]. eapply (g_join _ _ (w ++ b) c _ [u] ts); [exact G1|exact G2|texts|reflexivity]. }
  exists (b ++ c), v. destruct D as [[-> ->]|[ss [more [ts' [steps' [-> [B [T ->]]]]]]]].
  - exists u. split; [rewrite E; texts|]. split; [destruct b; [elim NB; reflexivity|discriminate]|]. split; [exact V|]. split; [|apply one_step_path, GU].
    eapply g_node; [destruct w; [destruct b; [elim NB; reflexivity|discriminate]|discriminate]|exact G|]. apply (good_group x _ u _ (proj1 GU)).
  - destruct (relative_group x u st ss more ts' steps' GU B T) as [t [EG PT]]. exists t. split; [rewrite E; texts|]. split; [destruct b; [elim NB; reflexivity|discriminate]|]. split; [exact V|]. split; [|exact PT].
    eapply g_node; [destruct w; [destruct b; [elim NB; reflexivity|discriminate]|discriminate]|exact G|exact EG].
Qed.

(** * Location paths *)
Lemma f_filter s : fails (Rule PrimaryExpr_id) s -> fails (Seq (Rule FilterExpr_id) (Opt (Seq (Alt (Rule SlashSlash_id) (Rule Slash_id)) (Rule RelativeLocationPath_id)))) s.
Proof. intro F. apply F_first, F_rule. cbn [rule]. apply F_first, F. Qed.
Lemma f_slash_primary z : fails (Rule PrimaryExpr_id) (47 :: z).
Proof. apply f_primary; try reflexivity; [discriminate|]. apply f_call_name_first, f_function_name. reflexivity. Qed.
Lemma relative_alone_parsed s steps : relative_parsed s steps -> path_single s (EPath false steps).
Proof.
  intro R. split; [eapply first_imp; [|exact (proj1 R)]; intro c; apply step_first_tight|]. intros rest S1 M.
  destruct (relative_rule s steps [] rest R) as [a [v [t [E [NE [V [G PT]]]]]]]; [constructor|left; reflexivity|exact S1|exact M|]. exists a, v, t.
  split; [exact E|]. split; [exact NE|]. split; [exact V|]. split; [exact (proj1 PT)|].
  assert (a ++ v ++ rest = s ++ rest) as EA by (rewrite E; texts).
  apply g_right; [rewrite EA; apply f_filter; apply R; assumption|]. eapply g_node; [exact NE| |apply (good_group x _ t _ (proj1 PT))]. cbn [rule]. apply g_right; [|exact G].
  apply f_absolute. rewrite EA. eapply first_clear; [|exact (proj1 R)]. intros d F. apply step_first_not; [exact F|reflexivity|discriminate..].
Qed.
Lemma clear_both f g s : clear (fun c => f c || g c) s -> clear f s /\ clear g s.
Proof. destruct s as [|c s]; [split; exact Logic.I|]. cbn. apply orb_false_iff. Qed.
Lemma clear_swap k s : clear (fun c => c =? k) s -> clear (is k) s.
Proof. destruct s as [|c s]; [trivial|]. cbn. unfold is. rewrite Z.eqb_sym. trivial. Qed.
Lemma root_parsed w : blank w -> path_single (47 :: w) (EPath true []).
Proof.
  intro B. split; [exists 47, w; split; reflexivity|]. intros rest S1 [_ M]. assert (ends_in_slash (47 :: w)) as ES by (exists [], w; split; [reflexivity|exact B]).
  destruct (clear_both _ _ _ (M ES)) as [M1 M2]. apply clear_swap in M2. pose (t := Tree (Some Slash_id) [47] []).
  exists [47], w, t. split; [reflexivity|]. split; [discriminate|]. split; [exact B|]. split; [apply good_at_once; [reflexivity|discriminate|discriminate]|].
  assert (clear (is 47) (w ++ rest)) as C by (apply blank_clear; try reflexivity; [exact B|eapply stops_clear; [|exact S1]; reflexivity]).
  apply g_right; [apply f_filter, f_slash_primary|]. eapply (g_node _ _ _ [t]); [discriminate| |reflexivity]. cbn [rule]. apply g_left. eapply (g_node _ _ _ [t]); [discriminate| |reflexivity]. cbn [rule]. apply g_right.
  - apply F_rule. cbn [rule]. apply F_first. eapply f_word; [reflexivity|apply strip2, C].
  - eapply (g_join _ _ [47] [] _ [t] []); [apply g_sign; reflexivity| |reflexivity|reflexivity]. apply g_none, f_relative, f_step; [exact B|apply (stops_space _ _ S1)|exact M1|exact M2|eapply stops_clear; [|exact S1]; reflexivity..].
Qed.
Lemma relative_slash s steps w z : relative_parsed s steps -> blank w -> clear (is 47) (w ++ s ++ z).
Proof. intros R W. apply blank_clear; try reflexivity; [exact W|]. eapply first_clear; [|exact (proj1 R)]. intros d F. apply step_first_not; [exact F|reflexivity|discriminate..]. Qed.
Lemma path_tree_id t steps : path_tree x t steps -> exists i, id_of t = Some i.
Proof. intros [G _]. destruct (good_id x _ _ G) as [i [E _]]. exists i. exact E. Qed.
Lemma absolute_parsed sep more w s steps : separator sep more -> blank w -> (w = [] \/ ~ begins (eq 46) s) -> relative_parsed s steps -> path_single (sep ++ w ++ s) (EPath true (more ++ steps)).
Proof.
  intros SP W DW R. destruct (sep_slash _ _ SP) as [sr ES]. split; [rewrite ES; eexists; eexists; split; reflexivity|]. intros rest S1 M.
  destruct (relative_rule s steps w rest R W DW S1) as [a [v [t [E [NE [V [G PT]]]]]]]; [rewrite app_assoc in M; eapply meets_suffix, M|].
  assert (clear (is 47) ((w ++ a) ++ v ++ rest)) as C by (replace ((w ++ a) ++ v ++ rest) with (w ++ s ++ rest) by (rewrite E; texts); eapply relative_slash; eassumption).
  destruct (path_tree_id _ _ PT) as [i EI].
  assert (exists j u, gets (Rule AbsoluteLocationPath_id) (sep ++ w ++ a) (v ++ rest) [Tree (Some j) [] [u; t]] /\ (j = AbsoluteLocationPath_id \/ j = AbbreviatedAbsoluteLocationPath_id) /\ slash_tree u more) as [j [u [GA [J SU]]]].
  { destruct SP.
    - exists AbsoluteLocationPath_id, (Tree (Some Slash_id) [47] []). split; [|split; [left; reflexivity|left; split; reflexivity]].
      eapply (g_node _ _ _ [Tree (Some Slash_id) [47] []; t]); [discriminate| |cbn; rewrite (claim_id _ _ i EI); reflexivity]. cbn [rule]. apply g_right.
      + apply F_rule. cbn [rule]. apply F_first. eapply f_word; [reflexivity|apply strip2, C].
      + eapply (g_join _ _ [47] (w ++ a) _ [_] [t]); [apply g_sign; reflexivity|apply g_some, G|reflexivity|reflexivity].
    - exists AbbreviatedAbsoluteLocationPath_id, (Tree (Some SlashSlash_id) [47; 47] []). split; [|split; [right; reflexivity|right; eexists; split; reflexivity]].
      eapply (g_node _ _ _ [Tree (Some AbbreviatedAbsoluteLocationPath_id) [] [Tree (Some SlashSlash_id) [47; 47] []; t]]); [discriminate| |reflexivity]. cbn [rule]. apply g_left.
      eapply (g_node _ _ _ [Tree (Some SlashSlash_id) [47; 47] []; t]); [discriminate| |cbn; rewrite (claim_id _ _ i EI); reflexivity]. cbn [rule].
      eapply (g_join _ _ [47; 47] (w ++ a) _ [_] [t]); [apply g_word; [reflexivity|discriminate]|exact G|reflexivity|reflexivity]. }
  exists (sep ++ w ++ a), v, (Tree (Some j) [] [u; t]). split; [rewrite E; texts|]. split; [rewrite ES; discriminate|]. split; [exact V|]. split; [apply absolute_node; assumption|].
  apply g_right; [rewrite ES; apply f_filter, f_slash_primary|]. eapply g_node; [rewrite ES; discriminate|cbn [rule]; apply g_left, GA|reflexivity].
Qed.

(** * Primary expressions *)
Definition after_primary (s z : str) : Prop :=
  clear space_p z /\ clear digit_p z /\ clear (is 46) z /\ clear (is 58) z /\ (ends_in_name s -> clear name_p z).
Definition primary_parsed (s : str) (e : expr) : Prop :=
  first_of tight_p s /\ forall z, after_primary s z -> exists t, gets (Rule PrimaryExpr_id) s z [t] /\ good x t e.
Local Notation primaries := (Alt (Alt (Alt (Alt (Rule VariableReference_id) (Rule Number_id)) (Rule FunctionCall_id))
  (Seq (Seq (Seq (Seq (Discard (Rule LeftBracket_id)) (Rule S_id)) (Rule Expr_id)) (Rule S_id)) (Discard (Rule RightBracket_id)))) (Rule Literal_id)).
Lemma tight_not_space c : tight_p c = true -> space_p c = false.
Proof. intro H. destruct (space_p c) eqn:E; [|reflexivity]. rewrite (tight_space c H) in E. discriminate. Qed.
Lemma g_primary a w z ts us : first_of tight_p a -> blank w -> clear space_p z -> gets primaries a (w ++ z) ts -> group PrimaryExpr_id ts = us -> gets (Rule PrimaryExpr_id) (a ++ w) z us.
Proof.
  intros F W C G E. eapply g_node; [destruct F as [c [r [-> _]]]; discriminate| |exact E]. cbn [rule].
  eapply (g_join _ _ a w _ ts []); [|apply d_white; assumption|reflexivity|rewrite app_nil_r; reflexivity].
  eapply (g_join _ _ [] a _ [] ts); [|exact G|reflexivity|reflexivity]. apply d_white; [constructor|]. eapply first_clear; [|exact F]. exact tight_not_space.
Qed.
Lemma g_primary_one a w z t i : first_of tight_p a -> blank w -> clear space_p z -> id_of t = Some i -> gets primaries a (w ++ z) [t] -> gets (Rule PrimaryExpr_id) (a ++ w) z [t].
Proof. intros F W C I G. eapply g_primary; [exact F|exact W|exact C|exact G|]. unfold group. cbn [map]. rewrite (claim_id _ _ _ I). reflexivity. Qed.
Lemma ends_app a n w : ncname n -> w = [] -> ends_in_name (a ++ n ++ w).
Proof. intros N ->. exists a, n. rewrite app_nil_r. split; [reflexivity|exact N]. Qed.
Lemma variable_parsed n w : ncname n -> blank w -> primary_parsed (36 :: n ++ w) (EVariable [] n).
Proof.
  intros N W. split; [eexists; eexists; split; reflexivity|]. intros z [C1 [C2 [C3 [C4 C5]]]]. eexists. split; [|apply (variable_good x (claim VariableReference_id (leaf 36)))].
  change (36 :: n ++ w) with ((36 :: n) ++ w). eapply g_primary_one; [eexists; eexists; split; reflexivity|exact W|exact C1|reflexivity|]. do 4 apply g_left.
  eapply (g_node _ _ _ [leaf 36; name_leaf n]); [discriminate| |reflexivity]. cbn [rule]. eapply (g_join _ _ [36] n _ [leaf 36] [name_leaf n]); [apply g_chr| |reflexivity|reflexivity].
  apply g_qname; [exact N| |apply blank_clear; try reflexivity; assumption]. apply blank_not_name; [exact W|]. intro E. apply C5. apply (ends_app [36]); assumption.
Qed.
Lemma prefixed_variable_parsed p u n w : ncname p -> ncname n -> l_uri x p = Some u -> blank w -> primary_parsed (36 :: p ++ 58 :: n ++ w) (EVariable u n).
Proof.
  intros P N U W. split; [eexists; eexists; split; reflexivity|]. intros z [C1 [C2 [C3 [C4 C5]]]]. eexists. split; [|apply (prefixed_variable_good x (claim VariableReference_id (leaf 36)) p n u U)].
  replace (36 :: p ++ 58 :: n ++ w) with ((36 :: p ++ 58 :: n) ++ w) by texts. eapply g_primary_one; [eexists; eexists; split; reflexivity|exact W|exact C1|reflexivity|]. do 4 apply g_left.
  eapply (g_node _ _ _ [leaf 36; qname_node p n]); [discriminate| |reflexivity]. cbn [rule]. eapply (g_join _ _ [36] (p ++ 58 :: n) _ [leaf 36] [qname_node p n]); [apply g_chr| |reflexivity|reflexivity].
  apply g_qname_prefixed; [exact P|exact N|]. apply blank_not_name; [exact W|]. intro E. apply C5. replace (36 :: p ++ 58 :: n ++ w) with ((36 :: p ++ [58]) ++ n ++ w) by texts. apply ends_app; assumption.
Qed.
Lemma f_variable s : clear (is 36) s -> fails (Rule VariableReference_id) s.
Proof. intro C. apply F_rule. cbn [rule]. apply F_first, f_chr, C. Qed.
Lemma digit_true c : digit c -> digit_p c = true.
Proof. unfold digit, digit_p. intro H. rewrite andb_true_iff, !Z.leb_le. lia. Qed.
Lemma numeral_first s : numeral s -> first_of (fun c => digit_p c || (c =? 46)) s.
Proof.
  assert (forall a b, digits a -> first_of (fun c => digit_p c || (c =? 46)) (a ++ b)) as D.
  { intros [|c a] b [N F]; [elim N; reflexivity|]. inversion F as [|? ? F1 F2]. exists c, (a ++ b). split; [reflexivity|]. rewrite (digit_true c F1). reflexivity. }
  intros [a A|a b A B|b B]; [rewrite <- (app_nil_r a); apply D, A|apply D, A|]. exists 46, b. split; reflexivity.
Qed.
Lemma number_first_tight c : digit_p c || (c =? 46) = true -> tight_p c = true.
Proof. unfold tight_p. rewrite !orb_true_iff, Z.eqb_eq. intros [H|H]; [auto|subst; right; reflexivity]. Qed.
Lemma number_first_other c k : digit_p c || (c =? 46) = true -> digit_p k = false -> k <> 46 -> is k c = false.
Proof. intros H K1 K2. unfold is. destruct (k =? c) eqn:Q; [|reflexivity]. apply Z.eqb_eq in Q. subst c. rewrite K1 in H. cbn in H. apply Z.eqb_eq in H. contradiction. Qed.
Lemma number_parsed s d w : numeral s -> l_double x s = Some d -> blank w -> primary_parsed (s ++ w) (ENumber d).
Proof.
  intros N D W. pose proof (first_imp _ _ _ number_first_tight (numeral_first s N)) as F. split; [apply first_app, F|]. intros z [C1 [C2 [C3 [C4 C5]]]].
  exists (number_leaf s). split; [|apply number_good, D]. eapply g_primary_one; [exact F|exact W|exact C1|reflexivity|]. do 3 apply g_left. apply g_right.
  - apply f_variable. eapply first_clear; [|exact (numeral_first s N)]. intros c H. apply number_first_other; [exact H|reflexivity|discriminate].
  - apply g_number; [exact N| |apply blank_clear; try reflexivity; assumption]. apply clear_blank; [repeat split|exact W|intros _; exact C2].
Qed.
Lemma literal_parsed l s w : literal l s -> blank w -> primary_parsed (l ++ w) (ELiteral s).
Proof.
  intros L W. assert (exists q r, l = q :: r /\ (q = 34 \/ q = 39)) as [q [r [E Q]]] by (destruct L as [q s Q _]; eexists; eexists; split; [reflexivity|exact Q]).
  assert (first_of tight_p l) as F by (rewrite E; exists q, r; split; [reflexivity|destruct Q as [->| ->]; reflexivity]).
  split; [apply first_app, F|]. intros z [C1 _]. exists (literal_leaf s). split; [|apply literal_good]. eapply g_primary_one; [exact F|exact W|exact C1|reflexivity|].
  apply g_right; [|apply g_literal, L]. rewrite E. assert (forall k, k <> 34 -> k <> 39 -> clear (is k) ((q :: r) ++ w ++ z)) as C by (intros k K1 K2; apply clear_is; apply Z.eqb_neq; destruct Q; congruence).
  apply F_alt; [apply F_alt; [apply F_alt|]|].
  - apply f_variable, C; discriminate.
  - apply f_number; [destruct Q as [->| ->]; reflexivity|intros r' E'; exfalso; injection E' as E' _; destruct Q; congruence].
  - apply f_call_name_first, f_function_name. destruct Q as [->| ->]; reflexivity.
  - do 4 apply F_first. apply F_discard. eapply f_sign; [reflexivity|apply C; discriminate].
Qed.
Definition opens (s : str) : Prop := exists w s', s = w ++ s' /\ blank w /\ first_of (lead_p OrLevel) s'.
Lemma parsed_opens s e : parsed_at OrLevel s e -> opens s.
Proof. intros [w [s' [E [W [F _]]]]]. exists w, s'. split; [exact E|]. split; [exact W|exact F]. Qed.
Lemma opens_clear s z : opens s -> ~ begins (fun c => In c [32; 9; 10; 13]) s -> clear space_p (s ++ z).
Proof.
  intros [w [s' [-> [W F]]]] N. destruct W as [|c w W _].
  - cbn [app]. eapply first_clear; [|exact F]. intros c H. unfold lead_p in H. apply orb_true_iff in H. destruct H as [H|H]; [apply tight_not_space, H|apply Z.eqb_eq in H; subst; reflexivity].
  - exfalso. apply N. eexists; eexists; split; [reflexivity|exact W].
Qed.
Lemma group_white v t e : good x t e -> exists t', group PrimaryExpr_id (white v ++ [t]) = [t'] /\ good x t' e.
Proof.
  intro G. destruct (white_shape v) as [E|[w [E I]]]; rewrite E.
  - exists t. split; [apply (good_group x _ _ _ G)|exact G].
  - exists (Tree (Some PrimaryExpr_id) [] [w; t]). split; [|apply bracket_node; assumption]. cbn [app]. destruct (good_id x _ _ G) as [i [EI _]].
    unfold group. cbn [map]. rewrite (claim_id _ _ _ I), (claim_id _ _ _ EI). reflexivity.
Qed.
Lemma bracket_parsed v s e w : blank v -> ~ begins (fun c => In c [32; 9; 10; 13]) s -> parsed_at OrLevel s e -> blank w -> primary_parsed (40 :: v ++ s ++ 41 :: w) e.
Proof.
  intros V N P W. split; [eexists; eexists; split; reflexivity|]. intros z [C1 _]. destruct (close_parsed s e 41 (w ++ z)) as [t [GT G]]; [left; reflexivity|exact P|].
  destruct (group_white v t e GT) as [t' [EG GT']]. exists t'. split; [|exact GT']. replace (40 :: v ++ s ++ 41 :: w) with ((40 :: v ++ s ++ [41]) ++ w) by texts.
  eapply g_primary; [eexists; eexists; split; reflexivity|exact W|exact C1| |exact EG]. apply g_left, g_right.
  - apply F_alt; [apply F_alt|]; [apply f_variable; reflexivity|apply f_number; [reflexivity|intros r E; discriminate E]|apply f_call_name_first, f_function_name; reflexivity].
  - eapply (g_join _ _ (40 :: v ++ s) [41] _ (white v ++ [t]) []); [|eapply g_discard, g_sign; reflexivity|texts|rewrite app_nil_r; reflexivity].
    eapply (g_join _ _ (40 :: v ++ s) [] _ (white v ++ [t]) (white [])); [|apply g_white; [constructor|reflexivity]|rewrite app_nil_r; reflexivity|rewrite app_nil_r; reflexivity].
    eapply (g_join _ _ (40 :: v) s _ (white v) [t]); [| |reflexivity|reflexivity].
    + eapply (g_join _ _ [40] v _ [] (white v)); [eapply g_discard, g_sign; reflexivity|apply g_white; [exact V|]|reflexivity|reflexivity]. cbn [app]. apply opens_clear; [eapply parsed_opens, P|exact N].
    + apply (g_expr_rule Expr_id s _ t e); [left; reflexivity|eapply parsed_not_nil, P|exact GT|exact G].
Qed.

(** * Function calls *)
Definition starts_b (c : Z) : bool := (65 <=? c) && (c <=? 90) || (97 <=? c) && (c <=? 122) || (c =? 95).
Definition in_b (c : Z) : bool := starts_b c || (48 <=? c) && (c <=? 57) || (c =? 46) || (c =? 45).
Lemma name_b n : match n with [] => false | c :: r => starts_b c && forallb in_b r end = true -> ncname n.
Proof.
  destruct n as [|c r]; [discriminate|]. intro H. apply andb_true_iff in H. destruct H as [H1 H2]. constructor.
  - unfold starts_b in H1. unfold starts_name, letter. rewrite !orb_true_iff, !andb_true_iff, !Z.leb_le, Z.eqb_eq in H1. lia.
  - rewrite forallb_forall in H2. apply Forall_forall. intros d I. specialize (H2 d I). unfold in_b, starts_b in H2. unfold in_name, letter, digit. rewrite !orb_true_iff, !andb_true_iff, !Z.leb_le, !Z.eqb_eq in H2. lia.
Qed.
Lemma function_ncname g : ncname (function_name g).
Proof. apply name_b. destruct g; vm_compute; reflexivity. Qed.
Lemma f_kind_function g z : fails (Rule NodeType_id) (function_name g ++ z).
Proof. apply F_rule. cbn [rule]. repeat apply F_alt; (eapply f_word; [reflexivity|]); destruct g; vm_compute; reflexivity. Qed.
Lemma g_function_name g z : clear name_p z -> clear (is 58) z -> gets (Rule FunctionName_id) (function_name g) z [name_leaf (function_name g)].
Proof.
  intros C1 C2. eapply (g_node _ _ _ [name_leaf (function_name g)]); [apply ncname_not_nil, function_ncname| |reflexivity]. cbn [rule]. apply g_less; [apply g_qname; [apply function_ncname|exact C1|exact C2]|apply f_kind_function].
Qed.
Definition lb : tree := Tree (Some LeftBracket_id) [40] [].
Definition rb : tree := Tree (Some RightBracket_id) [41] [].
Local Notation arguments_p := (Opt (Seq (Rule Argument_id) (Star (Seq (Seq (Discard (Chr 44)) (Rule S_id)) (Rule Argument_id))))).
Lemma function_first g : first_of start_p (function_name g).
Proof. destruct g; eexists; eexists; split; reflexivity. Qed.
Lemma start_tight c : start_p c = true -> tight_p c = true.
Proof. unfold tight_p. intros ->. reflexivity. Qed.
Lemma start_digit c : start_p c = true -> digit_p c = false.
Proof. intro H. destruct (digit_p c) eqn:E; [|reflexivity]. exfalso. unfold start_p, alpha_p, digit_p in *. rewrite ?orb_true_iff, ?andb_true_iff, ?Z.leb_le, ?Z.eqb_eq in *. lia. Qed.
Lemma tree_ids ts : (forall t, In t ts -> exists i, id_of t = Some i) -> forall r, map (claim r) ts = ts.
Proof. intros H r. induction ts as [|t ts IH]; [reflexivity|]. cbn [map]. destruct (H t (or_introl eq_refl)) as [i E]. rewrite (claim_id _ _ _ E), IH; [reflexivity|]. intros u I. apply H. right. exact I. Qed.
Lemma g_call g v s u w z ats : blank v -> blank u -> blank w -> clear space_p z -> (forall t, In t ats -> exists i, id_of t = Some i) ->
  gets arguments_p s (u ++ 41 :: w ++ z) ats ->
  gets (Rule PrimaryExpr_id) (function_name g ++ v ++ 40 :: s ++ u ++ 41 :: w) z [Tree (Some FunctionCall_id) [] (name_leaf (function_name g) :: white v ++ lb :: ats ++ white u ++ rb :: white w)].
Proof.
  intros V U W C I G. replace (function_name g ++ v ++ 40 :: s ++ u ++ 41 :: w) with ((function_name g ++ v ++ 40 :: s ++ u ++ 41 :: w) ++ []) by apply app_nil_r.
  eapply g_primary_one; [apply first_app; eapply first_imp; [exact start_tight|apply function_first]|constructor|exact C|reflexivity|]. cbn [app].
  apply g_left, g_left, g_right.
  - apply F_alt; [apply f_variable; rewrite <- app_assoc; eapply first_clear; [|apply function_first]; intros c H; apply start_is; [exact H|reflexivity]|].
    apply f_number; [rewrite <- app_assoc; eapply first_clear; [|apply function_first]; exact start_digit|]. intros r E. exfalso. destruct g; discriminate E.
  - eapply (g_node _ _ _ (name_leaf (function_name g) :: white v ++ lb :: ats ++ white u ++ rb :: white w)).
    + destruct g; discriminate.
    + cbn [rule]. eapply (g_join _ _ (function_name g ++ v ++ 40 :: s ++ u ++ [41]) w _ (name_leaf (function_name g) :: white v ++ lb :: ats ++ white u ++ [rb]) (white w)); [|apply g_white; assumption|texts|texts].
      eapply (g_join _ _ (function_name g ++ v ++ 40 :: s ++ u) [41] _ (name_leaf (function_name g) :: white v ++ lb :: ats ++ white u) [rb]); [|apply g_sign; reflexivity|texts|texts].
      eapply (g_join _ _ (function_name g ++ v ++ 40 :: s) u _ (name_leaf (function_name g) :: white v ++ lb :: ats) (white u)); [|apply g_white; [exact U|reflexivity]|texts|texts].
      eapply (g_join _ _ (function_name g ++ v ++ [40]) s _ (name_leaf (function_name g) :: white v ++ [lb]) ats); [|exact G|texts|texts].
      eapply (g_join _ _ (function_name g ++ v) [40] _ (name_leaf (function_name g) :: white v) [lb]); [|apply g_sign; reflexivity|texts|reflexivity].
      eapply (g_join _ _ (function_name g) v _ [name_leaf (function_name g)] (white v)); [|apply g_white; [exact V|reflexivity]|reflexivity|reflexivity].
      apply g_function_name; [apply blank_not_name; [exact V|reflexivity]|apply blank_clear; try reflexivity; exact V].
    + unfold group. assert (map (claim FunctionCall_id) (name_leaf (function_name g) :: white v ++ lb :: ats ++ white u ++ rb :: white w) = name_leaf (function_name g) :: white v ++ lb :: ats ++ white u ++ rb :: white w) as ->.
      { apply tree_ids. intros t [<-|H]; [eexists; reflexivity|]. apply in_app_or in H. destruct H as [H|[<-|H]]; [eexists; apply (white_ids _ _ H)|eexists; reflexivity|].
        apply in_app_or in H. destruct H as [H|H]; [apply I, H|]. apply in_app_or in H. destruct H as [H|[<-|H]]; [eexists; apply (white_ids _ _ H)|eexists; reflexivity|eexists; apply (white_ids _ _ H)]. }
      destruct (white v ++ lb :: ats ++ white u ++ rb :: white w) eqn:E; [destruct (white v); discriminate E|reflexivity].
Qed.
Lemma call_without_parsed g v w z : arity_ok g 0 = true -> blank v -> blank w -> blank z -> primary_parsed (function_name g ++ v ++ 40 :: w ++ 41 :: z) (ECall g []).
Proof.
  intros A V W Z0. split; [apply first_app; eapply first_imp; [exact start_tight|apply function_first]|]. intros y [C _]. eexists. split.
  - apply (g_call g v [] w z y []); [exact V|exact W|exact Z0|exact C|intros t []|]. apply g_none, F_first. apply (f_argument w (z ++ y)), W.
  - cbn [app]. apply (call_good x g v [] [] (white w ++ rb :: white z)); [exact A|reflexivity| |reflexivity]. apply ev_S, ev_all. intro n. rewrite skip_whites. reflexivity.
Qed.
Local Notation more_arguments_p := (Star (Seq (Seq (Discard (Chr 44)) (Rule S_id)) (Rule Argument_id))).
Definition arguments_parsed (s : str) (args : list expr) : Prop :=
  opens s /\ forall z, exists b c t ts, s = b ++ c /\ gets (Rule Argument_id) b (c ++ 41 :: z) [t] /\ gets more_arguments_p c (41 :: z) ts /\ argument_trees x (t :: ts) args.
Lemma opens_app s t : opens s -> opens (s ++ t).
Proof. intros [w [s' [-> [W F]]]]. exists w, (s' ++ t). split; [rewrite app_assoc; reflexivity|]. split; [exact W|apply first_app, F]. Qed.
Lemma one_argument_parsed s e : parsed_at OrLevel s e -> arguments_parsed s [e].
Proof.
  intro P. split; [eapply parsed_opens, P|]. intro z. destruct (close_parsed s e 41 z) as [t [GT G]]; [left; reflexivity|exact P|].
  exists s, [], t, []. split; [rewrite app_nil_r; reflexivity|]. split; [|split; [|apply one_argument_tree, GT]].
  - assert (s <> []) as N by (eapply parsed_not_nil, P). eapply (g_expr_rule Argument_id); [right; reflexivity|exact N|exact GT|exact G].
  - apply g_stop. do 2 apply F_first. apply F_discard, f_chr. reflexivity.
Qed.
Lemma more_arguments_parsed s e w t es : parsed_at OrLevel s e -> blank w -> ~ begins (fun c => In c [32; 9; 10; 13]) t -> arguments_parsed t es -> ~ (all_pis e /\ first_is_literal es) ->
  arguments_parsed (s ++ 44 :: w ++ t) (e :: es).
Proof.
  intros P W N [O R] L. split; [apply opens_app; eapply parsed_opens, P|]. intro z. destruct (R z) as [b [c [u [ts [E [G1 [G2 A]]]]]]].
  destruct (close_parsed s e 44 ((w ++ t) ++ 41 :: z)) as [t0 [GT G]]; [right; right; left; reflexivity|exact P|].
  exists s, (44 :: w ++ t), t0, (white w ++ u :: ts). split; [reflexivity|]. split; [|split; [|apply more_argument_trees; assumption]].
  - assert (s <> []) as M by (eapply parsed_not_nil, P). eapply (g_expr_rule Argument_id); [right; reflexivity|exact M|exact GT|exact G].
  - eapply g_eq; [eapply (g_star _ (44 :: w ++ b) c (41 :: z) (white w ++ [u]) ts); [|exact G2]|rewrite E; texts|rewrite <- app_assoc; reflexivity].
    eapply (g_join _ _ (44 :: w) b _ (white w) [u]); [|exact G1|texts|reflexivity]. eapply (g_join _ _ [44] w _ [] (white w)); [eapply g_discard, g_chr| |reflexivity|reflexivity].
    apply g_white; [exact W|]. replace (b ++ c ++ 41 :: z) with (t ++ 41 :: z) by (rewrite E; texts). apply opens_clear; assumption.
Qed.
Lemma call_with_parsed g v s args w : arity_ok g (length args) = true -> blank v -> arguments_parsed s args -> blank w -> primary_parsed (function_name g ++ v ++ 40 :: s ++ 41 :: w) (ECall g args).
Proof.
  intros A V [O R] W. split; [apply first_app; eapply first_imp; [exact start_tight|apply function_first]|]. intros y [C _].
  destruct (R (w ++ y)) as [b [c [t [ts [E [G1 [G2 T]]]]]]]. pose proof T as [args' [EF [[t1 [r1 [i [E1 [I1 [I2 I3]]]]]] [IDS EV]]]]. eexists. split.
  - apply (g_call g v s [] w y (t :: ts)); [exact V|constructor|exact W|exact C|exact IDS|]. apply g_some. eapply (g_join _ _ b c _ [t] ts); [exact G1|exact G2|exact E|reflexivity].
  - cbn [white app]. apply (call_good x g v args args' (t :: ts ++ rb :: white w)); [exact A|exact EF| |reflexivity].
    rewrite E1 in EV. injection E1 as -> ->. rewrite (skip_not_space _ _ _ I1 I2). apply (EV (rb :: white w) rb (white w)); [apply (skip_not_space _ _ RightBracket_id); [reflexivity|discriminate]|reflexivity|reflexivity].
Qed.

(** * Primary expressions as paths *)
Local Notation from_p := (Opt (Seq (Alt (Rule SlashSlash_id) (Rule Slash_id)) (Rule RelativeLocationPath_id))).
Lemma after_primary_stops s rest : stops PathLevel rest -> meets s rest -> after_primary s rest.
Proof.
  intros S1 [M _]. split; [apply (stops_space _ _ S1)|]. split; [eapply stops_clear; [|exact S1]; reflexivity|]. split; [eapply stops_clear; [|exact S1]; reflexivity|].
  split; [eapply stops_clear; [|exact S1]; reflexivity|exact M].
Qed.
Lemma no_from rest : stops PathLevel rest -> gets from_p [] rest [].
Proof.
  intro S1. assert (clear (is 47) rest) as C by (eapply stops_clear; [|exact S1]; reflexivity). apply g_none, F_first, F_alt; [eapply f_word; [reflexivity|]; apply (strip_none_clear _ 47); [reflexivity|exact C]|eapply f_sign; [reflexivity|exact C]].
Qed.
Lemma primary_alone_parsed s e : primary_parsed s e -> path_single s e.
Proof.
  intros [F P]. split; [exact F|]. intros rest S1 M. destruct (P rest (after_primary_stops _ _ S1 M)) as [t [G GT]]. exists s, [], t.
  assert (s <> []) as N by (destruct F as [c [r [-> _]]]; discriminate). split; [rewrite app_nil_r; reflexivity|]. split; [exact N|]. split; [constructor|]. split; [exact GT|]. cbn [app].
  apply g_left. eapply (g_join _ _ s [] _ [t] []); [|apply no_from, S1|rewrite app_nil_r; reflexivity|reflexivity]. eapply g_node; [exact N| |apply (good_group x _ _ _ GT)]. cbn [rule].
  eapply (g_join _ _ s [] _ [t] []); [exact G| |rewrite app_nil_r; reflexivity|reflexivity]. apply g_stop, f_predicate; [apply (stops_space _ _ S1)|eapply stops_clear; [|exact S1]; reflexivity].
Qed.
Lemma filter_group t e ps qs : good x t e -> predicate_trees x ps qs -> qs <> [] -> group FilterExpr_id (t :: ps) = [Tree (Some FilterExpr_id) [] (t :: ps)].
Proof.
  intros G [_ [_ [NE [IDS _]]]] Q. unfold group. rewrite tree_ids; [destruct ps as [|p ps]; [elim Q; apply NE; reflexivity|reflexivity]|].
  intros u [<-|I]; [destruct (good_id x _ _ G) as [i [E _]]; exists i; exact E|eexists; apply IDS, I].
Qed.
Lemma filtered_parsed s e t qs : primary_parsed s e -> predicates_parsed t qs -> qs <> [] -> path_single (s ++ t) (EPath false [FilterStep e qs]).
Proof.
  intros [F P] [D R] Q. destruct D as [[_ D]|[[r ET] _]]; [contradiction|]. split; [apply first_app, F|]. intros rest S1 M.
  destruct (P (t ++ rest)) as [u [G GU]]; [rewrite ET; repeat split|]. destruct (R rest) as [ps [GP PT]]; [apply (stops_space _ _ S1)|eapply stops_clear; [|exact S1]; reflexivity|].
  assert (s ++ t <> []) as N by (destruct F as [c [r' [-> _]]]; discriminate). exists (s ++ t), [], (Tree (Some FilterExpr_id) [] (u :: ps)).
  split; [rewrite app_nil_r; reflexivity|]. split; [exact N|]. split; [constructor|]. split; [apply filter_node; assumption|]. cbn [app].
  apply g_left. eapply (g_join _ _ (s ++ t) [] _ [_] []); [|apply no_from, S1|rewrite app_nil_r; reflexivity|reflexivity]. eapply g_node; [exact N| |apply (filter_group u e ps qs); assumption]. cbn [rule].
  eapply (g_join _ _ s t _ [u] ps); [exact G|exact GP|reflexivity|reflexivity].
Qed.
Lemma g_slashes sep more z : separator sep more -> clear (is 47) z -> exists u, gets (Alt (Rule SlashSlash_id) (Rule Slash_id)) sep z [u] /\ slash_tree u more.
Proof.
  intros [] C; eexists.
  - split; [apply g_right; [eapply f_word; [reflexivity|apply strip2, C]|apply g_sign; reflexivity]|]. left. split; reflexivity.
  - split; [apply g_left, g_word; [reflexivity|discriminate]|]. right. eexists. split; reflexivity.
Qed.
Lemma from_primary_parsed s e t qs sep more w u steps : primary_parsed s e -> predicates_parsed t qs -> (qs = [] -> flat e <> EPath true []) -> separator sep more -> blank w ->
  (w = [] \/ ~ begins (eq 46) u) -> relative_parsed u steps -> path_parsed (s ++ t ++ sep ++ w ++ u) (EPath false (FilterStep e qs :: more ++ steps)).
Proof.
  intros [F P] [D R] NR SP W DW RP. destruct (sep_slash _ _ SP) as [sr ES]. split; [apply first_app, F|]. intros rest S1 M.
  destruct (relative_rule u steps w rest RP W DW S1) as [a [v [p [E [NE [V [GR PT]]]]]]]; [rewrite !app_assoc in M; eapply meets_suffix, M|].
  assert (clear (is 47) ((w ++ a) ++ v ++ rest)) as C by (replace ((w ++ a) ++ v ++ rest) with (w ++ u ++ rest) by (rewrite E; texts); eapply relative_slash; eassumption).
  destruct (g_slashes sep more _ SP C) as [k [GK SK]].
  destruct (P (t ++ sep ++ (w ++ a) ++ v ++ rest)) as [t0 [G GT]]; [destruct D as [[-> _]|[[r ->] _]]; [rewrite ES|]; repeat split|].
  destruct (R (sep ++ (w ++ a) ++ v ++ rest)) as [ps [GP PP]]; [rewrite ES; reflexivity..|].
  assert (s ++ t <> []) as N by (destruct F as [c [r' [-> _]]]; discriminate).
  assert (gets (rule FilterExpr_id) (s ++ t) (sep ++ (w ++ a) ++ v ++ rest) (t0 :: ps)) as GF by (cbn [rule]; eapply (g_join _ _ s t _ [t0] ps); [exact G|exact GP|reflexivity|reflexivity]).
  assert (exists f, gets (Rule FilterExpr_id) (s ++ t) (sep ++ (w ++ a) ++ v ++ rest) [f] /\ good x (Tree (Some PathExpr_id) [] [f; k; p]) (EPath false (FilterStep e qs :: more ++ steps)) /\ exists i, id_of f = Some i) as [f [GF1 [GF2 [j EJ]]]].
  { destruct qs as [|q qs].
    - exists t0. split; [|split; [apply path_node; [exact GT|apply NR; reflexivity|exact SK|exact PT]|destruct (good_id x _ _ GT) as [i [EI _]]; exists i; exact EI]]. eapply g_node; [exact N|exact GF|]. assert (ps = []) as -> by (apply PP; reflexivity). apply (good_group x _ _ _ GT).
    - exists (Tree (Some FilterExpr_id) [] (t0 :: ps)). split; [|split; [apply filter_path_node; [exact GT|exact PP|discriminate|exact SK|exact PT]|eexists; reflexivity]]. eapply g_node; [exact N|exact GF|]. eapply filter_group; [exact GT|exact PP|discriminate]. }
  exists (s ++ t ++ sep ++ w ++ a), v, (Tree (Some PathExpr_id) [] [f; k; p]), [f; k; p].
  split; [rewrite E; texts|]. split; [rewrite app_assoc; destruct (s ++ t); [elim N; reflexivity|discriminate]|]. split; [exact V|]. split; [exact GF2|].
  split.
  - unfold group. rewrite tree_ids; [reflexivity|]. destruct (path_tree_id _ _ PT) as [i EI]. intros y [<-|[<-|[<-|[]]]]; [|destruct SK as [[SK _]|[y [-> _]]]; eexists; [exact SK|reflexivity]|exists i; exact EI].
    exists j. exact EJ.
  - apply g_left. eapply (g_join _ _ (s ++ t) (sep ++ w ++ a) _ [f] [k; p]); [|apply g_some|texts|reflexivity].
    + eapply g_eq; [|reflexivity|reflexivity]. replace ((sep ++ w ++ a) ++ v ++ rest) with (sep ++ (w ++ a) ++ v ++ rest) by texts. exact GF1.
    + eapply (g_join _ _ sep (w ++ a) _ [k] [p]); [exact GK|exact GR|reflexivity|reflexivity].
Qed.

(** * Everything that is written is parsed *)
Definition read_at (l : level) (s : str) (e : expr) : Prop :=
  match l with UnaryLevel | PathLevel => parsed_at l s e | _ => pieces l s e end.
Lemma read_parsed l s e : read_at l s e -> parsed_at l s e.
Proof. destruct l; cbn [read_at]; intro H; first [exact H|apply pieces_parsed; [split; discriminate|exact H]]. Qed.
Lemma tighter_read l m s e : tighter l m -> read_at m s e -> read_at l s e.
Proof.
  intros T H. apply read_parsed in H. destruct T as [l m op f T|]; [|apply unary_parsed, H].
  destruct (infix_next _ _ _ _ T) as [E [I _]]. rewrite E in H. destruct T; apply piece; exact H.
Qed.
Lemma infix_read l m op f s a t b : infix l m op f -> read_at l s a -> read_at m t b -> apart s op t -> read_at l (s ++ op ++ t) (f a b).
Proof.
  intros T A B P. apply read_parsed in B. destruct (infix_next _ _ _ _ T) as [E _]. rewrite E in B, T.
  destruct l; cbn [read_at] in *; first [apply (more_pieces _ op f s a t b); assumption|inversion T].
Qed.
Local Notation uri := (l_uri x).
Local Notation number := (l_double x).
Scheme written_ind' := Minimality for written Sort Prop
  with path_ind' := Minimality for path_written Sort Prop
  with relative_ind' := Minimality for relative_written Sort Prop
  with step_ind' := Minimality for step_written Sort Prop
  with predicates_ind' := Minimality for predicates_written Sort Prop
  with primary_ind' := Minimality for primary_written Sort Prop
  with arguments_ind' := Minimality for arguments_written Sort Prop.
Lemma written_read l s e : written uri number l s e -> read_at l s e.
Proof.
  apply (written_ind' uri number read_at path_parsed relative_parsed step_parsed predicates_parsed primary_parsed arguments_parsed).
  - intros l' m s' e' T _ H. eapply tighter_read; eassumption.
  - intros l' m op f s' a t b T _ A _ B P. eapply infix_read; eassumption.
  - intros w k s' e' W _ H. apply minus_parsed; [exact W|apply read_parsed, H].
  - intros w s' e' W _ H. apply path_level; assumption.
  - intros w W. apply single_path, root_parsed, W.
  - intros sep more w s' steps SP W DW _ R. apply single_path, absolute_parsed; assumption.
  - intros s' steps _ R. apply single_path, relative_alone_parsed, R.
  - intros s' e' _ P. apply single_path, primary_alone_parsed, P.
  - intros s' e' t qs _ P _ Q N. apply single_path, filtered_parsed; assumption.
  - intros s' e' t qs sep more w u steps _ P _ Q N SP W DW _ R. apply from_primary_parsed; assumption.
  - intros s' st w H P D. apply last_parsed; assumption.
  - intros s' st sep more w t steps H P SP W DW _ R. apply more_parsed; assumption.
  - apply self_parsed.
  - apply parent_parsed.
  - intros s' a t n w u qs A T W _ Q. apply axis_step_parsed; assumption.
  - apply no_predicate_parsed.
  - intros s' e' w t qs _ P W _ Q. apply predicate_parsed; [apply read_parsed, P|exact W|exact Q].
  - apply variable_parsed.
  - apply prefixed_variable_parsed.
  - apply number_parsed.
  - apply literal_parsed.
  - intros v s' e' w V N _ P W. apply bracket_parsed; [exact V|exact N|apply read_parsed, P|exact W].
  - apply call_without_parsed.
  - intros g v s' args w A V _ P W. apply call_with_parsed; assumption.
  - intros s' e' _ P. apply one_argument_parsed, read_parsed, P.
  - intros s' e' w t es _ P W N _ R L. apply more_arguments_parsed; [apply read_parsed, P|assumption..].
Qed.
Lemma compiles s e : expression_written uri number s e -> exists e', flat e' = flat e /\ ev (fun n => compile_expr n x s = Got e').
Proof.
  intro H. apply written_read, read_parsed in H. destruct H as [w [s' [-> [W [F P]]]]].
  destruct (P []) as [t [GD [G1 _]]]; [constructor|apply meets_other; exact Logic.I|]. pose proof GD as [e' [E [G _]]]. exists e'. split; [exact E|].
  assert (gets (Rule Expr_id) (w ++ s') [] [t]) as GE.
  { eapply g_expr_rule; [left; reflexivity|destruct F as [c [r [-> _]]]; destruct w; discriminate|exact GD|exact G1]. }
  assert (w ++ s' <> []) as N by (destruct F as [c [r [-> _]]]; destruct w; discriminate).
  eapply ev_map2; [|apply (gets_parse _ _ _ _ N GE)|apply (G [])].
  - intros n A B. cbn beta in *. rewrite app_nil_r in A. unfold compile_expr, compile_text. rewrite A. exact B.
  - reflexivity.
Qed.
End with_lexicon.
