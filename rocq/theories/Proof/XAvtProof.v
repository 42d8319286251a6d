(** Attribute value templates: what they are parsed to, and what their value is. *)
From Coq Require Import String.
From Verif.Model Require Import Base XNode XAxis XNodeSet XCompare XStep XSort XEval XParse.
From Verif.Spec Require Import XOrder XAxisSpec XNodeSetSpec XEvalSpec XParseSpec XStepSpec XAvtSpec.
From Verif.Proof Require Import XNodeSetProof XEvalProof XParsePeg XParseToken XParseTree XParseStep XParseMeans XParseProof.
From Verif.Spec Require Import XAvtSpec.
From Coq Require Import Lia Bool List. Import ListNotations. Open Scope Z_scope.

Definition piece_expr (q : piece) : expr := match q with Words s => ELiteral s | Value e => e end.
Definition unbraced (c : Z) : bool := negb ((c =? 123) || (c =? 125)).
Definition pieces_p : parser := Alt (Alt (Alt (Rule DoubleLeftCurly_id) (Rule DoubleRightCurly_id)) (Rule EmbeddedExpr_id)) (Rule AttrLiteral_id).
Definition ends (z : str) : Prop := z = [] \/ exists b, z = 125 :: b /\ clear (is 125) b.
Lemma f_pieces z : ends z -> fails pieces_p z.
Proof.
  intros [->|[b [-> B]]]; unfold pieces_p; repeat apply F_alt.
  - eapply f_word; [reflexivity|reflexivity].
  - eapply f_word; [reflexivity|reflexivity].
  - apply F_rule. cbn [rule]. apply F_first. apply F_first. apply (f_sign _ 123); [reflexivity|exact Logic.I].
  - apply F_rule. cbn [rule]. apply F_token. apply F_first. apply f_class. exact Logic.I.
  - eapply f_word; [reflexivity|reflexivity].
  - eapply f_word; [reflexivity|]. apply strip2. exact B.
  - apply F_rule. cbn [rule]. apply F_first. apply F_first. apply (f_sign _ 123); [reflexivity|]. apply clear_is. reflexivity.
  - apply F_rule. cbn [rule]. apply F_token. apply F_first. apply f_class. reflexivity.
Qed.
Lemma unbraced_of c : ~ brace c -> unbraced c = true.
Proof.
  intro N. unfold unbraced, brace in *. destruct (c =? 123) eqn:A; [apply Z.eqb_eq in A; tauto|]. destruct (c =? 125) eqn:B; [apply Z.eqb_eq in B; tauto|]. reflexivity.
Qed.
Lemma g_run s z : Forall (fun c => ~ brace c) s -> clear unbraced z -> gets (Star (Class unbraced)) s z (map leaf s).
Proof.
  intros F C. induction F as [|c s N F IH]; [apply g_stop, f_class, C|]. apply (g_star _ [c] s z [leaf c]); [|exact IH]. apply g_class, unbraced_of, N.
Qed.
Lemma g_words s z : s <> [] -> Forall (fun c => ~ brace c) s -> clear unbraced z -> gets (Rule AttrLiteral_id) s z [Tree (Some AttrLiteral_id) s []].
Proof.
  intros NE F C. apply (g_node _ _ _ [Tree None s []]); [exact NE| |reflexivity]. cbn [rule]. destruct s as [|c s]; [elim NE; reflexivity|]. inversion F as [|? ? N F']; subst.
  eapply g_token; [discriminate|]. apply (g_seq _ _ [c] s z [leaf c] (map leaf s)); [apply g_class, unbraced_of, N|apply g_run; assumption].
Qed.
Lemma f_words_first s z : s <> [] -> Forall (fun c => ~ brace c) s -> fails (Alt (Alt (Rule DoubleLeftCurly_id) (Rule DoubleRightCurly_id)) (Rule EmbeddedExpr_id)) (s ++ z).
Proof.
  intros NE F. destruct s as [|c s]; [elim NE; reflexivity|]. inversion F as [|? ? N F']; subst. unfold brace in N.
  assert (clear (is 123) (c :: s ++ z)) as A by (apply clear_is, Z.eqb_neq; tauto). assert (clear (is 125) (c :: s ++ z)) as B by (apply clear_is, Z.eqb_neq; tauto).
  cbn [app]. repeat apply F_alt.
  - eapply f_word; [reflexivity|]. apply (strip_none_clear _ _ _ eq_refl A).
  - eapply f_word; [reflexivity|]. apply (strip_none_clear _ _ _ eq_refl B).
  - apply F_rule. cbn [rule]. apply F_first. apply F_first. apply (f_sign _ 123); [reflexivity|exact A].
Qed.
Lemma opens_left s z : opens s -> clear (is 123) (s ++ z).
Proof.
  intros [w [s' [-> [W F]]]]. rewrite <- app_assoc. apply clear_blank; [repeat split|exact W|]. intros _.
  eapply first_clear; [|exact F]. intros c L. apply lead_any in L. apply orb_true_iff in L. destruct L as [L|L].
  - revert L. apply tight_cases; [intros d D; apply start_is2; [exact D|reflexivity]|intros d D; apply digit_is; [exact D|reflexivity]|reflexivity].
  - apply Z.eqb_eq in L. subst c. reflexivity.
Qed.

Section with_lexicon.
Context (x : lexicon).
Definition part_tree (t : tree) (q : piece) : Prop :=
  (exists i, id_of t = Some i /\ i <> AttributeValueTemplate_id) /\ exists e', flat e' = flat (piece_expr q) /\ ev (fun n => template_part n x t = Got e').
Lemma g_embedded s e z : expression_written (l_uri x) (l_double x) s e -> exists t, gets pieces_p (123 :: s ++ [125]) z [t] /\ part_tree t (Value e).
Proof.
  intro H. apply written_read, read_parsed in H. pose proof (parsed_opens _ _ _ H) as O. pose proof (parsed_not_nil _ _ _ _ H) as NE.
  destruct (close_parsed x s e 125 z) as [t [GD G]]; [cbn; tauto|exact H|].
  pose (u := Tree (Some EmbeddedExpr_id) [] [Tree (Some LeftCurly_id) [123] []; t; Tree (Some RightCurly_id) [125] []]).
  exists u. split.
  - unfold pieces_p. apply g_left. apply g_right.
    + apply F_alt; (eapply f_word; [reflexivity|]).
      * cbn [app]. rewrite <- app_assoc. apply strip2, opens_left, O.
      * reflexivity.
    + eapply (g_node _ _ _ [Tree (Some LeftCurly_id) [123] []; t; Tree (Some RightCurly_id) [125] []]); [discriminate| |].
      * cbn [rule]. apply (g_join _ _ (123 :: s) [125] z [Tree (Some LeftCurly_id) [123] []; t] [Tree (Some RightCurly_id) [125] []]); [|apply g_sign; reflexivity|reflexivity|reflexivity].
        apply (g_join _ _ [123] s _ [Tree (Some LeftCurly_id) [123] []] [t]); [apply g_sign; reflexivity| |reflexivity|reflexivity].
        eapply g_expr_rule; [left; reflexivity|exact NE|exact GD|exact G].
      * cbn [group map claim]. rewrite (good_claim x EmbeddedExpr_id t e GD). reflexivity.
  - split; [exists EmbeddedExpr_id; split; [reflexivity|discriminate]|]. destruct GD as [e' [E [C _]]]. exists e'. split; [exact E|].
    apply (C [Tree (Some RightCurly_id) [125] []]). reflexivity.
Qed.
Lemma template_first s l z : template_written (l_uri x) (l_double x) s l -> ends z ->
  (s = [] /\ l = []) \/ exists a b t q m, s = a ++ b /\ a <> [] /\ l = q :: m /\ gets pieces_p a (b ++ z) [t] /\ part_tree t q /\ template_written (l_uri x) (l_double x) b m.
Proof.
  intros T E. destruct T as [|r l H|r l H|s e r l X H|s r l NE F B H]; [left; split; reflexivity|right..].
  - exists [123; 123], r, (Tree (Some DoubleLeftCurly_id) [123; 123] []), (Words [123]), l. split; [reflexivity|]. split; [discriminate|]. split; [reflexivity|]. split; [|split; [|exact H]].
    + unfold pieces_p. apply g_left, g_left, g_left. apply g_word; [reflexivity|discriminate].
    + split; [exists DoubleLeftCurly_id; split; [reflexivity|discriminate]|]. exists (ELiteral [123]). split; [reflexivity|]. apply ev_all. reflexivity.
  - exists [125; 125], r, (Tree (Some DoubleRightCurly_id) [125; 125] []), (Words [125]), l. split; [reflexivity|]. split; [discriminate|]. split; [reflexivity|]. split; [|split; [|exact H]].
    + unfold pieces_p. apply g_left, g_left, g_right; [eapply f_word; [reflexivity|reflexivity]|]. apply g_word; [reflexivity|discriminate].
    + split; [exists DoubleRightCurly_id; split; [reflexivity|discriminate]|]. exists (ELiteral [125]). split; [reflexivity|]. apply ev_all. reflexivity.
  - destruct (g_embedded s e (r ++ z) X) as [t [G P]]. exists (123 :: s ++ [125]), r, t, (Value e), l. split; [cbn [app]; rewrite <- app_assoc; reflexivity|].
    split; [discriminate|]. split; [reflexivity|]. split; [exact G|]. split; [exact P|exact H].
  - exists s, r, (Tree (Some AttrLiteral_id) s []), (Words s), l. split; [reflexivity|]. split; [exact NE|]. split; [reflexivity|]. split; [|split; [|exact H]].
    + unfold pieces_p. apply g_right; [apply f_words_first; assumption|]. apply g_words; [exact NE|exact F|].
      destruct B as [->|[c [r' [-> [->| ->]]]]]; [|reflexivity|reflexivity]. destruct E as [->|[b [-> _]]]; [exact Logic.I|reflexivity].
    + split; [exists AttrLiteral_id; split; [reflexivity|discriminate]|]. exists (ELiteral s). split; [reflexivity|]. apply ev_all. reflexivity.
Qed.
Lemma template_more l : forall s z, template_written (l_uri x) (l_double x) s l -> ends z -> exists ts, gets (Star pieces_p) s z ts /\ Forall2 part_tree ts l.
Proof.
  induction l as [|q l IH]; intros s z T E.
  - destruct (template_first _ _ _ T E) as [[-> _]|[a [b [t [q [m [_ [_ [D _]]]]]]]]]; [|discriminate D]. exists []. split; [apply g_stop, f_pieces, E|constructor].
  - destruct (template_first _ _ _ T E) as [[_ D]|[a [b [t [q' [m [-> [_ [D [G [P H]]]]]]]]]]]; [discriminate D|]. injection D as <- <-.
    destruct (IH b z H E) as [ts [GS F]]. exists (t :: ts). split; [|constructor; assumption]. apply (g_star _ a b z [t] ts); assumption.
Qed.
Definition whole (l : list piece) : expr := match l with [q] => piece_expr q | _ => ECall Concat (map piece_expr l) end.
Lemma parts_compile ts l : Forall2 part_tree ts l -> exists es, map flat es = map (fun q => flat (piece_expr q)) l /\ ev (fun n => template_parts n x ts = Got es).
Proof.
  induction 1 as [|t q ts l [_ [e [E C]]] _ [es [ES CS]]]; [exists []; split; [reflexivity|apply ev_all; reflexivity]|].
  exists (e :: es). split; [cbn; rewrite E, ES; reflexivity|]. refine (ev_map2 _ _ _ _ C CS). intros n A B. cbn [template_parts]. rewrite A. cbn [andthen]. rewrite B. reflexivity.
Qed.
Lemma claims ts l : Forall2 part_tree ts l -> map (claim AttributeValueTemplate_id) ts = ts.
Proof.
  induction 1 as [|t q ts l [[i [I _]] _] _ IH]; [reflexivity|]. cbn [map]. rewrite IH. rewrite (claim_id _ t i I). reflexivity.
Qed.
Lemma template_compiles s l : template_written (l_uri x) (l_double x) s l -> l <> [] ->
  exists e', flat e' = flat (whole l) /\ ev (fun n => compile_template n x s = Got e').
Proof.
  intros T NE. destruct (template_first _ _ [] T (or_introl eq_refl)) as [[_ D]|[a [b [t [q [m [-> [NA [-> [G [P H]]]]]]]]]]]; [elim (NE D)|].
  destruct (template_more m b [] H (or_introl eq_refl)) as [ts [GS F]].
  assert (gets (rule AttributeValueTemplate_id) (a ++ b) [] (t :: ts)) as GT by (cbn [rule]; apply (g_seq pieces_p (Star pieces_p) a b [] [t] ts); assumption).
  assert (a ++ b <> []) as NB by (destruct a; [elim NA; reflexivity|discriminate]).
  assert (Forall2 part_tree (t :: ts) (q :: m)) as FA by (constructor; assumption).
  pose proof (claims _ _ FA) as CL. pose proof (g_rule _ _ _ _ NB GT) as GR. destruct ts as [|t2 ts].
  - inversion F; subst m. cbn [group] in GR. injection CL as CL. rewrite CL in GR. destruct P as [[i [I N]] [e' [E C]]]. exists e'. split; [exact E|].
    eapply ev_map2; [|exact (gets_parse _ _ _ _ NB GR)|exact C]. intros n A B. cbn beta in *. rewrite app_nil_r in A. unfold compile_template. rewrite A. rewrite I.
    destruct i; try exact B. elim N. reflexivity.
  - inversion F as [|? q2 ? m' P2 F2]; subst. destruct (parts_compile _ _ FA) as [es [ES CS]]. exists (ECall Concat es). split.
    + cbn [whole flat]. rewrite map_map, ES. reflexivity.
    + unfold group in GR. rewrite CL in GR. eapply ev_map2; [|exact (gets_parse _ _ _ _ NB GR)|exact CS]. intros n A B. cbn beta in *. rewrite app_nil_r in A. unfold compile_template. rewrite A.
      cbn [id_of kids_of]. rewrite B. cbn [andthen]. assert (length es = S (S (length m'))) as L by (apply (f_equal (@length expr)) in ES; rewrite !map_length in ES; exact ES).
      unfold create_function. change (look_function (ascii_str "concat") function_table) with (Some Concat). rewrite L. reflexivity.
Qed.
(** A brace that is not written twice. *)
Lemma template_stuck s l b : template_written (l_uri x) (l_double x) s l -> clear (is 125) b -> ev (fun n => compile_template n x (s ++ 125 :: b) = Raises).
Proof.
  intros T B. assert (ends (125 :: b)) as E by (right; exists b; split; [reflexivity|exact B]).
  destruct (template_first _ _ _ T E) as [[-> _]|[a [r [t [q [m [-> [NA [-> [G [P H]]]]]]]]]]].
  - assert (fails (Rule AttributeValueTemplate_id) (125 :: b)) as FA by (apply F_rule; cbn [rule]; apply F_first; apply f_pieces; exact E).
    eapply ev_map; [|exact (proj2 takes_fails_parse _ _ FA)]. intros n A. cbn beta in *. unfold compile_template. cbn [app]. rewrite A. reflexivity.
  - destruct (template_more m r _ H E) as [ts [GS F]].
    assert (gets (rule AttributeValueTemplate_id) (a ++ r) (125 :: b) (t :: ts)) as GT by (cbn [rule]; apply (g_seq pieces_p (Star pieces_p) a r (125 :: b) [t] ts); assumption).
    assert (a ++ r <> []) as NB by (destruct a; [elim NA; reflexivity|discriminate]).
    eapply ev_map; [|exact (gets_parse _ _ _ _ NB (g_rule _ _ _ _ NB GT))]. intros n A. cbn beta in *. unfold compile_template. rewrite A. reflexivity.
Qed.
End with_lexicon.

(** * Values *)
Definition text_call (l : list piece) : expr := match l with [q] => ECall String_ [piece_expr q] | _ => ECall Concat (map piece_expr l) end.
Lemma text_of_whole l e' : l <> [] -> flat e' = flat (whole l) -> exists e2, flat e2 = flat (text_call l) /\
  forall k x position last t, evaluate_text k e' x position last = Got t -> evaluate k e2 x position last = Got (VStr t).
Proof.
  intros NE E. destruct l as [|q [|q2 l]]; [elim NE; reflexivity| |].
  - exists (ECall String_ [e']). split; [cbn [text_call flat map]; cbn [whole] in E; rewrite E; reflexivity|].
    intros k x p n t V. unfold evaluate_text, evaluate in *. cbn [XEval.compiles map]. change (arity_ok String_ (length [e'])) with true. cbn [forallb andb].
    destruct (XEval.compiles e'); [|discriminate V]. cbn [eval call map text_arg]. rewrite V. reflexivity.
  - exists e'. split; [exact E|]. intros k x p n t V. unfold evaluate_text, evaluate in *. destruct (XEval.compiles e') eqn:CO; [|discriminate V].
    destruct e' as [| | | | | | | | |g args|]; try discriminate E.
    injection E as -> _. cbn [eval call] in *. destruct (text_args k (map (eval k) args) x p n) as [ts| | |]; cbn [andthen] in *; try discriminate V. injection V as <-. reflexivity.
Qed.
Lemma call_gives k x position last l w t : l <> [] -> means (conversions_of k) (e_forest k) (variables_of k) (text_call l) x position last w -> same_value (VStr t) w ->
  template_gives (conversions_of k) (e_forest k) (variables_of k) l x position last t.
Proof.
  intros NE M S1. assert (w = VStr t) as -> by (destruct w; cbn in S1; congruence). clear S1.
  set (c := conversions_of k) in *. set (f := e_forest k) in *. set (vars := variables_of k) in *.
  assert (forall l vs ts, Forall2 (fun (m : meaning) w => m x position last w) (map (means c f vars) (map piece_expr l)) vs -> Forall2 (as_text c f) vs ts ->
    Forall2 (piece_gives c f vars x position last) l ts) as MANY.
  { clear. induction l as [|q l IH]; intros vs ts A B; inversion A; subst; inversion B; subst; [constructor|]. constructor; [|eapply IH; eassumption].
    destruct q as [s|e]; cbn [piece_expr piece_gives] in *; [|eexists; split; eassumption]. cbn in H1. subst. assumption. }
  destruct l as [|q [|q2 l]]; [elim NE; reflexivity| |].
  - cbn [text_call means] in M. destruct M as [[vs [A [t' [B D]]]]|[D _]]; [|discriminate D]. injection D as <-.
    inversion A as [|? v ? ? M1 A']; subst. inversion A'; subst. exists [t]. split; [|cbn; rewrite app_nil_r; reflexivity].
    apply (MANY [q] [v] [t]); [exact A|]. constructor; [exact B|constructor].
  - cbn [text_call means] in M. destruct M as [[vs [A B]]|[D _]]; [|discriminate D]. inversion A as [|? v ? ? M1 A']; subst. inversion A' as [|? v2 ? ? M2 A2]; subst.
    destruct B as [ts [B D]]. injection D as ->. exists ts. split; [|reflexivity]. eapply MANY; [exact A|exact B].
Qed.
Lemma template_value k d (from : bool) l e' x position last t : sorts (e_sort k) -> documents (e_forest k) -> f_doc (e_forest k) d = d -> proper (f_tree (e_forest k) d) ->
  (forall uri name v, e_vars k uri name = Got v -> usable (e_sort k) (e_forest k) d v) ->
  fst x = d -> In (snd x) (nodes (f_tree (e_forest k) d)) -> (from = false -> ~ is_attribute (snd x)) ->
  (forall e, In (Value e) l -> allowed (f_tree (e_forest k) d) from e) -> l <> [] -> flat e' = flat (whole l) -> evaluate_text k e' x position last = Got t ->
  template_gives (conversions_of k) (e_forest k) (variables_of k) l x position last t.
Proof.
  intros SO DOC OWN PR VARS D IN NA AL NE FE EV. destruct (text_of_whole l e' NE FE) as [e2 [F2 T2]].
  assert (forall q, In q l -> allowed (f_tree (e_forest k) d) from (piece_expr q)) as AQ by (intros [s|e] I; [exact Logic.I|apply AL, I]).
  assert (allowed (f_tree (e_forest k) d) from (text_call l)) as AT.
  { assert (forall m, (forall q, In q m -> In q l) -> fold_right and True (map (allowed (f_tree (e_forest k) d) from) (map piece_expr m))) as A.
    { induction m as [|q m IH]; intro I; [exact Logic.I|]. cbn [map fold_right]. split; [apply AQ, I; left; reflexivity|apply IH; intros; apply I; right; assumption]. }
    destruct l as [|q [|q2 m]]; [elim NE; reflexivity| |]; [exact (A [q] (fun _ i => i))|exact (A (q :: q2 :: m) (fun _ i => i))]. }
  destruct (evaluate_flat k d from (text_call l) e2 x position last (VStr t) SO DOC OWN PR VARS D IN NA AT F2 (T2 _ _ _ _ _ EV)) as [_ [w [M S1]]].
  exact (call_gives k x position last l w t NE M S1).
Qed.
