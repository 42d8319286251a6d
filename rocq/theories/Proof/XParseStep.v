(** Axes, node tests and the names of functions, as the grammar reads them. *)
From Coq Require Import String.
From Verif.Model Require Import Base XNode XAxis XCompare XStep XSort XEval XParse.
From Verif.Spec Require Import XParseSpec.
From Verif.Proof Require Import XParsePeg XParseToken XParseTree.
From Coq Require Import Lia Bool List. Import ListNotations. Open Scope Z_scope.

Ltac texts := repeat first [progress cbn [app]|rewrite <- app_assoc]; reflexivity.
Lemma g_join p q a b r ta tb s ts : gets p a (b ++ r) ta -> gets q b r tb -> s = a ++ b -> ts = ta ++ tb -> gets (Seq p q) s r ts.
Proof. intros A B -> ->. apply g_seq; assumption. Qed.
Lemma g_node i a r ts us : a <> [] -> gets (rule i) a r ts -> group i ts = us -> gets (Rule i) a r us.
Proof. intros N G <-. apply g_rule; assumption. Qed.
Lemma group_same i ts us : map (claim i) ts = map (claim i) us -> group i ts = group i us.
Proof.
  intro E. assert (forall l, group i l = match map (claim i) l with [t] => [t] | l => [Tree (Some i) [] l] end) as G by (intros [|a [|b l]]; reflexivity).
  rewrite !G, E. reflexivity.
Qed.
Lemma wordy_fails p s : wordy p -> clear name_p s -> fails p s.
Proof.
  intros W C. destruct (W s) as [F|[w [i [z [-> [N [K _]]]]]]]; [exact F|]. destruct w as [|c w]; [elim N; reflexivity|]. cbn in C, K. rewrite C in K. discriminate K.
Qed.
Lemma white_ids w t : In t (white w) -> id_of t = Some S_id.
Proof. destruct (white_shape w) as [->|[u [-> E]]]; [intros []|]. intros [<-|[]]. exact E. Qed.
Lemma white_group i w : w <> [] -> group i (white w) = white w.
Proof. destruct (white_shape w) as [E|[u [-> E]]]; [destruct w as [|c w]; [intro N; elim N; reflexivity|]|intros _; cbn; rewrite (claim_id i u _ E); reflexivity]. destruct w; discriminate E. Qed.

(** * Axes *)
Lemma f_axis_sign z : clear space_p z -> clear name_p z -> fails (Seq (Seq (Rule AxisName_id) (Rule S_id)) (Txt [58; 58])) z.
Proof. intros _ C. apply F_first, F_first, wordy_fails; [exact wordy_axis|exact C]. Qed.
Lemma g_axis_default w z : blank w -> clear space_p z -> clear (is 64) z -> fails (Seq (Seq (Rule AxisName_id) (Rule S_id)) (Txt [58; 58])) z ->
  gets (Rule AxisSpecifier_id) w z (white w).
Proof.
  intros B C A F. assert (gets (rule AxisSpecifier_id) w z (white w)) as G.
  { cbn [rule]. eapply (g_join _ _ w [] z (white w) []); [|apply (g_white [] z); [constructor|exact C]|rewrite app_nil_r; reflexivity|rewrite app_nil_r; reflexivity].
    eapply (g_join _ _ w [] z (white w) []); [apply g_white; [exact B|exact C]| |rewrite app_nil_r; reflexivity|rewrite app_nil_r; reflexivity].
    apply g_right; [exact F|]. eapply g_rule_nil. cbn [rule]. apply g_none, f_chr, A. }
  destruct w as [|c w]; [eapply g_rule_nil; exact G|]. eapply g_node; [discriminate|exact G|]. apply white_group. discriminate.
Qed.
Lemma axis_node w0 t v : (exists i, id_of t = Some i /\ i <> S_id) -> (id_of t = Some AbbreviatedAxisSpecifier_id \/ v <> []) ->
  (forall u, In u v -> exists i, id_of u = Some i) ->
  exists ax, group AxisSpecifier_id (white w0 ++ t :: v) = ax /\ axis_trees ax (own_axis (id_of t)).
Proof.
  intros [i [E N]] D A. eexists. split; [reflexivity|]. right.
  assert (forall u, In u (white w0 ++ t :: v) -> exists i, id_of u = Some i) as AA.
  { intros u I. apply in_app_or in I. destruct I as [I|[<-|I]]; [eexists; apply (white_ids _ _ I)|exists i; exact E|exact (A u I)]. }
  assert (skip_white (white w0 ++ t :: v) = t :: v) as SW by (rewrite skip_whites; apply (skip_not_space _ _ i); assumption).
  unfold group. rewrite (map_claim _ _ AA). destruct (white_shape w0) as [W|[s [W ES]]]; rewrite W in *; cbn [app] in *.
  - destruct v as [|u v].
    + exists t. rewrite (claim_id _ _ i E). split; [reflexivity|]. right. left. destruct D as [D|D]; [|elim D; reflexivity]. split; [exact D|]. rewrite D. reflexivity.
    + eexists. split; [reflexivity|]. right. right. split; [reflexivity|]. exists t, (u :: v). split; [exact SW|reflexivity].
  - eexists. split; [reflexivity|]. right. right. split; [reflexivity|]. exists t, v. split; [exact SW|reflexivity].
Qed.
Lemma g_axis s a w z : axis_written s a -> blank w -> clear space_p z -> (s = [] -> clear (is 64) z /\ fails (Seq (Seq (Rule AxisName_id) (Rule S_id)) (Txt [58; 58])) z) ->
  exists ax, gets (Rule AxisSpecifier_id) (w ++ s) z ax /\ axis_trees ax a.
Proof.
  intros H B C D. destruct H as [|v V|a u v U V].
  - destruct (D eq_refl) as [D1 D2]. exists (white w). rewrite app_nil_r. split; [apply g_axis_default; assumption|].
    destruct (white_shape w) as [->|[t [-> E]]]; [left; split; reflexivity|]. right. exists t. split; [reflexivity|]. left. split; [exact E|reflexivity].
  - pose (t := Tree (Some AbbreviatedAxisSpecifier_id) [64] []).
    destruct (axis_node w t (white v)) as [ax [E A]]; [exists AbbreviatedAxisSpecifier_id; split; [reflexivity|discriminate]|left; reflexivity|intros x I; eexists; apply (white_ids _ _ I)|].
    exists ax. split; [|exact A]. eapply g_node; [| |exact E]; [destruct w; discriminate|]. cbn [rule].
    eapply (g_join _ _ (w ++ [64]) v z (white w ++ [t]) (white v)); [|apply g_white; assumption|rewrite <- app_assoc; reflexivity|rewrite <- app_assoc; reflexivity].
    apply g_seq; [apply g_white; [exact B|reflexivity]|]. apply g_right.
    + apply f_axis_sign; reflexivity.
    + eapply g_node; [discriminate|cbn [rule]; apply g_some, g_chr|reflexivity].
  - pose (t := Tree (Some (axis_id a)) (axis_name a) []). pose (c := Tree None [58; 58] []).
    assert (own_axis (id_of t) = a) as OA by (destruct a; reflexivity).
    assert (exists ax, group AxisSpecifier_id (white w ++ t :: white u ++ [claim AxisSpecifier_id c] ++ white v) = ax /\ axis_trees ax a) as [ax [E A]].
    { rewrite <- OA. apply axis_node; [exists (axis_id a); split; [reflexivity|destruct a; discriminate]|right; destruct (white u); discriminate|].
      intros y I. apply in_app_or in I. destruct I as [I|I]; [eexists; apply (white_ids _ _ I)|]. destruct I as [<-|I]; [eexists; reflexivity|eexists; apply (white_ids _ _ I)]. }
    exists ax. split; [|exact A].
    assert (gets (rule AxisSpecifier_id) (w ++ axis_name a ++ u ++ [58; 58] ++ v) z (white w ++ t :: white u ++ [c] ++ white v)) as G.
    { cbn [rule]. eapply (g_join _ _ (w ++ axis_name a ++ u ++ [58; 58]) v z (white w ++ [t] ++ white u ++ [c]) (white v)); [|apply g_white; assumption|rewrite <- !app_assoc; reflexivity|rewrite <- !app_assoc; reflexivity].
      apply g_seq; [apply g_white; [exact B|]|].
      - rewrite <- !app_assoc. pose proof (axis_name_chars a) as K. destruct (axis_name a) as [|d n] eqn:EN; [elim (axis_name_not_nil a); exact EN|]. cbn in *. apply andb_true_iff in K. apply name_not_space, K.
      - apply g_left. eapply (g_join _ _ (axis_name a ++ u) [58; 58] _ ([t] ++ white u) [c]); [|apply g_txt; discriminate|rewrite <- app_assoc; reflexivity|rewrite <- app_assoc; reflexivity].
        apply g_seq; [apply g_axis_name, clear_blank; [repeat split|exact U|reflexivity]|apply g_white; [exact U|reflexivity]]. }
    eapply g_node; [|exact G|].
    + destruct w; [|discriminate]. pose proof (axis_name_not_nil a). destruct (axis_name a); [congruence|discriminate].
    + rewrite <- E. apply group_same. rewrite !map_app. cbn [map]. rewrite !map_app. reflexivity.
Qed.

(** * Node tests *)
Lemma ends_name n : ncname n -> forall a, ends_in_name (a ++ n).
Proof. intros N a. exists a, n. split; [reflexivity|exact N]. Qed.
Lemma blank_not_name w z : blank w -> (w = [] -> clear name_p z) -> clear name_p (w ++ z).
Proof. intros B C. apply clear_blank; [repeat split|exact B|exact C]. Qed.
Lemma blank_clear k w z : (k =? 32) = false -> (k =? 9) = false -> (k =? 10) = false -> (k =? 13) = false -> blank w -> clear (is k) z -> clear (is k) (w ++ z).
Proof. intros A B C D W Z. apply clear_blank; [unfold not_blank, is; tauto|exact W|intros _; exact Z]. Qed.
Lemma ncname_head n : ncname n -> exists c r, n = c :: r /\ start_p c = true.
Proof. intros [c r A B]. exists c, r. split; [reflexivity|apply starts_start, A]. Qed.
Lemma start_is c k : start_p c = true -> name_p k = false -> is k c = false.
Proof. intros S1 K. apply name_not; [apply start_name, S1|exact K]. Qed.
Lemma start_space c : start_p c = true -> space_p c = false.
Proof. intro S1. apply name_not_space, start_name, S1. Qed.
Section with_lexicon.
Context (x : lexicon).
Definition plain_test (u : tree) (s : test) : Prop :=
  exists i, id_of u = Some i /\ tests i = true /\ i <> SelfSelect_id /\ i <> ParentSelect_id /\ i <> NodeTest_id /\
    forall l, (i = ProcessingInstruction_id -> is_literal l = None) -> leaf_test x (u :: l) = Got (Some s, l).
Lemma plain_test_tree u s : plain_test u s -> test_tree x u s.
Proof.
  intros [i [E [T [A [B [N L]]]]]]. exists i. split; [exact E|]. split; [exact T|]. split; [exact A|]. split; [exact B|]. intros l P.
  unfold read_test. rewrite (skip_test _ i) by assumption. rewrite E. destruct i; first [elim N; reflexivity|exact (L l P)].
Qed.
Lemma name_leaf_test n : plain_test (name_leaf n) (Named n).
Proof. exists NCName_id. repeat (split; [first [reflexivity|discriminate]|]). reflexivity. Qed.
Lemma qname_node_test p n u : l_uri x p = Some u -> plain_test (qname_node p n) (NamedIn p u n).
Proof. intro E. exists QName_id. repeat (split; [first [reflexivity|discriminate]|]). intros l _. cbn. rewrite E. reflexivity. Qed.
Lemma any_leaf_test : plain_test (Tree (Some AnyName_id) [42] []) Any.
Proof. exists AnyName_id. repeat (split; [first [reflexivity|discriminate]|]). reflexivity. Qed.
Lemma any_node_test p u r : l_uri x p = Some u -> plain_test (Tree (Some NameTest_id) [] (name_leaf p :: r)) (AnyIn p u).
Proof. intro E. exists NameTest_id. repeat (split; [first [reflexivity|discriminate]|]). intros l _. cbn. rewrite E. reflexivity. Qed.
Definition kind_id (s : test) : rid := match s with OfNode => Node_id | OfText => Text_id | OfComment => Comment_id | _ => ProcessingInstruction_id end.
Lemma kind_leaf_test s k : kind_name s = Some k -> plain_test (Tree (Some (kind_id s)) k []) s.
Proof.
  intro K. exists (kind_id s). destruct s as [| | | | | | |t]; try discriminate K; try (destruct t; [|discriminate K]); (repeat (split; [first [reflexivity|discriminate]|])); intros l P; try reflexivity.
  cbn. rewrite (P eq_refl). reflexivity.
Qed.
(** With blanks after it, a test is a node of its own. *)
Lemma wrapped u s ws : plain_test u s -> (forall t, In t ws -> id_of t = Some S_id) -> exists tt, group NodeTest_id (u :: ws) = [tt] /\ test_tree x tt s.
Proof.
  intros P W. pose proof (plain_test_tree _ _ P) as TT. destruct P as [i [E [T [_ [_ [N L]]]]]]. destruct ws as [|w ws].
  - exists u. split; [cbn; rewrite (claim_id _ _ i E); reflexivity|exact TT].
  - assert (map (claim NodeTest_id) (u :: w :: ws) = u :: w :: ws) as M by (apply map_claim; intros t [<-|I]; [exists i; exact E|eexists; exact (W t I)]).
    exists (Tree (Some NodeTest_id) [] (u :: w :: ws)). split; [unfold group; rewrite M; reflexivity|]. exists NodeTest_id. repeat (split; [first [reflexivity|discriminate]|]). intros l _.
    assert (forall ks, read_test x (Tree (Some NodeTest_id) [] ks :: l) = andthen (leaf_test x (skip_white ks)) (fun '(o, _) => Got (o, l))) as -> by reflexivity.
    rewrite (skip_test _ i) by assumption. rewrite (L (w :: ws)); [reflexivity|]. intros _. cbn. rewrite (W w (or_introl eq_refl)). reflexivity.
Qed.
Local Notation pi_test := (Seq (Seq (Seq (Seq (Seq (Seq (Rule ProcessingInstruction_id) (Rule S_id)) (Discard (Rule LeftBracket_id))) (Rule S_id)) (Rule Literal_id)) (Rule S_id)) (Discard (Rule RightBracket_id))).
Local Notation kind_test_p := (Seq (Seq (Seq (Seq (Rule NodeType_id) (Rule S_id)) (Discard (Rule LeftBracket_id))) (Rule S_id)) (Discard (Rule RightBracket_id))).
Local Notation any_test := (Alt (Alt pi_test kind_test_p) (Rule NameTest_id)).
Lemma f_bracket_tests n w z : forallb name_p n = true -> blank w -> clear space_p z -> (w = [] -> clear name_p z) -> clear (is 40) z -> fails (Alt pi_test kind_test_p) (n ++ w ++ z).
Proof.
  intros K B C N F. apply F_alt.
  - apply F_first, F_first, F_first, F_first, bracket_stop; try assumption. exact wordy_pi.
  - apply F_first, F_first, bracket_stop; try assumption. exact wordy_kind.
Qed.
Definition pi_leaf : tree := Tree (Some ProcessingInstruction_id) (ascii_str "processing-instruction") [].
Definition core (s : test) (u : tree) : Prop :=
  match s with
  | Named n => u = name_leaf n
  | NamedIn p _ n => u = qname_node p n
  | Any => u = Tree (Some AnyName_id) [42] []
  | AnyIn p _ => u = Tree (Some NameTest_id) [] [name_leaf p; Tree (Some AnyName_id) [42] []]
  | s => exists k, u = Tree (Some (kind_id s)) k []
  end.
Definition test_parts (s : test) (bare : Prop) (ts : list tree) : Prop :=
  (exists u ws, ts = u :: ws /\ core s u /\ plain_test u s /\ (forall t, In t ws -> id_of t = Some S_id) /\ (bare -> ws = []) /\ (forall t, s = OfPi t -> t = [])) \/
  (exists t ws, s = OfPi t /\ t <> [] /\ ts = pi_leaf :: literal_leaf t :: ws /\ (forall t, In t ws -> id_of t = Some S_id)).
Definition unblank (t : str) : Prop := Forall (fun c => ~ In c [32; 9; 10; 13]) t.
Lemma bare_part s u : core s u -> plain_test u s -> (forall t, s = OfPi t -> t = []) -> forall bare, test_parts s bare [u].
Proof. intros C P N b. left. exists u, []. split; [reflexivity|]. split; [exact C|]. split; [exact P|]. split; [intros t []|]. split; [reflexivity|exact N]. Qed.
Lemma unblank_white w t : blank w -> unblank t -> (forall c, In c w -> In c t) -> w = [].
Proof.
  intros B U I. destruct w as [|c w]; [reflexivity|]. inversion B as [|? ? HC _]; subst. unfold unblank in U. rewrite Forall_forall in U. elim (U c); [apply I; left; reflexivity|exact HC].
Qed.
Lemma g_any_test t s w z : test_written (l_uri x) t s -> blank w -> clear space_p z -> clear (is 40) z -> clear (is 58) z -> (w = [] -> ends_in_name t -> clear name_p z) ->
  t <> [] /\ clear space_p t /\ exists ts, gets any_test t (w ++ z) ts /\ test_parts s (unblank t) ts.
Proof.
  intros H B C L K N. destruct H as [n HN|p u n HP HN U| |p u HP U|s k v v2 HK V V2|l t v HL NE V].
  - assert (w = [] -> clear name_p z) as NZ by (intro W; apply N; [exact W|apply (ends_name n HN [])]).
    destruct (ncname_head n HN) as [c [r [En SC]]]. split; [apply ncname_not_nil, HN|]. split; [rewrite En; apply start_space, SC|].
    exists [name_leaf n]. split; [|apply bare_part; [reflexivity|apply name_leaf_test|discriminate]].
    apply g_right; [apply f_bracket_tests; try assumption; apply ncname_chars, HN|].
    eapply (g_node _ _ _ [name_leaf n]); [apply ncname_not_nil, HN| |reflexivity]. cbn [rule]. apply g_right; [apply F_alt|].
    + eapply f_sign; [reflexivity|]. rewrite En. cbn. apply start_is; [exact SC|reflexivity].
    + apply F_first. eapply f_second; [apply g_ncname; [exact HN|apply blank_not_name; assumption]|]. apply F_discard, f_chr, blank_clear; try reflexivity; assumption.
    + apply g_qname; [exact HN|apply blank_not_name; assumption|apply blank_clear; try reflexivity; assumption].
  - assert (w = [] -> clear name_p z) as NZ.
    { intro W; apply N; [exact W|]. change (p ++ 58 :: n) with (p ++ [58] ++ n). rewrite app_assoc. apply ends_name, HN. }
    destruct (ncname_head p HP) as [c [r [Ep SC]]]. destruct (ncname_head n HN) as [c2 [r2 [En SC2]]].
    split; [destruct p; discriminate|]. split; [rewrite Ep; apply start_space, SC|].
    exists [qname_node p n]. split; [|apply bare_part; [reflexivity|apply qname_node_test, U|discriminate]].
    apply g_right; [rewrite <- app_assoc; apply (f_bracket_tests p []); try reflexivity; [apply ncname_chars, HP|constructor]|].
    eapply (g_node _ _ _ [qname_node p n]); [destruct p; discriminate| |reflexivity]. cbn [rule]. apply g_right; [apply F_alt|].
    + eapply f_sign; [reflexivity|]. rewrite Ep. cbn. apply start_is; [exact SC|reflexivity].
    + rewrite <- app_assoc. replace (p ++ (58 :: n) ++ w ++ z) with ((p ++ [58]) ++ n ++ w ++ z) by (rewrite <- app_assoc; reflexivity).
      eapply f_second; [eapply g_seq; [apply g_ncname; [exact HP|reflexivity]|eapply g_discard, g_chr]|]. eapply f_sign; [reflexivity|]. rewrite En. cbn. apply start_is; [exact SC2|reflexivity].
    + apply g_qname_prefixed; [exact HP|exact HN|apply blank_not_name; assumption].
  - split; [discriminate|]. split; [reflexivity|]. exists [Tree (Some AnyName_id) [42] []]. split; [|apply bare_part; [reflexivity|apply any_leaf_test|discriminate]].
    apply g_right; [apply F_alt; [apply F_first, F_first, F_first, F_first, F_first, F_first|apply F_first, F_first, F_first, F_first]; apply wordy_fails; [exact wordy_pi|reflexivity|exact wordy_kind|reflexivity]|].
    eapply (g_node _ _ _ [Tree (Some AnyName_id) [42] []]); [discriminate| |reflexivity]. cbn [rule]. apply g_left, g_left. apply g_sign. reflexivity.
  - pose (st := Tree (Some AnyName_id) [42] []). destruct (ncname_head p HP) as [c [r [Ep SC]]].
    split; [destruct p; discriminate|]. split; [rewrite Ep; apply start_space, SC|].
    exists [Tree (Some NameTest_id) [] [name_leaf p; st]]. split; [|apply bare_part; [reflexivity|apply any_node_test, U|discriminate]].
    apply g_right; [rewrite <- app_assoc; apply (f_bracket_tests p []); try reflexivity; [apply ncname_chars, HP|constructor]|].
    eapply (g_node _ _ _ [name_leaf p; st]); [destruct p; discriminate| |reflexivity]. cbn [rule]. apply g_left, g_right.
    + eapply f_sign; [reflexivity|]. rewrite Ep. cbn. apply start_is; [exact SC|reflexivity].
    + eapply (g_join _ _ (p ++ [58]) [42] _ [name_leaf p] [st]); [|apply g_sign; reflexivity|rewrite <- app_assoc; reflexivity|reflexivity].
      eapply (g_join _ _ p [58] _ [name_leaf p] []); [apply g_ncname; [exact HP|reflexivity]|eapply g_discard, g_chr|reflexivity|reflexivity].
  - pose (u := Tree (Some (kind_id s)) k []). assert (k <> [] /\ clear space_p k) as [NK CK] by (destruct s as [| | | | | | |t]; try discriminate HK; try (destruct t; [|discriminate HK]); injection HK as <-; (split; [discriminate|reflexivity])).
    split; [destruct k; [elim NK; reflexivity|discriminate]|]. split; [destruct k; [elim NK; reflexivity|exact CK]|].
    assert (forall z', clear name_p z' -> gets (Rule NodeType_id) k z' [u]) as GK.
    { intros z' CZ. unfold u. eapply (g_node _ _ _ [Tree (Some (kind_id s)) k []]); [exact NK| |reflexivity]. cbn [rule].
      destruct s as [| | | | | | |t]; try discriminate HK; try (destruct t; [|discriminate HK]); injection HK as <-; cbn [kind_id]. all: solve [pick z' CZ]. }
    exists ([u] ++ white v ++ white v2). split.
    + apply g_left, g_right.
      * rewrite <- !app_assoc. destruct s as [| | | | | | |t]; try discriminate HK; try (destruct t; [|discriminate HK]); injection HK as <-;
          try (apply F_first, F_first, F_first, F_first, F_first, F_first; eapply f_word; [reflexivity|vm_compute; reflexivity]).
        apply F_first, F_first. pose (pi := ascii_str "processing-instruction"). replace (ascii_str "processing-instruction" ++ v ++ (40 :: v2 ++ [41]) ++ w ++ z) with ((((pi ++ v) ++ [40]) ++ v2) ++ 41 :: w ++ z) by texts.
        eapply f_second; [|apply f_literal; reflexivity].
        eapply g_seq; [eapply g_seq; [eapply g_seq; [apply g_word; [reflexivity|discriminate]|apply g_white; [exact V|reflexivity]]|eapply g_discard, g_sign; reflexivity]|apply g_white; [exact V2|reflexivity]].
      * eapply (g_join _ _ (((k ++ v) ++ [40]) ++ v2) [41] _ (([u] ++ white v) ++ white v2) []); [|eapply g_discard, g_sign; reflexivity|rewrite <- !app_assoc; reflexivity|rewrite app_nil_r, <- app_assoc; reflexivity].
        eapply (g_join _ _ ((k ++ v) ++ [40]) v2 _ ([u] ++ white v) (white v2)); [|apply g_white; [exact V2|reflexivity]|reflexivity|reflexivity].
        eapply (g_join _ _ (k ++ v) [40] _ ([u] ++ white v) []); [|eapply g_discard, g_sign; reflexivity|reflexivity|rewrite app_nil_r; reflexivity].
        apply g_seq; [apply GK, blank_not_name; [exact V|reflexivity]|apply g_white; [exact V|reflexivity]].
    + left. exists u, (white v ++ white v2). split; [reflexivity|]. split; [|split; [apply kind_leaf_test, HK|split; [|split]]].
      * destruct s as [| | | | | | |t]; try discriminate HK; exists k; reflexivity.
      * intros t I. apply in_app_or in I. destruct I as [I|I]; exact (white_ids _ _ I).
      * intro UB. rewrite (unblank_white v _ V UB), (unblank_white v2 _ V2 UB); [reflexivity| |].
        -- intros c I. apply in_or_app. right. apply in_or_app. right. right. apply in_or_app. left. exact I.
        -- intros c I. apply in_or_app. right. apply in_or_app. left. exact I.
      * intros t ->. destruct t; [reflexivity|discriminate HK].
  - split; [discriminate|]. split; [reflexivity|]. pose (pi := ascii_str "processing-instruction"). pose (u := pi_leaf). exists (u :: literal_leaf t :: white v). split.
    + apply g_left, g_left.
      eapply (g_join _ _ (((((pi ++ []) ++ [40]) ++ []) ++ l) ++ v) [41] _ (u :: literal_leaf t :: white v) []); [|eapply g_discard, g_sign; reflexivity|rewrite <- !app_assoc; reflexivity|rewrite app_nil_r; reflexivity].
      eapply (g_join _ _ ((((pi ++ []) ++ [40]) ++ []) ++ l) v _ [u; literal_leaf t] (white v)); [|apply g_white; [exact V|reflexivity]|reflexivity|reflexivity].
      eapply (g_join _ _ (((pi ++ []) ++ [40]) ++ []) l _ [u] [literal_leaf t]); [|apply g_literal, HL|reflexivity|reflexivity].
      eapply (g_join _ _ ((pi ++ []) ++ [40]) [] _ [u] []); [|apply (g_white []); [constructor|destruct HL as [q t [->| ->] _]; reflexivity]|reflexivity|reflexivity].
      eapply (g_join _ _ (pi ++ []) [40] _ [u] []); [|eapply g_discard, g_sign; reflexivity|reflexivity|reflexivity].
      eapply (g_join _ _ pi [] _ [u] []); [apply g_word; [reflexivity|discriminate]|apply (g_white []); [constructor|reflexivity]|reflexivity|reflexivity].
    + right. exists t, (white v). split; [reflexivity|]. split; [exact NE|]. split; [reflexivity|exact (white_ids v)].
Qed.
Lemma g_test_parts v t s w z : test_written (l_uri x) t s -> blank v -> blank w -> clear space_p z -> clear (is 40) z -> clear (is 58) z -> (w = [] -> ends_in_name t -> clear name_p z) ->
  exists ts, gets (Rule NodeTest_id) (v ++ t ++ w) z (group NodeTest_id (white v ++ ts ++ white w)) /\ test_parts s (unblank t) ts.
Proof.
  intros H V B C L K N. destruct (g_any_test t s w z H B C L K N) as [NE [CT [ts [G P]]]]. exists ts. split; [|exact P].
  apply g_rule; [destruct v; [destruct t; [elim NE; reflexivity|discriminate]|discriminate]|]. cbn [rule].
  eapply (g_join _ _ (v ++ t) w z (white v ++ ts) (white w)); [|apply g_white; assumption|rewrite <- app_assoc; reflexivity|rewrite <- app_assoc; reflexivity].
  eapply (g_join _ _ v t (w ++ z) (white v) ts); [|exact G|reflexivity|reflexivity]. apply g_white; [exact V|]. destruct t; [elim NE; reflexivity|exact CT].
Qed.
Lemma g_test t s w z : test_written (l_uri x) t s -> blank w -> clear space_p z -> clear (is 40) z -> clear (is 58) z -> (w = [] -> ends_in_name t -> clear name_p z) ->
  exists tt, gets (Rule NodeTest_id) (t ++ w) z [tt] /\ test_tree x tt s.
Proof.
  intros H B C L K N. destruct (g_test_parts [] t s w z H (Forall_nil _) B C L K N) as [ts [G [[u [ws [-> [_ [P [W _]]]]]]|[m [ws [-> [_ [-> W]]]]]]]]; cbn [white app] in G.
  - destruct (wrapped u s (ws ++ white w) P) as [tt [E T]]; [intros t' I; apply in_app_or in I; destruct I as [I|I]; [exact (W _ I)|exact (white_ids _ _ I)]|].
    exists tt. split; [|exact T]. rewrite <- E. exact G.
  - exists (Tree (Some NodeTest_id) [] (pi_leaf :: literal_leaf m :: ws ++ white w)). split.
    + unfold group in G. rewrite map_claim in G; [exact G|]. intros y [<-|[<-|I]]; [eexists; reflexivity|eexists; reflexivity|]. apply in_app_or in I. destruct I as [I|I]; eexists; [exact (W _ I)|exact (white_ids _ _ I)].
    + exists NodeTest_id. repeat (split; [first [reflexivity|discriminate]|]). intros l _. reflexivity.
Qed.
End with_lexicon.

(** * What is no primary expression, and what is no step *)
Lemma f_call_name_first s : fails (Rule FunctionName_id) s -> fails (Rule FunctionCall_id) s.
Proof. intro F. apply F_rule. cbn [rule]. repeat apply F_first. exact F. Qed.
Lemma f_function_name s : clear start_p s -> fails (Rule FunctionName_id) s.
Proof. intro C. apply F_rule. cbn [rule]. apply F_less, f_qname, C. Qed.
(** A name with the blanks after it, and no bracket. *)
Lemma f_call_after q w z ts : (exists n m, q = n ++ m /\ forallb name_p n = true /\ clear name_p (m ++ w ++ z)) -> q <> [] -> gets (Rule QName_id) q (w ++ z) ts -> (ts <> [] -> exists t i, ts = [t] /\ id_of t = Some i) ->
  blank w -> clear space_p z -> clear (is 40) z -> fails (Rule FunctionCall_id) (q ++ w ++ z).
Proof.
  intros [n [m [-> [K CM]]]] NE G _ B C L.
  assert (forall us, gets (Rule FunctionName_id) (n ++ m) (w ++ z) us -> fails (Rule FunctionCall_id) ((n ++ m) ++ w ++ z)) as TK.
  { intros us G2. apply F_rule. cbn [rule]. do 4 apply F_first. rewrite app_assoc. eapply f_second; [eapply g_seq; [exact G2|apply g_white; assumption]|]. eapply f_sign; [reflexivity|exact L]. }
  destruct (wordy_kind ((n ++ m) ++ w ++ z)) as [F|[u [i [z' [E [NU [KU GU]]]]]]].
  - eapply TK. eapply g_rule; [exact NE|]. cbn [rule]. apply g_less; [exact G|exact F].
  - rewrite <- app_assoc in E. destruct (word_in_name u n (m ++ w ++ z) z' KU CM E) as [k [En ->]]. subst n. destruct k as [|c k].
    + rewrite app_nil_r in *. destruct m as [|c m].
      * apply f_call_name_first, F_rule. cbn [rule]. rewrite app_nil_r in *. eapply f_same; [exact G|exact GU].
      * eapply TK. eapply g_rule; [exact NE|]. cbn [rule]. eapply g_longer; [exact G| |discriminate]. exact GU.
    + eapply TK. eapply g_rule; [exact NE|]. cbn [rule]. rewrite <- app_assoc in *. eapply g_longer; [exact G| |discriminate]. rewrite <- app_assoc. exact GU.
Qed.
Lemma f_call_name n w z : ncname n -> blank w -> clear space_p z -> (w = [] -> clear name_p z) -> clear (is 58) (w ++ z) -> clear (is 40) z -> fails (Rule FunctionCall_id) (n ++ w ++ z).
Proof.
  intros N B C D K L. eapply (f_call_after n w z [name_leaf n]); try assumption.
  - exists n, []. rewrite app_nil_r. split; [reflexivity|]. split; [apply ncname_chars, N|exact (blank_not_name w z B D)].
  - apply ncname_not_nil, N.
  - apply g_qname; [exact N|apply blank_not_name; assumption|exact K].
  - intros _. exists (name_leaf n), NCName_id. split; reflexivity.
Qed.
Lemma f_call_prefixed p n w z : ncname p -> ncname n -> blank w -> clear space_p z -> (w = [] -> clear name_p z) -> clear (is 40) z -> fails (Rule FunctionCall_id) ((p ++ 58 :: n) ++ w ++ z).
Proof.
  intros P N B C D L. eapply (f_call_after (p ++ 58 :: n) w z [qname_node p n]); try assumption.
  - exists p, (58 :: n). split; [reflexivity|]. split; [apply ncname_chars, P|reflexivity].
  - destruct p; discriminate.
  - apply g_qname_prefixed; [exact P|exact N|apply blank_not_name; assumption].
  - intros _. exists (qname_node p n), QName_id. split; reflexivity.
Qed.
Lemma kind_names s k : kind_name s = Some k -> ncname k /\ exists i, forall z, clear name_p z -> gets (Rule NodeType_id) k z [Tree (Some i) k []].
Proof.
  intro K. split.
  - assert (exists c r, k = c :: r /\ start_p c = true /\ forallb name_p r = true) as [c [r [-> [S1 N]]]].
    { destruct s as [| | | | | | |t]; try discriminate K; try (destruct t; [|discriminate K]); injection K as <-; eexists; eexists; repeat split; reflexivity. }
    constructor; [apply start_starts, S1|]. apply Forall_forall. intros d I. rewrite forallb_forall in N. apply in_name_p, N, I.
  - exists (kind_id s). intros z C. eapply (g_node _ _ _ [Tree (Some (kind_id s)) k []]); [|cbn [rule]|reflexivity].
    + destruct s as [| | | | | | |t]; try discriminate K; try (destruct t; [|discriminate K]); injection K as <-; discriminate.
    + destruct s as [| | | | | | |t]; try discriminate K; try (destruct t; [|discriminate K]); injection K as <-; cbn [kind_id]. all: solve [pick z C].
Qed.
Lemma f_call_kind s k z : kind_name s = Some k -> clear name_p z -> clear (is 58) z -> fails (Rule FunctionCall_id) (k ++ z).
Proof.
  intros K C D. destruct (kind_names s k K) as [N [i G]]. apply f_call_name_first, F_rule. cbn [rule]. eapply f_same; [apply g_qname; [exact N|exact C|exact D]|exact (G z C)].
Qed.
Lemma f_primary s : clear space_p s -> clear (is 36) s -> clear (is 40) s -> clear (is 34) s -> clear (is 39) s -> clear digit_p s -> (forall r, s = 46 :: r -> clear digit_p r) ->
  fails (Rule FunctionCall_id) s -> fails (Rule PrimaryExpr_id) s.
Proof.
  intros C V L Q1 Q2 D E F. apply F_rule. cbn [rule]. apply F_first. change s with ([] ++ s). eapply f_second; [apply d_white; [constructor|exact C]|].
  repeat apply F_alt.
  - apply F_rule. cbn [rule]. apply F_first, f_chr, V.
  - apply f_number; assumption.
  - exact F.
  - repeat apply F_first. apply F_discard. eapply f_sign; [reflexivity|exact L].
  - apply f_literal; assumption.
Qed.
Lemma strip_start w z : start_p (hd 0 w) = true -> w = hd 0 w :: tl w -> clear start_p z -> strip_prefix w z = None.
Proof.
  intros S1 E C. apply (strip_none_clear w (hd 0 w)); [exact E|]. destruct z as [|c z]; [exact Logic.I|]. cbn in *. unfold is. destruct (hd 0 w =? c) eqn:Q; [|reflexivity]. apply Z.eqb_eq in Q. congruence.
Qed.
Ltac no_word C := eapply f_word; [reflexivity|]; apply strip_start; [reflexivity|reflexivity|exact C].
Lemma f_axis_start z : clear start_p z -> fails (Rule AxisName_id) z.
Proof. intro C. apply F_rule. cbn [rule]. repeat apply F_alt; no_word C. Qed.
Lemma f_kind_start z : clear start_p z -> fails (Rule NodeType_id) z.
Proof. intro C. apply F_rule. cbn [rule]. repeat apply F_alt; no_word C. Qed.
Lemma f_node_test z : clear space_p z -> clear start_p z -> clear (is 42) z -> fails (Rule NodeTest_id) z.
Proof.
  intros C D A. apply F_rule. cbn [rule]. apply F_first. change z with ([] ++ z). eapply f_second; [apply (g_white []); [constructor|exact C]|]. repeat apply F_alt.
  - repeat apply F_first. no_word D.
  - repeat apply F_first. apply f_kind_start, D.
  - apply F_rule. cbn [rule]. repeat apply F_alt; [eapply f_sign; [reflexivity|exact A]|repeat apply F_first; apply f_ncname, D|apply f_qname, D].
Qed.
Lemma f_axis_step z w : blank w -> clear space_p z -> clear start_p z -> clear (is 42) z -> clear (is 64) z -> fails (Seq (Seq (Rule AxisSpecifier_id) (Rule NodeTest_id)) (Star (Rule Predicate_id))) (w ++ z).
Proof.
  intros B C D A E. apply F_first. eapply f_second; [apply g_axis_default; try assumption; apply F_first, F_first, f_axis_start, D|]. apply f_node_test; assumption.
Qed.
Lemma f_step w z : blank w -> clear space_p z -> clear start_p z -> clear (is 42) z -> clear (is 64) z -> clear (is 46) z -> fails (Rule Step_id) (w ++ z).
Proof.
  intros B C D A E P. apply F_rule. cbn [rule]. apply F_alt; [apply f_axis_step; assumption|]. assert (clear (is 46) (w ++ z)) as PW by (apply blank_clear; try reflexivity; assumption).
  apply F_rule. cbn [rule]. apply F_alt; [eapply f_word; [reflexivity|]; apply (strip_none_clear _ 46); [reflexivity|exact PW]|eapply f_sign; [reflexivity|exact PW]].
Qed.
Lemma f_relative s : fails (Rule Step_id) s -> fails (Rule RelativeLocationPath_id) s.
Proof. intro F. apply F_rule. cbn [rule]. apply F_first, F. Qed.
Lemma f_absolute s : clear (is 47) s -> fails (Rule AbsoluteLocationPath_id) s.
Proof.
  intro C. apply F_rule. cbn [rule]. apply F_alt; [apply F_rule; cbn [rule]|]; apply F_first.
  - eapply f_word; [reflexivity|]. apply (strip_none_clear _ 47); [reflexivity|exact C].
  - eapply f_sign; [reflexivity|exact C].
Qed.
Lemma f_argument w z : blank w -> fails (Rule Argument_id) (w ++ 41 :: z).
Proof.
  intro B. do 8 (apply F_rule; cbn [rule]; try apply F_first). apply F_rule; cbn [rule].
  eapply (f_second _ _ w); [eapply (g_join _ _ w [] _ [] []); [apply d_white; [exact B|reflexivity]|apply g_stop; eapply f_sign; [reflexivity|reflexivity]|rewrite app_nil_r; reflexivity|reflexivity]|].
  apply F_rule; cbn [rule]. apply F_first, F_rule; cbn [rule]. apply F_first. change (41 :: z) with ([] ++ 41 :: z). eapply f_second; [apply d_white; [constructor|reflexivity]|].
  apply F_alt.
  - apply F_first, F_rule; cbn [rule]. apply F_first, f_primary; try reflexivity; [discriminate|]. apply f_call_name_first, f_function_name. reflexivity.
  - apply F_rule; cbn [rule]. apply F_alt; [apply f_absolute; reflexivity|]. apply f_relative, (f_step []); [constructor|reflexivity..].
Qed.
