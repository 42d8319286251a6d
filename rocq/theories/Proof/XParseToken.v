(** The tokens of XPath, as the grammar of the toolkit reads them. *)
From Verif.Model Require Import Base XNode XAxis XCompare XStep XSort XEval XParse.
From Verif.Spec Require Import XParseSpec.
From Verif.Proof Require Import XParsePeg.
From Coq Require Import Lia Bool String List. Import ListNotations. Open Scope Z_scope.

(** * Takes, without the trees of empty matches *)
Definition norm (a : str) (ts : list tree) : list tree := match a with [] => [] | _ => ts end.
Definition gets (p : parser) (a r : str) (ts : list tree) : Prop := exists us, takes p a r us /\ norm a us = ts.
Lemma norm_glue a ta b tb : norm (a ++ b) (glue a ta b tb) = norm a ta ++ norm b tb.
Proof. destruct a; [reflexivity|]. cbn. destruct b; [symmetry; apply app_nil_r|reflexivity]. Qed.
Lemma g_eq p a r ts a' ts' : gets p a r ts -> a = a' -> ts = ts' -> gets p a' r ts'.
Proof. intros G -> ->. exact G. Qed.
Lemma g_takes p a r ts : a <> [] -> gets p a r ts -> takes p a r ts.
Proof. intros N [us [T E]]. destruct a; [congruence|]. cbn in E. subst. exact T. Qed.
Lemma g_chr c r : gets (Chr c) [c] r [Tree None [c] []].
Proof. eexists. split; [apply T_chr|reflexivity]. Qed.
Lemma g_class (f : Z -> bool) c r : f c = true -> gets (Class f) [c] r [Tree None [c] []].
Proof. intro F. eexists. split; [apply T_class; exact F|reflexivity]. Qed.
Lemma g_txt w r : w <> [] -> gets (Txt w) w r [Tree None w []].
Proof. intro N. eexists. split; [apply T_txt|]. destruct w; [congruence|reflexivity]. Qed.
Lemma g_seq p q a b r ta tb : gets p a (b ++ r) ta -> gets q b r tb -> gets (Seq p q) (a ++ b) r (ta ++ tb).
Proof. intros [u [T <-]] [v [V <-]]. eexists. split; [apply T_seq; [exact T|exact V]|]. apply norm_glue. Qed.
Lemma g_left p q a r ts : gets p a r ts -> gets (Alt p q) a r ts.
Proof. intros [u [T E]]. exists u. split; [apply T_left; exact T|exact E]. Qed.
Lemma g_right p q a r ts : fails p (a ++ r) -> gets q a r ts -> gets (Alt p q) a r ts.
Proof. intros F [u [T E]]. exists u. split; [apply T_right; assumption|exact E]. Qed.
Lemma g_stop p r : fails p r -> gets (Star p) [] r [].
Proof. intro F. eexists. split; [apply T_stop; exact F|reflexivity]. Qed.
Lemma g_star p a b r ta tb : gets p a (b ++ r) ta -> gets (Star p) b r tb -> gets (Star p) (a ++ b) r (ta ++ tb).
Proof. intros [u [T <-]] [v [V <-]]. eexists. split; [apply T_star; [exact T|exact V]|]. apply norm_glue. Qed.
Lemma g_some p a r ts : gets p a r ts -> gets (Opt p) a r ts.
Proof. intros [u [T E]]. exists u. split; [apply T_some; exact T|exact E]. Qed.
Lemma g_none p r : fails p r -> gets (Opt p) [] r [].
Proof. intro F. eexists. split; [apply T_none; exact F|reflexivity]. Qed.
Lemma g_many p a b r ta tb : gets p a (b ++ r) ta -> gets (Star p) b r tb -> gets (Many p) (a ++ b) r (ta ++ tb).
Proof. intros [u [T <-]] [v [V <-]]. eexists. split; [apply T_many; [exact T|exact V]|]. apply norm_glue. Qed.
Lemma g_less p q a r ts : gets p a r ts -> fails q (a ++ r) -> gets (Less p q) a r ts.
Proof. intros [u [T E]] F. exists u. split; [apply T_less; assumption|exact E]. Qed.
Lemma g_longer p q a c r ts tq : gets p (a ++ c) r ts -> gets q a (c ++ r) tq -> c <> [] -> gets (Less p q) (a ++ c) r ts.
Proof. intros [u [T E]] [v [V _]] N. exists u. split; [eapply T_longer; eassumption|exact E]. Qed.
Lemma g_rule i a r ts : a <> [] -> gets (rule i) a r ts -> gets (Rule i) a r (group i ts).
Proof. intros N G. apply (g_takes _ _ _ _ N) in G. eexists. split; [apply T_rule; exact G|]. destruct a; [congruence|reflexivity]. Qed.
Lemma g_rule_nil i r ts : gets (rule i) [] r ts -> gets (Rule i) [] r [].
Proof. intros [u [T _]]. eexists. split; [apply T_rule; exact T|reflexivity]. Qed.
Lemma g_token p a r ts : a <> [] -> gets p a r ts -> gets (Token p) a r [Tree None a []].
Proof. intros N [u [T _]]. eexists. split; [eapply T_token; exact T|]. destruct a; [congruence|reflexivity]. Qed.
Lemma g_token_nil p r ts : gets p [] r ts -> gets (Token p) [] r [].
Proof. intros [u [T _]]. eexists. split; [eapply T_token; exact T|reflexivity]. Qed.
Lemma g_discard p a r ts : gets p a r ts -> gets (Discard p) a r [].
Proof. intros [u [T _]]. eexists. split; [eapply T_discard; exact T|]. destruct a; reflexivity. Qed.
Lemma f_second p q a r ts : gets p a r ts -> fails q r -> fails (Seq p q) (a ++ r).
Proof. intros [u [T _]] F. eapply F_second; eassumption. Qed.
Lemma f_same p q a r ts us : gets p a r ts -> gets q a r us -> fails (Less p q) (a ++ r).
Proof. intros [u [T _]] [v [V _]]. eapply F_same; eassumption. Qed.
Lemma gets_parse p s r ts : s <> [] -> gets p s r ts -> ev (fun n => parse n p (s ++ r) = Val (Some (ts, r))).
Proof. intros N G. apply takes_fails_parse, g_takes; assumption. Qed.

(** * The first character of a text *)
Definition clear (f : Z -> bool) (s : str) : Prop := match s with [] => True | c :: _ => f c = false end.
Definition is (k c : Z) : bool := k =? c.
Arguments is : simpl never.
Lemma f_chr k s : clear (is k) s -> fails (Chr k) s.
Proof. intro C. apply F_chr. intros r ->. cbn in C. unfold is in C. rewrite Z.eqb_refl in C. discriminate. Qed.
Lemma clear_is k c (r : str) : (c =? k) = false -> clear (is k) (c :: r).
Proof. intro E. unfold clear, is. rewrite Z.eqb_sym. exact E. Qed.
Lemma f_class f s : clear f s -> fails (Class f) s.
Proof. intro C. apply F_class. intros c r ->. exact C. Qed.
Lemma clear_imp f g s : (forall c, g c = true -> f c = true) -> clear f s -> clear g s.
Proof. intros I C. destruct s as [|c s]; [exact Logic.I|]. cbn in *. destruct (g c) eqn:G; [|reflexivity]. apply I in G. congruence. Qed.
Lemma blank_cons c w : blank (c :: w) -> In c [32; 9; 10; 13] /\ blank w.
Proof. intro B. inversion B; subst. split; assumption. Qed.
Lemma blank_space c : In c [32; 9; 10; 13] -> space_p c = true.
Proof. intros [<-|[<-|[<-|[<-|[]]]]]; reflexivity. Qed.
Lemma blank_app a b : blank a -> blank b -> blank (a ++ b).
Proof. intros A B. apply Forall_app. split; assumption. Qed.
Definition not_blank (f : Z -> bool) : Prop := f 32 = false /\ f 9 = false /\ f 10 = false /\ f 13 = false.
Lemma clear_blank f w s : not_blank f -> blank w -> (w = [] -> clear f s) -> clear f (w ++ s).
Proof.
  intros [N1 [N2 [N3 N4]]] B H. destruct w as [|c w]; [apply H; reflexivity|]. apply blank_cons in B. destruct B as [[<-|[<-|[<-|[<-|[]]]]] _]; assumption.
Qed.

(** Words. *)
Lemma strip_none_clear w c s : w = c :: tl w -> clear (is c) s -> strip_prefix w s = None.
Proof.
  intros -> C. destruct s as [|d s]; [reflexivity|]. cbn in *. unfold is in C. rewrite C. reflexivity.
Qed.
Lemma strip_some w s r : strip_prefix w s = Some r -> s = w ++ r.
Proof.
  revert s. induction w as [|c w IH]; intros s E; [cbn in E; injection E as ->; reflexivity|]. destruct s as [|d s]; [discriminate|].
  cbn in E. destruct (c =? d) eqn:D; [|discriminate]. apply Z.eqb_eq in D. subst. cbn. f_equal. apply IH, E.
Qed.

(** * White space *)
Definition leaf (c : Z) : tree := Tree None [c] [].
Definition white (w : str) : list tree := match w with [] => [] | _ => group S_id (map leaf w) end.
Lemma white_inner w r : blank w -> clear space_p r -> gets (Star (Class space_p)) w r (map leaf w).
Proof.
  intros B C. induction w as [|c w IH]; [apply g_stop, f_class, C|]. apply blank_cons in B. destruct B as [I B].
  apply (g_star _ [c] w r [leaf c] (map leaf w)); [apply g_class, blank_space, I|apply IH, B].
Qed.
Lemma g_white w r : blank w -> clear space_p r -> gets (Rule S_id) w r (white w).
Proof.
  intros B C. destruct w as [|c w]; [eapply g_rule_nil, white_inner; [exact B|exact C]|].
  unfold white. apply g_rule; [discriminate|]. apply white_inner; assumption.
Qed.
Lemma d_white w r : blank w -> clear space_p r -> gets (Discard (Rule S_id)) w r [].
Proof. intros B C. eapply g_discard, g_white; assumption. Qed.
Lemma white_shape w : white w = [] \/ exists t, white w = [t] /\ id_of t = Some S_id.
Proof. destruct w as [|c [|d w]]; [left; reflexivity|right; eexists; split; reflexivity|right; eexists; split; reflexivity]. Qed.

(** * Names *)
Definition name_p (c : Z) : bool := alpha_p c || digit_p c || (c =? 46) || (c =? 45) || (c =? 95).
Definition start_p (c : Z) : bool := alpha_p c || (c =? 95).
Lemma letter_alpha c : letter c -> alpha_p c = true.
Proof. unfold letter, alpha_p. intros [[A B]|[A B]]; apply orb_true_iff; [left|right]; apply andb_true_iff; split; apply Z.leb_le; assumption. Qed.
Lemma alpha_letter c : alpha_p c = true -> letter c.
Proof. unfold letter, alpha_p. intro H. apply orb_true_iff in H. destruct H as [H|H]; apply andb_true_iff in H; destruct H as [A B]; apply Z.leb_le in A, B; lia. Qed.
Lemma digit_digit c : digit c <-> digit_p c = true.
Proof. unfold digit, digit_p. rewrite andb_true_iff, !Z.leb_le. reflexivity. Qed.
Lemma starts_start c : starts_name c -> start_p c = true.
Proof. unfold start_p. intros [L| ->]; [rewrite (letter_alpha _ L); reflexivity|apply orb_true_r]. Qed.
Lemma start_starts c : start_p c = true -> starts_name c.
Proof. unfold start_p. intro H. apply orb_true_iff in H. destruct H as [H|H]; [left; apply alpha_letter, H|right; apply Z.eqb_eq, H]. Qed.
Lemma in_name_p c : in_name c <-> name_p c = true.
Proof.
  unfold in_name, name_p. rewrite !orb_true_iff, !Z.eqb_eq, <- digit_digit. split.
  - intros [L|[D|[E|[E|E]]]]; try tauto. apply letter_alpha in L. tauto.
  - intros [[[[L|D]|E]|E]|E]; try tauto. apply alpha_letter in L. tauto.
Qed.
Lemma start_name c : start_p c = true -> name_p c = true.
Proof. unfold start_p, name_p. rewrite !orb_true_iff. tauto. Qed.
Lemma g_name_char c r : name_p c = true -> gets (Rule NCNameChar_id) [c] r [Tree (Some NCNameChar_id) [c] []].
Proof.
  intro N. change [Tree (Some NCNameChar_id) [c] []] with (group NCNameChar_id [Tree None [c] []]). apply g_rule; [discriminate|]. cbn [rule].
  unfold name_p in N. destruct (alpha_p c) eqn:A; [do 4 apply g_left; apply g_class, A|].
  assert (fails (Class alpha_p) ([c] ++ r)) as FA by (apply f_class; exact A).
  destruct (digit_p c) eqn:D; [do 3 apply g_left; apply g_right; [exact FA|apply g_class, D]|].
  assert (fails (Alt (Class alpha_p) (Class digit_p)) ([c] ++ r)) as FD by (apply F_alt; apply f_class; assumption).
  destruct (c =? 46) eqn:E1; [apply Z.eqb_eq in E1; subst c; do 2 apply g_left; apply g_right; [exact FD|apply g_chr]|].
  assert (fails (Alt (Alt (Class alpha_p) (Class digit_p)) (Chr 46)) ([c] ++ r)) as F1 by (apply F_alt; [exact FD|apply f_chr, clear_is, E1]).
  destruct (c =? 45) eqn:E2; [apply Z.eqb_eq in E2; subst c; apply g_left; apply g_right; [exact F1|apply g_chr]|].
  destruct (c =? 95) eqn:E3; [|discriminate]. apply Z.eqb_eq in E3. subst c. apply g_right; [|apply g_chr].
  apply F_alt; [exact F1|]. apply f_chr. reflexivity.
Qed.
Lemma f_name_char s : clear name_p s -> fails (Rule NCNameChar_id) s.
Proof.
  intro C. apply F_rule. cbn [rule]. repeat apply F_alt; [apply f_class|apply f_class|apply f_chr|apply f_chr|apply f_chr];
    (eapply clear_imp; [|exact C]); intros c H; unfold name_p; try rewrite H; try (unfold is in H; rewrite Z.eqb_sym in H; rewrite H); rewrite ?orb_true_r; try reflexivity.
Qed.
Lemma g_name_chars n r : Forall in_name n -> clear name_p r -> exists ts, gets (Star (Rule NCNameChar_id)) n r ts.
Proof.
  intros F C. induction n as [|c n IH]; [eexists; apply g_stop, f_name_char, C|]. inversion F; subst. destruct IH as [ts G]; [assumption|].
  eexists. apply (g_star _ [c] n r); [apply g_name_char, in_name_p; assumption|exact G].
Qed.
Definition name_leaf (n : str) : tree := Tree (Some NCName_id) n [].
Lemma g_ncname n r : ncname n -> clear name_p r -> gets (Rule NCName_id) n r [name_leaf n].
Proof.
  intros [c m A B] C. unfold name_leaf. change [Tree (Some NCName_id) (c :: m) []] with (group NCName_id [Tree None (c :: m) []]).
  apply g_rule; [discriminate|]. cbn [rule]. destruct (g_name_chars m r B C) as [ts G]. eapply g_token; [discriminate|].
  apply (g_seq _ _ [c] m); [|exact G]. apply starts_start in A. unfold start_p in A. destruct (alpha_p c) eqn:L.
  - apply g_left. apply g_class, L.
  - apply orb_true_iff in A. destruct A as [A|A]; [discriminate|]. apply Z.eqb_eq in A. subst c. apply g_right; [apply f_class; reflexivity|apply g_chr].
Qed.
Lemma f_ncname s : clear start_p s -> fails (Rule NCName_id) s.
Proof.
  intro C. apply F_rule. cbn [rule]. apply F_token, F_first. apply F_alt; [apply f_class|apply f_chr]; (eapply clear_imp; [|exact C]); intros c H; unfold start_p.
  - rewrite H. reflexivity.
  - unfold is in H. rewrite Z.eqb_sym in H. rewrite H. apply orb_true_r.
Qed.
Lemma ncname_not_nil n : ncname n -> n <> [].
Proof. intros [c r _ _]. discriminate. Qed.
Lemma g_pass i j a r t : rule i = Rule j -> a <> [] -> (forall u, t = u -> exists k, id_of u = Some k) -> gets (Rule j) a r [t] -> gets (Rule i) a r [t].
Proof.
  intros E N K G. assert (group i [t] = [t]) as X by (destruct (K t eq_refl) as [k X]; destruct t as [id s l]; cbn in X; subst; reflexivity).
  rewrite <- X. apply g_rule; [exact N|]. rewrite E. exact G.
Qed.
Lemma g_prefix i n r : rule i = Rule NCName_id -> ncname n -> clear name_p r -> gets (Rule i) n r [name_leaf n].
Proof. intros E N C. eapply g_pass; [exact E|apply ncname_not_nil, N| |apply g_ncname; assumption]. intros u <-. eexists. reflexivity. Qed.

Lemma g_qname n r : ncname n -> clear name_p r -> clear (is 58) r -> gets (Rule QName_id) n r [name_leaf n].
Proof.
  intros N C D. change [name_leaf n] with (group QName_id [name_leaf n]). apply g_rule; [apply ncname_not_nil, N|]. cbn [rule].
  apply (g_seq _ _ [] n r [] [name_leaf n]); [|apply g_prefix; [reflexivity|assumption|assumption]].
  apply g_none. eapply f_second; [apply g_prefix; [reflexivity|assumption|assumption]|]. apply F_discard, f_chr, D.
Qed.
Definition qname_node (p n : str) : tree := Tree (Some QName_id) [] [name_leaf p; name_leaf n].
Lemma g_qname_prefixed p n r : ncname p -> ncname n -> clear name_p r -> gets (Rule QName_id) (p ++ 58 :: n) r [qname_node p n].
Proof.
  intros P N C. change [qname_node p n] with (group QName_id [name_leaf p; name_leaf n]). apply g_rule; [destruct p; discriminate|]. cbn [rule].
  replace (p ++ 58 :: n) with ((p ++ [58]) ++ n) by (rewrite <- app_assoc; reflexivity).
  apply (g_seq _ _ (p ++ [58]) n r [name_leaf p] [name_leaf n]); [|apply g_prefix; [reflexivity|assumption|assumption]].
  apply g_some. apply (g_seq _ _ p [58] _ [name_leaf p] []); [apply g_prefix; [reflexivity|assumption|reflexivity]|].
  eapply g_discard, g_chr.
Qed.
Lemma f_qname_colon n r : ncname n -> clear start_p r -> fails (Rule QName_id) (n ++ 58 :: r).
Proof.
  intros N C. apply F_rule. cbn [rule]. change (n ++ 58 :: r) with (n ++ [58] ++ r). rewrite app_assoc. eapply f_second.
  - apply g_some. apply (g_seq _ _ n [58]); [apply g_prefix; [reflexivity|exact N|reflexivity]|eapply g_discard, g_chr].
  - apply F_rule. cbn [rule]. apply f_ncname, C.
Qed.
Lemma f_qname s : clear start_p s -> fails (Rule QName_id) s.
Proof.
  intro C. apply F_rule. cbn [rule]. change s with ([] ++ s). eapply f_second; [apply g_none; apply F_first, F_rule; cbn [rule]; apply f_ncname, C|].
  apply F_rule. cbn [rule]. apply f_ncname, C.
Qed.

(** * Words *)
Lemma g_word i w r : rule i = Txt w -> w <> [] -> gets (Rule i) w r [Tree (Some i) w []].
Proof. intros E N. apply (g_rule i w r [Tree None w []]); [exact N|]. rewrite E. apply g_txt, N. Qed.
Lemma f_word i w s : rule i = Txt w -> strip_prefix w s = None -> fails (Rule i) s.
Proof. intros E N. apply F_rule. rewrite E. apply F_txt, N. Qed.
Lemma g_sign i c r : rule i = Chr c -> gets (Rule i) [c] r [Tree (Some i) [c] []].
Proof. intro E. apply (g_rule i [c] r [Tree None [c] []]); [discriminate|]. rewrite E. apply g_chr. Qed.
Lemma f_sign i c s : rule i = Chr c -> clear (is c) s -> fails (Rule i) s.
Proof. intros E C. apply F_rule. rewrite E. apply f_chr, C. Qed.
Definition wordy (p : parser) : Prop := forall z, fails p z \/ exists w i z', z = w ++ z' /\ w <> [] /\ forallb name_p w = true /\ gets p w z' [Tree (Some i) w []].
Lemma wordy_alt p q : wordy p -> wordy q -> wordy (Alt p q).
Proof.
  intros P Q z. destruct (P z) as [F|[w [i [z' [E [N [K G]]]]]]].
  - destruct (Q z) as [F2|[w [i [z' [E [N [K G]]]]]]]; [left; apply F_alt; assumption|]. right. exists w, i, z'. subst z. repeat split; try assumption. apply g_right; assumption.
  - right. exists w, i, z'. repeat split; try assumption. apply g_left, G.
Qed.
Lemma wordy_word i w : rule i = Txt w -> w <> [] -> forallb name_p w = true -> wordy (Rule i).
Proof.
  intros E N K z. destruct (strip_prefix w z) as [z'|] eqn:X; [|left; eapply f_word; eassumption].
  right. exists w, i, z'. apply strip_some in X. repeat split; try assumption. apply g_word; assumption.
Qed.
Lemma wordy_rule i : wordy (rule i) -> wordy (Rule i).
Proof.
  intros P z. destruct (P z) as [F|[w [j [z' [E [N [K G]]]]]]]; [left; apply F_rule, F|]. right. exists w, j, z'. repeat split; try assumption.
  apply (g_rule i w z' [Tree (Some j) w []]); assumption.
Qed.
Ltac wordy := apply wordy_rule; cbn [rule]; repeat apply wordy_alt; (eapply wordy_word; [reflexivity|discriminate|reflexivity]).
Lemma wordy_axis : wordy (Rule AxisName_id). Proof. wordy. Qed.
Lemma wordy_kind : wordy (Rule NodeType_id). Proof. wordy. Qed.
Lemma wordy_pi : wordy (Rule ProcessingInstruction_id). Proof. eapply wordy_word; [reflexivity|discriminate|reflexivity]. Qed.

Lemma ncname_chars n : ncname n -> forallb name_p n = true.
Proof. intros [c r A B]. cbn. rewrite (start_name c (starts_start c A)). apply forallb_forall. intros d I. rewrite Forall_forall in B. apply in_name_p, B, I. Qed.
(** A word at the front of a name followed by something else is at most the name. *)
Lemma word_in_name w n tail z : forallb name_p w = true -> clear name_p tail -> n ++ tail = w ++ z -> exists m, n = w ++ m /\ z = m ++ tail.
Proof.
  revert n. induction w as [|c w IH]; intros n K C E; [exists n; split; [reflexivity|symmetry; exact E]|]. cbn in K. apply andb_true_iff in K. destruct K as [K1 K2].
  destruct n as [|d n].
  - cbn in E. subst tail. cbn in C. congruence.
  - cbn in E. injection E as -> E. destruct (IH n K2 C E) as [m [-> Z]]. exists m. split; [reflexivity|exact Z].
Qed.
Lemma name_not_space c : name_p c = true -> space_p c = false.
Proof.
  intro N. destruct (space_p c) eqn:S; [|reflexivity]. unfold space_p in S. apply orb_true_iff in S. unfold name_p, alpha_p, digit_p in N.
  rewrite !orb_true_iff, !andb_true_iff, !Z.leb_le, !Z.eqb_eq in N. destruct S as [S|S]; [apply Z.eqb_eq in S; lia|]. apply andb_true_iff in S. rewrite !Z.leb_le in S. lia.
Qed.
Lemma word_then p q n w t2 : wordy p -> forallb name_p n = true -> blank w -> clear space_p t2 -> (w = [] -> clear name_p t2) ->
  fails q t2 -> (forall c r, name_p c = true -> fails q (c :: r)) -> fails (Seq (Seq p (Rule S_id)) q) (n ++ w ++ t2).
Proof.
  intros P K B C D F N. destruct (P (n ++ w ++ t2)) as [X|[u [i [z [E [NU [KU G]]]]]]]; [apply F_first, F_first, X|].
  assert (clear name_p (w ++ t2)) as CW by (apply clear_blank; [repeat split|exact B|exact D]).
  destruct (word_in_name u n (w ++ t2) z KU CW E) as [m [-> ->]]. rewrite <- app_assoc. destruct m as [|c m].
  - cbn [app]. rewrite app_assoc. eapply f_second; [|exact F]. eapply g_seq; [exact G|apply g_white; assumption].
  - rewrite <- (app_nil_r u). rewrite <- app_assoc. rewrite app_assoc. eapply f_second; [eapply (g_seq _ _ u []); [exact G|]|].
    + apply g_white; [constructor|]. cbn. rewrite forallb_app in K. apply andb_true_iff in K. destruct K as [_ K]. cbn in K. apply andb_true_iff in K. apply name_not_space, K.
    + cbn [app]. apply N. rewrite forallb_app in K. apply andb_true_iff in K. destruct K as [_ K]. cbn in K. apply andb_true_iff in K. apply K.
Qed.
Lemma name_not c k : name_p c = true -> name_p k = false -> is k c = false.
Proof. intros N K. unfold is. destruct (k =? c) eqn:E; [|reflexivity]. apply Z.eqb_eq in E. congruence. Qed.
Lemma axis_stop n w t2 : forallb name_p n = true -> blank w -> clear space_p t2 -> (w = [] -> clear name_p t2) -> strip_prefix [58; 58] t2 = None ->
  fails (Seq (Seq (Rule AxisName_id) (Rule S_id)) (Txt [58; 58])) (n ++ w ++ t2).
Proof.
  intros K B C D F. apply word_then; try assumption; [apply wordy_axis|apply F_txt, F|]. intros c r N. apply F_txt. apply (strip_none_clear [58; 58] 58); [reflexivity|].
  cbn. apply name_not; [exact N|reflexivity].
Qed.
Lemma bracket_stop p n w t2 : wordy p -> forallb name_p n = true -> blank w -> clear space_p t2 -> (w = [] -> clear name_p t2) -> clear (is 40) t2 ->
  fails (Seq (Seq p (Rule S_id)) (Discard (Rule LeftBracket_id))) (n ++ w ++ t2).
Proof.
  intros P K B C D F. apply word_then; try assumption; [apply F_discard; eapply f_sign; [reflexivity|exact F]|]. intros c r N. apply F_discard. eapply f_sign; [reflexivity|].
  cbn. apply name_not; [exact N|reflexivity].
Qed.

(** The names of the axes. *)
Definition axis_id (a : axis) : rid :=
  match a with
  | Ancestor => Ancestor_id | AncestorOrSelf => AncestorOrSelf_id | Attribute => Attribute_id | Child => Child_id
  | Descendant => Descendant_id | DescendantOrSelf => DescendantOrSelf_id | Following => Following_id
  | FollowingSibling => FollowingSibling_id | Namespace => Namespace_id | Parent => Parent_id | Preceding => Preceding_id
  | PrecedingSibling => PrecedingSibling_id | Self => Self_id
  end.
Lemma strip_past u c v r : clear name_p r -> name_p c = true -> strip_prefix (u ++ c :: v) (u ++ r) = None.
Proof.
  intros C N. induction u as [|d u IH].
  - cbn [app]. destruct r as [|d r]; [reflexivity|]. cbn [strip_prefix]. destruct (c =? d) eqn:E; [|reflexivity]. apply Z.eqb_eq in E. subst. cbn in C. congruence.
  - cbn [app strip_prefix]. rewrite Z.eqb_refl. exact IH.
Qed.
Lemma axis_rule a : rule (axis_id a) = Txt (axis_name a).
Proof. destruct a; reflexivity. Qed.
Lemma axis_name_not_nil a : axis_name a <> [].
Proof. destruct a; discriminate. Qed.
Lemma axis_name_chars a : forallb name_p (axis_name a) = true.
Proof. destruct a; reflexivity. Qed.
Lemma axis_name_ncname a : ncname (axis_name a).
Proof.
  assert (exists c r, axis_name a = c :: r /\ start_p c = true /\ forallb name_p r = true) as [c [r [E [S N]]]] by (destruct a; eexists; eexists; repeat split; reflexivity).
  rewrite E. constructor; [apply start_starts, S|]. apply Forall_forall. intros d I. rewrite forallb_forall in N. apply in_name_p, N, I.
Qed.
Ltac dashed r C u v := change (strip_prefix (ascii_str u ++ 45 :: ascii_str v) (ascii_str u ++ r) = None); apply strip_past; [exact C|reflexivity].
Ltac other_word r C := eapply f_word; [reflexivity|]; first
  [ vm_compute; reflexivity
  | dashed r C "ancestor"%string "or-self"%string | dashed r C "descendant"%string "or-self"%string
  | dashed r C "following"%string "sibling"%string | dashed r C "preceding"%string "sibling"%string ].
Ltac other_words r C := repeat apply F_alt; other_word r C.
Ltac pick r C := first [ solve [apply g_word; [reflexivity|discriminate]] | solve [apply g_right; [other_words r C|apply g_word; [reflexivity|discriminate]]] | apply g_left; pick r C ].
Lemma g_axis_name a r : clear name_p r -> gets (Rule AxisName_id) (axis_name a) r [Tree (Some (axis_id a)) (axis_name a) []].
Proof.
  intro C. apply (g_rule AxisName_id (axis_name a) r [Tree (Some (axis_id a)) (axis_name a) []]); [apply axis_name_not_nil|]. cbn [rule].
  destruct a; cbn [axis_id axis_name]; pick r C.
Qed.

(** * Literals and numbers *)
Definition literal_leaf (s : str) : tree := Tree (Some Literal_id) s [].
Lemma g_until q s r : ~ In q s -> gets (Star (Class (fun c => negb (c =? q)))) s (q :: r) (map leaf s).
Proof.
  intro N. induction s as [|c s IH]; [apply g_stop, f_class; cbn; rewrite Z.eqb_refl; reflexivity|].
  apply (g_star _ [c] s _ [leaf c] (map leaf s)); [apply g_class|apply IH; intro I; apply N; right; exact I].
  destruct (c =? q) eqn:E; [|reflexivity]. apply Z.eqb_eq in E. subst. exfalso. apply N. left. reflexivity.
Qed.
Lemma g_quoted q s r : ~ In q s ->
  gets (Seq (Seq (Discard (Chr q)) (Token (Star (Class (fun c => negb (c =? q)))))) (Discard (Chr q))) (q :: s ++ [q]) r (match s with [] => [] | _ => [Tree None s []] end).
Proof.
  intro N. eapply g_eq; [eapply (g_seq _ _ ([q] ++ s) [q])| |].
  - eapply g_seq; [eapply g_discard, g_chr|]. instantiate (1 := match s with [] => [] | _ => [Tree None s []] end).
    destruct s as [|c s]; [eapply g_token_nil, (g_until q []); intros []|]. eapply g_token; [discriminate|]. apply g_until, N.
  - eapply g_discard, g_chr.
  - reflexivity.
  - destruct s; reflexivity.
Qed.
Lemma g_literal l s r : literal l s -> gets (Rule Literal_id) l r [literal_leaf s].
Proof.
  intros [q s' Q N]. assert ([literal_leaf s'] = group Literal_id (match s' with [] => [] | _ => [Tree None s' []] end)) as -> by (destruct s'; reflexivity).
  apply g_rule; [discriminate|]. cbn [rule]. destruct Q as [-> | ->].
  - apply g_left, g_quoted, N.
  - apply g_right; [|apply g_quoted, N]. apply F_first, F_first, F_discard, f_chr. reflexivity.
Qed.
Lemma f_literal s : clear (is 34) s -> clear (is 39) s -> fails (Rule Literal_id) s.
Proof. intros A B. apply F_rule. cbn [rule]. apply F_alt; apply F_first, F_first, F_discard, f_chr; assumption. Qed.

Lemma g_digits_inner s r : Forall digit s -> clear digit_p r -> gets (Star (Class digit_p)) s r (map leaf s).
Proof.
  intros F C. induction s as [|c s IH]; [apply g_stop, f_class, C|]. inversion F; subst. apply (g_star _ [c] s _ [leaf c] (map leaf s)); [apply g_class, digit_digit; assumption|apply IH; assumption].
Qed.
Lemma g_digits s r : digits s -> clear digit_p r -> exists t, gets (Rule Digits_id) s r [t].
Proof.
  intros [N F] C. eexists. apply (g_rule Digits_id s r [Tree None s []]); [exact N|]. cbn [rule]. destruct s as [|c s]; [congruence|]. inversion F; subst.
  eapply g_token; [discriminate|]. apply (g_many _ [c] s r [leaf c] (map leaf s)); [apply g_class, digit_digit; assumption|apply g_digits_inner; assumption].
Qed.
Lemma f_digits s : clear digit_p s -> fails (Rule Digits_id) s.
Proof. intro C. apply F_rule. cbn [rule]. apply F_token, F_many, f_class, C. Qed.
Definition number_leaf (s : str) : tree := Tree (Some Number_id) s [].
Lemma numeral_not_nil s : numeral s -> s <> [].
Proof. intros [a [N _]|a b [N _] _|b _]; [exact N|destruct a; discriminate|discriminate]. Qed.
Lemma digits_not_point a r : digits a -> clear (is 46) (a ++ r).
Proof. intros [N F]. destruct a as [|c a]; [congruence|]. inversion F; subst. cbn. unfold digit in *. unfold is. apply Z.eqb_neq. lia. Qed.
Lemma g_number s r : numeral s -> clear digit_p r -> clear (is 46) r -> gets (Rule Number_id) s r [number_leaf s].
Proof.
  intros N C D. apply (g_rule Number_id s r [Tree None s []]); [apply numeral_not_nil, N|]. cbn [rule].
  enough (exists ts, gets (Alt (Seq (Chr 46) (Rule Digits_id)) (Seq (Rule Digits_id) (Opt (Seq (Chr 46) (Star (Rule Digits_id)))))) s r ts) as [ts G]
    by (eapply g_token; [apply numeral_not_nil, N|exact G]).
  destruct N as [a A|a b A B|b B].
  - destruct (g_digits a r A C) as [t G]. eexists. apply g_right; [apply F_first, f_chr, digits_not_point, A|]. eapply g_eq; [eapply (g_seq _ _ a [])| |reflexivity].
    + exact G.
    + apply g_none, F_first, f_chr, D.
    + apply app_nil_r.
  - destruct (g_digits a ((46 :: b) ++ r) A) as [t G]; [reflexivity|]. eexists. apply g_right; [rewrite <- app_assoc; apply F_first, f_chr, digits_not_point, A|].
    eapply (g_seq _ _ a (46 :: b)); [exact G|]. apply g_some. apply (g_seq _ _ [46] b); [apply g_chr|]. instantiate (1 := match b with [] => [] | _ => [Tree (Some Digits_id) b []] end).
    destruct b as [|c b]; [apply g_stop, f_digits, C|]. apply (g_eq _ ((c :: b) ++ []) _ ([Tree (Some Digits_id) (c :: b) []] ++ [])); [|apply app_nil_r|reflexivity]. apply g_star; [|apply g_stop, f_digits, C].
    apply (g_rule Digits_id (c :: b) ([] ++ r) [Tree None (c :: b) []]); [discriminate|]. cbn [rule app]. inversion B; subst.
    eapply g_token; [discriminate|]. apply (g_many _ [c] b r [leaf c] (map leaf b)); [apply g_class, digit_digit; assumption|apply g_digits_inner; assumption].
  - destruct (g_digits b r B C) as [t G]. eexists. apply g_left. apply (g_seq _ _ [46] b); [apply g_chr|exact G].
Qed.
Lemma f_number s : clear digit_p s -> (forall r, s = 46 :: r -> clear digit_p r) -> fails (Rule Number_id) s.
Proof.
  intros C D. apply F_rule. cbn [rule]. apply F_token, F_alt; [|apply F_first, f_digits, C]. destruct s as [|c s]; [apply F_first, f_chr; exact Logic.I|].
  destruct (c =? 46) eqn:E; [|apply F_first, f_chr, clear_is, E]. apply Z.eqb_eq in E. subst. apply (f_second _ _ [46] s _ (g_chr 46 s)). apply f_digits, (D s eq_refl).
Qed.
