From Coq Require Import String Floats.SpecFloat.
From Verif.Model Require Import Base Text XNode XAxis XNodeSet XStep XSort XParse XPattern XKeys XFunctions XKeyPattern.
From Verif.Spec Require Import XmlChars XParseSpec XAxisSpec XNodeSetSpec XKeysSpec XKeyPatternSpec.
From Verif.Proof Require Import TextProof XOrderProof XKeysProof XParsePeg XParseToken XParseTree XParseStep XPatternProof.
From Coq Require Import Lia Bool List. Import ListNotations. Open Scope Z_scope.

(** * The text *)
Definition id_leaf (s : str) : tree := Tree (Some IdKeyPattern_id) s [].
Definition lb : tree := Tree (Some LeftBracket_id) [40] [].
Definition rb : tree := Tree (Some RightBracket_id) [41] [].
Lemma literal_clear l s z : literal l s -> clear space_p (l ++ z).
Proof. intros [q s' [-> | ->] _]; reflexivity. Qed.
Lemma group_leaf i w : group i [Tree None w []] = [Tree (Some i) w []].
Proof. reflexivity. Qed.
Lemma key_parsed name value w1 w2 w3 w4 l1 l2 r : blank w1 -> blank w2 -> blank w3 -> blank w4 -> literal l1 name -> literal l2 value ->
  gets (Rule IdKeyPattern_id) (ascii_str "key(" ++ w1 ++ l1 ++ w2 ++ ascii_str "," ++ w3 ++ l2 ++ w4 ++ ascii_str ")") r
    [Tree (Some IdKeyPattern_id) [] [id_leaf (ascii_str "key"); lb; literal_leaf name; literal_leaf value; rb]].
Proof.
  intros B1 B2 B3 B4 L1 L2.
  apply (g_node _ _ _ [Tree None (ascii_str "key") []; lb; literal_leaf name; literal_leaf value; rb]); [discriminate| |reflexivity].
  cbn [rule]. apply g_right; [do 5 apply F_first; apply F_txt; reflexivity|].
  eapply (g_join _ _ (ascii_str "key(" ++ w1 ++ l1 ++ w2 ++ ascii_str "," ++ w3 ++ l2 ++ w4) (ascii_str ")") _ [Tree None (ascii_str "key") []; lb; literal_leaf name; literal_leaf value] [rb]);
    [|apply g_sign; reflexivity|rewrite <- ?app_assoc; reflexivity|reflexivity].
  eapply (g_join _ _ (ascii_str "key(" ++ w1 ++ l1 ++ w2 ++ ascii_str "," ++ w3 ++ l2) w4 _ [Tree None (ascii_str "key") []; lb; literal_leaf name; literal_leaf value] []);
    [|apply d_white; [exact B4|reflexivity]|rewrite <- ?app_assoc; reflexivity|reflexivity].
  eapply (g_join _ _ (ascii_str "key(" ++ w1 ++ l1 ++ w2 ++ ascii_str "," ++ w3) l2 _ [Tree None (ascii_str "key") []; lb; literal_leaf name] [literal_leaf value]);
    [|apply g_literal; exact L2|rewrite <- ?app_assoc; reflexivity|reflexivity].
  eapply (g_join _ _ (ascii_str "key(" ++ w1 ++ l1 ++ w2 ++ ascii_str ",") w3 _ [Tree None (ascii_str "key") []; lb; literal_leaf name] []);
    [|apply d_white; [exact B3|apply (literal_clear _ _ _ L2)]|rewrite <- ?app_assoc; reflexivity|reflexivity].
  eapply (g_join _ _ (ascii_str "key(" ++ w1 ++ l1 ++ w2) (ascii_str ",") _ [Tree None (ascii_str "key") []; lb; literal_leaf name] []);
    [|eapply g_discard, g_chr|rewrite <- ?app_assoc; reflexivity|reflexivity].
  eapply (g_join _ _ (ascii_str "key(" ++ w1 ++ l1) w2 _ [Tree None (ascii_str "key") []; lb; literal_leaf name] []);
    [|apply d_white; [exact B2|reflexivity]|rewrite <- ?app_assoc; reflexivity|reflexivity].
  eapply (g_join _ _ (ascii_str "key(" ++ w1) l1 _ [Tree None (ascii_str "key") []; lb] [literal_leaf name]);
    [|apply g_literal; exact L1|rewrite <- ?app_assoc; reflexivity|reflexivity].
  eapply (g_join _ _ (ascii_str "key(") w1 _ [Tree None (ascii_str "key") []; lb] []);
    [|apply d_white; [exact B1|apply (literal_clear _ _ _ L1)]|reflexivity|reflexivity].
  eapply (g_join _ _ (ascii_str "key") (ascii_str "(") _ [Tree None (ascii_str "key") []] [lb]);
    [apply g_txt; discriminate|apply g_sign; reflexivity|reflexivity|reflexivity].
Qed.
Lemma id_parsed value w1 w2 l r : blank w1 -> blank w2 -> literal l value ->
  gets (Rule IdKeyPattern_id) (ascii_str "id(" ++ w1 ++ l ++ w2 ++ ascii_str ")") r
    [Tree (Some IdKeyPattern_id) [] [id_leaf (ascii_str "id"); lb; literal_leaf value; rb]].
Proof.
  intros B1 B2 L.
  apply (g_node _ _ _ [Tree None (ascii_str "id") []; lb; literal_leaf value; rb]); [discriminate| |reflexivity].
  cbn [rule]. apply g_left.
  eapply (g_join _ _ (ascii_str "id(" ++ w1 ++ l ++ w2) (ascii_str ")") _ [Tree None (ascii_str "id") []; lb; literal_leaf value] [rb]);
    [|apply g_sign; reflexivity|rewrite <- ?app_assoc; reflexivity|reflexivity].
  eapply (g_join _ _ (ascii_str "id(" ++ w1 ++ l) w2 _ [Tree None (ascii_str "id") []; lb; literal_leaf value] []);
    [|apply d_white; [exact B2|reflexivity]|rewrite <- ?app_assoc; reflexivity|reflexivity].
  eapply (g_join _ _ (ascii_str "id(" ++ w1) l _ [Tree None (ascii_str "id") []; lb] [literal_leaf value]);
    [|apply g_literal; exact L|rewrite <- ?app_assoc; reflexivity|reflexivity].
  eapply (g_join _ _ (ascii_str "id(") w1 _ [Tree None (ascii_str "id") []; lb] []);
    [|apply d_white; [exact B1|apply (literal_clear _ _ _ L)]|reflexivity|reflexivity].
  eapply (g_join _ _ (ascii_str "id") (ascii_str "(") _ [Tree None (ascii_str "id") []] [lb]);
    [apply g_txt; discriminate|apply g_sign; reflexivity|reflexivity|reflexivity].
Qed.
(** A pattern that is one such call. *)
Lemma call_pattern x w s v c m : blank w -> blank v -> s <> [] -> (forall z, clear space_p (s ++ z)) ->
  (forall r, gets (Rule IdKeyPattern_id) s r [Tree (Some IdKeyPattern_id) [] (c :: m)]) ->
  ev (fun n => compile_pattern n x (w ++ s ++ v) = Got [(IdKey (text_of c) (literals m), half)]).
Proof.
  intros W V NE CL G. set (t := Tree (Some IdKeyPattern_id) [] (c :: m)) in *.
  assert (forall q, q 32 = false -> q 9 = false -> q 10 = false -> q 13 = false -> clear q v) as CV by (intros q Q1 Q2 Q3 Q4; destruct v as [|d v]; [exact Logic.I|]; apply blank_cons in V; destruct V as [[<-|[<-|[<-|[<-|[]]]]] _]; assumption).
  assert (gets (Rule LocationPathPattern_id) s v [t]) as GL.
  { apply (g_node _ _ _ [t]); [exact NE| |reflexivity]. cbn [rule]. apply g_left, g_left.
    eapply (g_join _ _ s [] _ [t] []); [apply G|apply g_none, F_first, F_alt|rewrite app_nil_r; reflexivity|reflexivity].
    - apply f_double_slash. apply CV; reflexivity.
    - eapply f_sign; [reflexivity|]. apply CV; reflexivity. }
  assert (gets (Rule Pattern_id) (w ++ s ++ v) [] [t]) as GP.
  { apply (g_node _ _ _ [t]); [destruct w; [destruct s; [congruence|discriminate]|discriminate]| |reflexivity]. cbn [rule].
    eapply (g_join _ _ (w ++ s ++ v) [] _ [t] []); [|apply g_stop; do 3 apply F_first; eapply f_sign; [reflexivity|exact Logic.I]|rewrite app_nil_r; reflexivity|reflexivity].
    eapply (g_join _ _ (w ++ s) v _ [t] []); [|apply d_white; [exact V|exact Logic.I]|rewrite <- app_assoc; reflexivity|reflexivity].
    eapply (g_join _ _ w s _ [] [t]); [apply d_white; [exact W|apply CL]|rewrite app_nil_r; exact GL|reflexivity|reflexivity]. }
  apply gets_parse in GP; [|destruct w; [destruct s; [congruence|discriminate]|discriminate]]. rewrite app_nil_r in GP. destruct GP as [k GP].
  exists (S (S k)). intros n LE. unfold compile_pattern. rewrite GP by lia. destruct n as [|n]; [lia|]. reflexivity.
Qed.
Lemma key_compiles x current s name value : key_written s name value ->
  exists k, forall n, (k <= n)%nat -> stylesheet_pattern n x current s = Got [(IdKey (ascii_str "key") [name; value], half)].
Proof.
  intros [w nm val w1 w2 w3 w4 l1 l2 v W B1 B2 B3 B4 V L1 L2].
  destruct (call_pattern x w (ascii_str "key(" ++ w1 ++ l1 ++ w2 ++ ascii_str "," ++ w3 ++ l2 ++ w4 ++ ascii_str ")") v
    (id_leaf (ascii_str "key")) [lb; literal_leaf nm; literal_leaf val; rb] W V) as [k K]; [discriminate|reflexivity|intro r; apply key_parsed; assumption|].
  exists k. intros n LE. specialize (K n LE). unfold stylesheet_pattern. rewrite <- ?app_assoc in K. rewrite K. reflexivity.
Qed.
Lemma id_raises x current s value : id_written s value -> exists k, forall n, (k <= n)%nat -> stylesheet_pattern n x current s = Raises.
Proof.
  intros [w val w1 w2 l v W B1 B2 V L].
  destruct (call_pattern x w (ascii_str "id(" ++ w1 ++ l ++ w2 ++ ascii_str ")") v
    (id_leaf (ascii_str "id")) [lb; literal_leaf val; rb] W V) as [k K]; [discriminate|reflexivity|intro r; apply id_parsed; assumption|].
  exists k. intros n LE. specialize (K n LE). unfold stylesheet_pattern. rewrite <- ?app_assoc in K. rewrite K. reflexivity.
Qed.

(** * The tries *)
Lemma key_named namespaces n k : key_called namespaces n k -> key_name namespaces n = Some k.
Proof.
  intros [m N|p m u P N D U]; unfold key_name; [rewrite parse_qname_plain by assumption; reflexivity|].
  rewrite parse_qname_prefixed by assumption. unfold clark_name. cbn [option_map q_uri q_local]. rewrite D. destruct u; [congruence|reflexivity].
Qed.
Section Tries.
  Context (ss : sorter) (f : forest) (namespaces : str -> option str) (keys : list (str * key)).
  Lemma key_try_ok D a : sorts ss -> documents f -> state_ok f keys D -> key_document f (fst (at_node a)) ->
    exists D' o, key_try ss f namespaces D (at_key a) (at_value a) (at_node a) = Val (D', o) /\ state_ok f keys D' /\ attempt_answer f namespaces keys a o.
  Proof.
    intros SS DO OK KD. destruct a as [n v x]. cbn [at_key at_value at_node] in *. unfold key_try, key_of_literals, attempt_answer. cbn [at_key at_value at_node].
    destruct (key_name namespaces n) as [c|] eqn:E.
    - cbn [key_function]. destruct (lookup_ok ss f keys D c x v SS DO OK KD) as (D' & o & -> & OK' & NO & A). cbn [obind]. eexists D', _. split; [reflexivity|]. split; [exact OK'|]. split.
      + intros name CA [EX PL]. apply key_named in CA. rewrite CA in E. injection E as ->.
        destruct A as (r & -> & IN & _).
        * intro Z. destruct EX as [k K]. apply in_named in K. rewrite Z in K. destruct K.
        * intros k K. apply PL, in_named, K.
        * cbn [option_map]. eexists. split; [reflexivity|]. rewrite existsb_exists. split.
          -- intros [y [I Q]]. apply xnode_eqb_ok in Q. subst y. apply IN in I. destruct I as [_ [k [K H]]]. exists k. split; [apply in_named, K|exact H].
          -- intros [k [K H]]. exists x. split; [|apply xnode_eqb_ok; reflexivity]. apply IN. split; [reflexivity|]. exists k. split; [apply in_named, K|exact H].
      + intros name CA N. apply key_named in CA. rewrite CA in E. injection E as ->. rewrite NO; [reflexivity|].
        destruct (named c keys) as [|k r] eqn:Z; [reflexivity|]. exfalso. apply (N k), in_named. rewrite Z. left. reflexivity.
    - cbn [obind option_map]. exists D, None. split; [reflexivity|]. split; [exact OK|]. split; [|reflexivity]. intros name CA _. apply key_named in CA. congruence.
  Qed.
  Lemma tries_ok l : sorts ss -> documents f -> Forall (fun a => key_document f (fst (at_node a))) l ->
    exists os, run_tries ss f namespaces (declare_keys keys) l = Val os /\ Forall2 (attempt_answer f namespaces keys) l os.
  Proof.
    intros SS DO F. generalize (declared_ok f keys). generalize (declare_keys keys). induction F as [|a l KD F IH]; intros D OK; [exists []; split; [reflexivity|constructor]|].
    cbn [run_tries]. destruct (key_try_ok D a SS DO OK KD) as (D' & o & -> & OK' & A). cbn [obind]. destruct (IH D' OK') as (os & -> & FO). cbn [obind]. eexists. split; [reflexivity|]. constructor; assumption.
  Qed.
End Tries.
