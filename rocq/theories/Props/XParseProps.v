From Coq Require Import String SpecFloat.
From Verif.Model Require Import Base XNode XAxis XNodeSet XCompare XStep XSort XEval XParse.
From Verif.Spec Require Import XOrder XAxisSpec XNodeSetSpec XStepSpec XEvalSpec XParseSpec.
From Verif.Proof Require Import XNodeSetProof XEvalProof XParsePeg XParseMeans XParseProof.
From Verif.Props Require Import XAxisProps XStepProps XEvalProps.
From Coq Require Import List Lia.
Import ListNotations.
Open Scope Z_scope.

(** What XPath writes as an expression, the toolkit takes, and it understands by it the expression
    that XPath does, however deep and long the text is: operators by their precedence and from the
    left, abbreviations, white space between the tokens, names, predicates, function calls.
    (Fuel: any amount from some number on gives the same answer.)  Partial: names are ASCII, a
    relative path in parentheses at the beginning of another is dissolved into it ([flat]), and
    [expression_written] leaves out what the refutations below are about. *)
Theorem C62_compile_partial : forall uri number s e, expression_written uri number s e ->
  exists e' k, flat e' = flat e /\ forall n, (k <= n)%nat -> compile_expr n (Lexicon uri number) s = Got e'.
Proof.
  intros uri number s e H. destruct (XParseProof.compiles (Lexicon uri number) s e H) as [e' [E [k K]]]. exists e', k. split; [exact E|exact K].
Qed.
Print Assumptions C62_compile_partial.
(** So no text has two readings. *)
Theorem C62_unambiguous : forall uri number s e1 e2, expression_written uri number s e1 -> expression_written uri number s e2 -> flat e1 = flat e2.
Proof.
  intros uri number s e1 e2 H1 H2. destruct (C62_compile_partial _ _ _ _ H1) as [a [j [E1 A]]], (C62_compile_partial _ _ _ _ H2) as [b [k [E2 B]]].
  specialize (A (j + k)%nat ltac:(lia)). specialize (B (j + k)%nat ltac:(lia)). rewrite A in B. injection B as ->. rewrite <- E1. exact E2.
Qed.
Print Assumptions C62_unambiguous.

(** From the text to the value: the value of the compiled expression, at any node of any document,
    is the value of the written one by XPath ([means], as in C53).  Partial: for the documents and
    paths of C53, when there is a value. *)
Theorem C62_meaning_partial : forall uri number s e, expression_written uri number s e ->
  exists e' m, (forall n, (m <= n)%nat -> compile_expr n (Lexicon uri number) s = Got e') /\
  forall k d (from : bool) x position last v, sorts (e_sort k) -> documents (e_forest k) -> f_doc (e_forest k) d = d -> proper (f_tree (e_forest k) d) ->
  (forall uri name v, e_vars k uri name = Got v -> usable (e_sort k) (e_forest k) d v) ->
  fst x = d -> In (snd x) (nodes (f_tree (e_forest k) d)) -> (from = false -> ~ is_attribute (snd x)) -> allowed (f_tree (e_forest k) d) from e ->
  evaluate k e' x position last = Got v ->
  exists w, means (conversions_of k) (e_forest k) (variables_of k) e x position last w /\ same_value v w.
Proof.
  intros uri number s e H. destruct (C62_compile_partial _ _ _ _ H) as [e' [m [E C]]]. exists e', m. split; [exact C|].
  intros k d from x p l v SO DOC OWN PR VARS D IN NA AL EV. exact (proj2 (evaluate_flat k d from e e' x p l v SO DOC OWN PR VARS D IN NA AL E EV)).
Qed.
Print Assumptions C62_meaning_partial.

(** The examples have no prefixes but p; of numbers they have only 1. *)
Definition some_uri (s : str) : option str := if str_eqb s (ascii_str "p") then Some (ascii_str "urn:p") else None.
Definition one_number (s : str) : option spec_float := if str_eqb s (ascii_str "1") then Some (S754_finite false 4503599627370496 (-52)) else None.
Definition few : lexicon := Lexicon some_uri one_number.
Definition said (s : string) : answer expr := compile_expr 300 few (ascii_str s).
Definition child (n : string) (qs : list expr) : step_of expr := AxisStep Child (Named (ascii_str n)) qs.
Ltac blank_ := repeat constructor; cbn; auto 8.
Ltac name_ := apply name_b; reflexivity.
(** a[ 1 ] /b | ( $p:v ) *)
Definition written_expr : expr :=
  EUnion (EPath false [child "a" [ENumber (S754_finite false 4503599627370496 (-52))]; child "b" []]) (EVariable (ascii_str "urn:p") (ascii_str "v")).
Lemma tighter_all s e : written some_uri one_number PathLevel s e -> expression_written some_uri one_number s e.
Proof.
  intro H. repeat first [exact H|eapply at_tighter; [first [apply by_minus|eapply by_infix; constructor]|]].
Qed.
Lemma from_union s e : written some_uri one_number UnionLevel s e -> expression_written some_uri one_number s e.
Proof.
  intro H. repeat first [exact H|eapply at_tighter; [first [apply by_minus|eapply by_infix; constructor]|]].
Qed.
Example C62_written : expression_written some_uri one_number (ascii_str "a[ 1 ] /b | ( $p:v )") written_expr.
Proof.
  apply from_union. change (ascii_str "a[ 1 ] /b | ( $p:v )") with (ascii_str "a[ 1 ] /b " ++ ascii_str "|" ++ ascii_str " ( $p:v )").
  apply (with_infix _ _ UnionLevel PathLevel (ascii_str "|") EUnion); [constructor| | |].
  - eapply at_tighter; [eapply by_infix; constructor|]. change (ascii_str "a[ 1 ] /b ") with ([] ++ ascii_str "a[ 1 ] /b "). apply with_path; [constructor|]. apply relative_alone.
    change (ascii_str "a[ 1 ] /b ") with (ascii_str "a[ 1 ] " ++ [47] ++ [] ++ ascii_str "b "). apply (more_steps _ _ _ (child "a" [_]) [47] []); [|constructor|constructor|left; reflexivity|].
    + change (ascii_str "a[ 1 ] ") with ([] ++ ascii_str "a" ++ [] ++ ascii_str "[ 1 ] "). apply axis_step_written; [constructor|apply name_test; name_|constructor|].
      change (ascii_str "[ 1 ] ") with (91 :: ascii_str " 1 " ++ 93 :: [32] ++ []). apply a_predicate; [|blank_|constructor].
      apply tighter_all. change (ascii_str " 1 ") with ([32] ++ ascii_str "1 "). apply with_path; [blank_|]. apply primary_alone.
      change (ascii_str "1 ") with (ascii_str "1" ++ [32]). apply number_written; [|reflexivity|blank_]. apply whole. split; [discriminate|]. constructor; [unfold digit; cbn; lia|constructor].
    + change (ascii_str "b ") with (ascii_str "b " ++ []). apply last_step; [|left; reflexivity]. change (ascii_str "b ") with ([] ++ ascii_str "b" ++ [32] ++ []).
      apply axis_step_written; [constructor|apply name_test; name_|blank_|constructor].
  - change (ascii_str " ( $p:v )") with ([32] ++ ascii_str "( $p:v )"). apply with_path; [blank_|]. apply primary_alone.
    change (ascii_str "( $p:v )") with (40 :: [32] ++ ascii_str "$p:v " ++ 41 :: []). apply in_brackets; [blank_| | |constructor].
    + intros [c [r [E H]]]. injection E as <- _. cbn in H. lia.
    + apply tighter_all. change (ascii_str "$p:v ") with ([] ++ ascii_str "$p:v "). apply with_path; [constructor|]. apply primary_alone.
      change (ascii_str "$p:v ") with (36 :: ascii_str "p" ++ 58 :: ascii_str "v" ++ [32]). apply prefixed_variable; [name_|name_|reflexivity|blank_].
  - split; [|split]; (intros [c [r [E H]]]; injection E as <- _; unfold in_name, starts_name, letter, digit in H; lia).
Qed.
Example C62_compiled : said "a[ 1 ] /b | ( $p:v )" = Got written_expr.
Proof. vm_compute. reflexivity. Qed.
(** Operators, abbreviations and functions. *)
Example C62_operators : said "1 - 1 - 1 * 1 < -1 and not(..//@*) or 'or' = ancestor-or-self::node( )" =
  let one := ENumber (S754_finite false 4503599627370496 (-52)) in
  Got (EOr (EAnd (ERel OpLt (EArith Minus (EArith Minus one one) (EArith Multiply one one)) (ENegate one))
                 (ECall Not [EPath false [parent_step; any_depth; AxisStep Attribute Any []]]))
           (ERel OpEq (ELiteral (ascii_str "or")) (EPath false [AxisStep AncestorOrSelf OfNode []]))).
Proof. vm_compute. reflexivity. Qed.
(** (a/b)/c is read as a/b/c. *)
Example C62_dissolved : said "(a/b)/c" = Got (EPath false [child "a" []; child "b" []; child "c" []]).
Proof. vm_compute. reflexivity. Qed.

(** In the document "<r><i>a</i><i>b</i><g><i>c</i></g></r>" of C53, [(r/g)/i] is the third i. *)
Definition bracketed : expr := EPath false [FilterStep (EPath false [child "r" []; child "g" []]) []; child "i" []].
Example C62_bracketed : expression_written some_uri one_number (ascii_str "(r/g)/i") bracketed /\ allowed letters_doc false bracketed /\
  exists e, said "(r/g)/i" = Got e /\ evaluate letters_env e (0%nat, []) 1 1 = Got (VSet (Set_ [(0%nat, [Kid 0; Kid 2; Kid 0])] true true)).
Proof.
  split; [|split].
  - apply tighter_all. change (ascii_str "(r/g)/i") with ([] ++ ascii_str "(r/g)" ++ [] ++ [47] ++ [] ++ ascii_str "i"). apply with_path; [constructor|].
    apply (from_primary _ _ _ _ [] [] [47] [] [] _ [child "i" []]); [|constructor|discriminate|constructor|constructor|left; reflexivity|].
    + change (ascii_str "(r/g)") with (40 :: [] ++ ascii_str "r/g" ++ 41 :: []). apply in_brackets; [constructor| | |constructor].
      * intros [c [r [E H]]]. injection E as <- _. cbn in H. lia.
      * apply tighter_all. change (ascii_str "r/g") with ([] ++ ascii_str "r" ++ [47] ++ [] ++ ascii_str "g"). apply with_path; [constructor|]. apply relative_alone.
        apply (more_steps _ _ _ (child "r" []) [47] []); [|constructor|constructor|left; reflexivity|].
        -- change (ascii_str "r") with ([] ++ ascii_str "r" ++ [] ++ []). apply axis_step_written; [constructor|apply name_test; name_|constructor|constructor].
        -- change (ascii_str "g") with (ascii_str "g" ++ []). apply last_step; [|left; reflexivity]. change (ascii_str "g") with ([] ++ ascii_str "g" ++ [] ++ []). apply axis_step_written; [constructor|apply name_test; name_|constructor|constructor].
    + change (ascii_str "i") with (ascii_str "i" ++ []). apply last_step; [|left; reflexivity]. change (ascii_str "i") with ([] ++ ascii_str "i" ++ [] ++ []). apply axis_step_written; [constructor|apply name_test; name_|constructor|constructor].
  - repeat split; try discriminate; auto.
  - eexists. split; [vm_compute; reflexivity|vm_compute; reflexivity].
Qed.

(** Refuted: that the names of operators are read as whole words.  (XPath 3.7: the longest token;
    "order" is a name, and two names do not make an expression.) *)
Theorem C62_whole_words_refuted : said "a order" = Got (EOr (EPath false [child "a" []]) (EPath false [child "der" []])).
Proof. vm_compute. reflexivity. Qed.
Print Assumptions C62_whole_words_refuted.
(** Refuted: that white space between tokens makes no difference. *)
Theorem C62_white_space_refuted :
  said "--1" = Got (ENegate (ENegate (ENumber (S754_finite false 4503599627370496 (-52))))) /\ said "- -1" = Raises /\
  said "a/." = Got (EPath false [child "a" []; self_step]) /\ said "a/ ." = Raises /\
  said "./a" = Got (EPath false [self_step; child "a" []]) /\ said ". /a" = Raises /\
  said "processing-instruction('x')" = Got (EPath false [AxisStep Child (OfPi (ascii_str "x")) []]) /\
  said "processing-instruction( 'x')" = Got (EPath false [AxisStep Child (OfPi []) []]).
Proof. vm_compute. repeat split. Qed.
Print Assumptions C62_white_space_refuted.
(** Refuted: that a path may begin with the root in parentheses.  (It is read as a path from the
    context node.) *)
Theorem C62_root_in_brackets_refuted : said "(/)/a" = Got (EPath false [child "a" []]).
Proof. vm_compute. reflexivity. Qed.
Print Assumptions C62_root_in_brackets_refuted.
(** Refuted: that the arguments of a function are read each by itself.  (The literal that follows
    is taken for the target of the processing instructions, too.) *)
Theorem C62_arguments_refuted : said "concat(processing-instruction(),'x')" = Got (ECall Concat [EPath false [AxisStep Child (OfPi (ascii_str "x")) []]; ELiteral (ascii_str "x")]).
Proof. vm_compute. reflexivity. Qed.
Print Assumptions C62_arguments_refuted.
