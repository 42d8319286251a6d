From Coq Require Import String SpecFloat.
From Verif.Model Require Import Base XNode XAxis XNodeSet XCompare XStep XSort XEval XMatch XParse XPattern.
From Verif.Spec Require Import XOrder XAxisSpec XNodeSetSpec XStepSpec XEvalSpec XMatchSpec XParseSpec XPatternSpec.
From Verif.Proof Require Import XNodeSetProof XEvalProof XParsePeg XParseProof XMatchProof XPatternProof.
From Verif.Props Require Import XAxisProps XStepProps XEvalProps XMatchProps XParseProps.
From Verif.Spec Require Import XPatternSpec.
From Coq Require Import List Lia.
Import ListNotations.
Open Scope Z_scope.

(** What XSLT writes as a pattern, the toolkit takes: one matcher for each alternative, in their
    order, with the steps of the pattern XSLT means (the steps of C61) and, under
    [priority_right], the default priority that XSLT gives the alternative.  Partial: names are
    ASCII, paths in the predicates may differ in parentheses ([alike]), and [pattern_written]
    leaves out what the refutations below are about, and the functions id and key. *)
Theorem C64_compile_partial : forall uri number s ps, pattern_written uri number s ps ->
  exists ms m, (forall n, (m <= n)%nat -> compile_pattern n (Lexicon uri number) s = Got ms) /\
  Forall2 (fun p q => exists steps p', fst q = Path steps /\ alike (fst p) p' /\ (forall k, map (run_step k) steps = location_steps k p') /\
                      (priority_right (fst p) (snd p) -> snd q = priority_of (fst p))) ps ms.
Proof.
  intros uri number s ps H. destruct (compile_lemma (Lexicon uri number) s ps H) as [ms [[m E] F]]. exists ms, m. split; [exact E|]. clear - F. induction F as [|p q ps ms [p' [A [B C]]] F IH]; constructor; [|exact IH].
  exists (compiled p'), p'. split; [exact B|]. split; [exact A|]. split; [intro k; apply run_compiled|exact C].
Qed.
Print Assumptions C64_compile_partial.
(** From the text to the match: the matcher of each alternative answers yes exactly at the nodes
    that the alternative matches by XSLT ([is_match], as in C61).  Partial: as in C61; and the
    predicates are those of a pattern that is [alike]. *)
Theorem C64_match_partial : forall uri number s ps, pattern_written uri number s ps ->
  exists ms m, (forall n, (m <= n)%nat -> compile_pattern n (Lexicon uri number) s = Got ms) /\
  Forall2 (fun p q => exists steps p', fst q = Path steps /\ alike (fst p) p' /\ (plain (fst p) -> p' = fst p) /\
    forall k d x, sorts (e_sort k) -> documents (e_forest k) -> f_doc (e_forest k) d = d -> whole_document (f_tree (e_forest k) d) -> one_root (f_tree (e_forest k) d) ->
    location_sound k d p' -> fst x = d -> matchable (f_tree (e_forest k) d) (snd x) ->
    exists b, path_matches k steps x = Got b /\ (b = true <-> is_match k p' x)) ps ms.
Proof.
  intros uri number s ps H. destruct (compile_lemma (Lexicon uri number) s ps H) as [ms [[m E] F]]. exists ms, m. split; [exact E|]. clear - F. induction F as [|p q ps ms [p' [A [B C]]] F IH]; constructor; [|exact IH].
  exists (compiled p'), p'. split; [exact B|]. split; [exact A|]. split; [apply alike_plain, A|]. intros k d x SS DOC OWN WD ONE LS D M. unfold path_matches. rewrite run_compiled. exact (location_lemma k d SS DOC OWN WD ONE p' x LS D M).
Qed.
Print Assumptions C64_match_partial.

(** The examples have the prefix p and the number 1 (as in C62). *)
Definition pattern_said (s : string) : answer (list (matcher * spec_float)) := compile_pattern 400 few (ascii_str s).
Definition priorities (s : string) : answer (list spec_float) := andthen (pattern_said s) (fun ms => Got (map snd ms)).
Definition named (n : string) (qs : list expr) : pstep := PStep false false (Named (ascii_str n)) qs.
Definition number_one : expr := ENumber (S754_finite false 4503599627370496 (-52)).
Definition three_patterns : list (location * bool) :=
  [(Steps Anywhere (named "a" []) [(OneSlash, named "b" [number_one])], false);
   (Steps Below (PStep true false (NamedIn (ascii_str "p") (ascii_str "urn:p") (ascii_str "n")) []) [], false);
   (Steps Anywhere (PStep false false OfComment []) [], true)].
Lemma plain_step n : ncname n -> step_pattern some_uri one_number n (PStep false false (Named n) []) false.
Proof. intro N. rewrite <- (app_nil_r n) at 1. apply (test_step _ _ [] false false [] n (Named n) [] []); [constructor|constructor|apply name_test, N|discriminate|constructor|constructor|discriminate]. Qed.
Example C64_written : pattern_written some_uri one_number (ascii_str "a/b[1] |//@p:n| comment()") three_patterns.
Proof.
  change (ascii_str "a/b[1] |//@p:n| comment()") with ([] ++ ascii_str "a/b[1]" ++ [32] ++ 124 :: ascii_str "//@p:n| comment()"). apply more_patterns with (tight' := false); [constructor| |blank_|discriminate|].
  - apply anywhere_pattern; [|intros [c [r [E I]]]; injection E as <- _; cbn in I; lia]. change (ascii_str "a/b[1]") with (ascii_str "a" ++ [47] ++ ascii_str "b[1]").
    eapply step_and_more; [apply plain_step; name_|constructor|]. apply one_step. change (ascii_str "b[1]") with ([] ++ [] ++ ascii_str "b" ++ [] ++ ascii_str "[1]").
    apply (test_step _ _ [] false false [] (ascii_str "b") _ [] (ascii_str "[1]") [number_one] false); [constructor|constructor|apply name_test; name_|discriminate|constructor| |discriminate].
    change (ascii_str "[1]") with (91 :: ascii_str "1" ++ 93 :: [] ++ []). apply a_predicate; [|constructor|constructor]. apply tighter_all. change (ascii_str "1") with ([] ++ ascii_str "1" ++ []). apply with_path; [constructor|]. apply primary_alone.
    apply number_written; [|reflexivity|constructor]. apply whole. split; [discriminate|]. constructor; [unfold digit; cbn; lia|constructor].
  - change (ascii_str "//@p:n| comment()") with ([] ++ (47 :: 47 :: ascii_str "@p:n") ++ [] ++ 124 :: ascii_str " comment()"). apply more_patterns with (tight' := false); [constructor| |constructor|discriminate|].
    + apply below_pattern, one_step. change (ascii_str "@p:n") with ([64] ++ [] ++ (ascii_str "p" ++ 58 :: ascii_str "n") ++ [] ++ []). apply test_step; [constructor|constructor| |discriminate|constructor|constructor|discriminate].
      apply prefixed_test; [name_|name_|reflexivity].
    + change (ascii_str " comment()") with ([32] ++ ascii_str "comment()" ++ []). apply one_pattern with (tight' := true); [blank_| |constructor|auto]. apply anywhere_pattern; [|intros [c [r [E I]]]; injection E as <- _; cbn in I; lia]. apply one_step.
      change (ascii_str "comment()") with ([] ++ [] ++ (ascii_str "comment" ++ [] ++ 40 :: [] ++ [41]) ++ [] ++ []). apply test_step; [constructor|constructor|apply kind_test; [reflexivity|constructor|constructor]|discriminate|constructor|constructor|].
      intros _. split; [reflexivity|]. split; [|reflexivity]. repeat constructor; cbn; intros [D|[D|[D|[D|[]]]]]; discriminate D.
Qed.
Example C64_priorities : Forall (fun p => priority_right (fst p) (snd p)) three_patterns /\ priorities "a/b[1] |//@p:n| comment()" = Got [quarters 2; quarters 2; quarters (-2)].
Proof. split; [repeat constructor|vm_compute; reflexivity]. Qed.
(** The priorities of XSLT: a name 0, a prefix with a star -0.25, a kind -0.5, anything else 0.5. *)
Example C64_default_priorities :
  priorities "a|p:a|@a|processing-instruction('x')" = Got [quarters 0; quarters 0; quarters 0; quarters 0] /\ priorities "p:*|@p:*" = Got [quarters (-1); quarters (-1)] /\
  priorities "*|@*|node()|text()|comment()|processing-instruction()" = Got (repeat (quarters (-2)) 6) /\ priorities "/|//a|a/b|a[1]|@a[1]|*[1]|child::p:a[1]" = Got (repeat (quarters 2) 7).
Proof. vm_compute. repeat split. Qed.
(** In the document of C61, the pattern g/a matches only the third a. *)
Definition steps_of (s : string) : list mstep := match pattern_said s with Got [(Path l, _)] => l | _ => [] end.
Example C64_matches : pattern_said "g/a" = Got [(Path (steps_of "g/a"), quarters 2)] /\
  filter (fun x => match path_matches match_env (steps_of "g/a") (0%nat, x) with Got b => b | _ => false end) (order match_doc []) = [[Kid 0; Kid 2; Kid 0]].
Proof. split; vm_compute; reflexivity. Qed.

(** Refuted: that a blank before the bar, or at the end, makes no difference to the priority.  The
    a of "a | b" has the priority of a star, so that a template rule for "*" that comes later is
    chosen instead. *)
Theorem C64_priority_blank_refuted :
  priorities "a|b" = Got [quarters 0; quarters 0] /\ priorities "a | b" = Got [quarters (-2); quarters 0] /\ priorities "p:* " = Got [quarters (-2)] /\
  priorities "processing-instruction( )" = Got [quarters 0] /\
  pattern_written some_uri one_number (ascii_str "a | b") [(Steps Anywhere (named "a" []) [], false); (Steps Anywhere (named "b" []) [], false)] /\
  priority_of (Steps Anywhere (named "a" []) []) = quarters 0.
Proof.
  split; [vm_compute; reflexivity|]. split; [vm_compute; reflexivity|]. split; [vm_compute; reflexivity|]. split; [vm_compute; reflexivity|]. split; [|reflexivity].
  change (ascii_str "a | b") with ([] ++ ascii_str "a" ++ [32] ++ 124 :: ([32] ++ ascii_str "b" ++ [])). apply more_patterns with (tight' := false); [constructor| |blank_|discriminate|apply one_pattern with (tight' := false); [blank_| |constructor|discriminate]].
  - apply anywhere_pattern; [apply one_step, plain_step; name_|]. intros [c [r [E I]]]. injection E as <- _. cbn in I. lia.
  - apply anywhere_pattern; [apply one_step, plain_step; name_|]. intros [c [r [E I]]]. injection E as <- _. cbn in I. lia.
Qed.
Print Assumptions C64_priority_blank_refuted.
(** Refuted: that a predicate always raises the priority to 0.5. *)
Theorem C64_priority_predicate_refuted :
  priorities "a[1]" = Got [quarters 2] /\ priorities "p:a[1]" = Got [quarters 0] /\ priorities "p:*[1]" = Got [quarters (-1)] /\ priorities "processing-instruction('x')[1]" = Got [quarters 0] /\
  priority_of (Steps Anywhere (PStep false false (NamedIn (ascii_str "p") (ascii_str "urn:p") (ascii_str "a")) [number_one]) []) = quarters 2.
Proof. vm_compute. repeat split. Qed.
Print Assumptions C64_priority_predicate_refuted.
(** Refuted: that the pattern node() means the same with a blank between the parentheses.  With
    it the root matches, which is the child of no node. *)
Theorem C64_node_blank_refuted :
  pattern_said "node()" = Got [(Path (steps_of "node()"), quarters (-2))] /\ path_matches match_env (steps_of "node()") (0%nat, []) = Got false /\
  pattern_said "node( )" = Got [(Path (steps_of "node( )"), quarters (-2))] /\ path_matches match_env (steps_of "node( )") (0%nat, []) = Got true.
Proof. split; [vm_compute; reflexivity|]. split; [vm_compute; reflexivity|]. split; vm_compute; reflexivity. Qed.
Print Assumptions C64_node_blank_refuted.
(** Refuted: that every pattern of XSLT is taken. *)
Theorem C64_rejected_refuted :
  pattern_said "child ::a" = Raises /\ pattern_said "/ @a" = Raises /\ pattern_said "node() / a" = Raises /\ pattern_said "node() [1]" = Raises /\ pattern_said "id('x')/a" = Raises /\
  pattern_said "key('a','b')//c" = Raises.
Proof. vm_compute. repeat split. Qed.
Print Assumptions C64_rejected_refuted.
