From Coq Require Import String SpecFloat.
From Verif.Model Require Import Base XNode XAxis XNodeSet XCompare XStep XSort XEval XParse.
From Verif.Spec Require Import XOrder XAxisSpec XNodeSetSpec XParseSpec XStepSpec XEvalSpec XAvtSpec.
From Verif.Proof Require Import XNodeSetProof XEvalProof XParsePeg XParseMeans XParseProof XAvtProof.
From Verif.Props Require Import XAxisProps XStepProps XEvalProps XParseProps.
From Verif.Spec Require Import XStepSpec XEvalSpec XAvtSpec.
From Coq Require Import List Lia.
Import ListNotations.
Open Scope Z_scope.

(** What XSLT writes as an attribute value template, the toolkit takes, and the string it gives,
    at any node of any document, is the template with each expression replaced by its string and
    each doubled brace by one.  Partial: for the expressions of C62, the documents and paths of
    C53, when there is a value; and the template is not empty (see below). *)
Theorem C63_value_partial : forall uri number s l, template_written uri number s l -> s <> [] ->
  exists e m, (forall n, (m <= n)%nat -> compile_template n (Lexicon uri number) s = Got e) /\
  forall k d (from : bool) x position last t, sorts (e_sort k) -> documents (e_forest k) -> f_doc (e_forest k) d = d -> proper (f_tree (e_forest k) d) ->
  (forall uri name v, e_vars k uri name = Got v -> usable (e_sort k) (e_forest k) d v) ->
  fst x = d -> In (snd x) (nodes (f_tree (e_forest k) d)) -> (from = false -> ~ is_attribute (snd x)) ->
  (forall e, In (Value e) l -> allowed (f_tree (e_forest k) d) from e) ->
  evaluate_text k e x position last = Got t ->
  template_gives (conversions_of k) (e_forest k) (variables_of k) l x position last t.
Proof.
  intros uri number s l H NE. assert (l <> []) as NL by (destruct H; congruence || discriminate).
  destruct (template_compiles (Lexicon uri number) s l H NL) as [e [E [m C]]]. exists e, m. split; [exact C|].
  intros k d from x p n t SO DOC OWN PR VARS D IN NA AL EV. exact (template_value k d from l e x p n t SO DOC OWN PR VARS D IN NA AL NL E EV).
Qed.
Print Assumptions C63_value_partial.

(** In the document "<r><i>a</i><i>b</i><g><i>c</i></g></r>" of C53, at the element r. *)
Definition template : str := ascii_str "n{{{ g/i }}}-{.}".
Definition template_pieces : list piece :=
  [Words (ascii_str "n"); Words (ascii_str "{"); Value (EPath false [child "g" []; child "i" []]); Words (ascii_str "}"); Words (ascii_str "-"); Value (EPath false [self_step])].
Example C63_template : template_written some_uri one_number template template_pieces /\
  (forall e, In (Value e) template_pieces -> allowed letters_doc false e) /\
  exists e, compile_template 300 few template = Got e /\ evaluate_text letters_env e (0%nat, [Kid 0]) 1 1 = Got (ascii_str "n{c}-abc").
Proof.
  split; [|split].
  - change template with ([110] ++ 123 :: 123 :: 123 :: ascii_str " g/i " ++ 125 :: 125 :: 125 :: [45] ++ 123 :: [46] ++ 125 :: []).
    apply run_of_words; [discriminate|constructor; [intros [D|D]; discriminate D|constructor]|right; eexists; eexists; split; [reflexivity|left; reflexivity]|].
    apply left_brace. apply value_between.
    + apply tighter_all. change (ascii_str " g/i ") with ([32] ++ ascii_str "g" ++ [47] ++ [] ++ ascii_str "i "). apply with_path; [blank_|]. apply relative_alone.
      apply (more_steps _ _ _ (child "g" []) [47] []); [|constructor|constructor|left; reflexivity|].
      * change (ascii_str "g") with ([] ++ ascii_str "g" ++ [] ++ []). apply axis_step_written; [constructor|apply name_test; name_|constructor|constructor].
      * change (ascii_str "i ") with (ascii_str "i " ++ []). apply last_step; [|left; reflexivity]. change (ascii_str "i ") with ([] ++ ascii_str "i" ++ [32] ++ []). apply axis_step_written; [constructor|apply name_test; name_|blank_|constructor].
    + apply right_brace. apply run_of_words; [discriminate|constructor; [intros [D|D]; discriminate D|constructor]|right; eexists; eexists; split; [reflexivity|left; reflexivity]|].
      apply value_between; [|constructor]. apply tighter_all. change [46] with ([] ++ [46]). apply with_path; [constructor|]. apply relative_alone. change [46] with ([46] ++ []). apply last_step; [constructor|left; reflexivity].
  - intros e [D|[D|[D|[D|[D|[D|[]]]]]]]; try discriminate D; injection D as <-; repeat split; try discriminate; auto.
  - eexists. split; [vm_compute; reflexivity|vm_compute; reflexivity].
Qed.

(** A right brace that is not written twice is an error, as XSLT says. *)
Theorem C63_stray_brace : forall uri number s l r, template_written uri number s l -> ~ begins (eq 125) r ->
  exists m, forall n, (m <= n)%nat -> compile_template n (Lexicon uri number) (s ++ 125 :: r) = Raises.
Proof.
  intros uri number s l r H N. apply (template_stuck (Lexicon uri number) s l r H). destruct r as [|c r]; [exact Logic.I|]. apply XParseToken.clear_is. apply Z.eqb_neq. intros ->. apply N. eexists; eexists; split; reflexivity.
Qed.
Print Assumptions C63_stray_brace.

(** Refuted: that every template is taken.  The empty one, as in [<a href="">], is not. *)
Theorem C63_empty_refuted : template_written some_uri one_number [] [] /\ (forall k x, template_gives (conversions_of k) (e_forest k) (variables_of k) [] x 1 1 []) /\
  compile_template 300 few [] = Raises.
Proof. split; [constructor|]. split; [intros k x; exists []; split; [constructor|reflexivity]|]. vm_compute. reflexivity. Qed.
Print Assumptions C63_empty_refuted.
