From Coq Require Import String SpecFloat.
From Verif.Model Require Import Base XNode XAxis XNodeSet XCompare XStep XEval.
From Verif.Spec Require Import XOrder XAxisSpec XNodeSetSpec XCompareSpec XStepSpec XEvalSpec.
From Verif.Proof Require Import XNodeSetProof XStepProof XEvalProof.
From Verif.Props Require Import FilterProps XOrderProps XAxisProps XStepProps.
From Coq Require Import List.
Import ListNotations.
Open Scope Z_scope.

(** The value of an expression of any size is the value it has by the specification: of its
    operators, functions, variables, paths and predicates, however they are nested.  A set holds
    nodes of the document, each once.  Partial: in one document as described by [proper], with
    paths as described by [allowed], and where the parts of C39, C41 and C42 are settled.
    Reading and writing numbers is left to [conversions_of k]. *)
Theorem C53_evaluate_partial : forall k d (from : bool) e x position last v,
  sorts (e_sort k) -> documents (e_forest k) -> f_doc (e_forest k) d = d -> proper (f_tree (e_forest k) d) ->
  (forall uri name v, e_vars k uri name = Got v -> usable (e_sort k) (e_forest k) d v) ->
  fst x = d -> In (snd x) (nodes (f_tree (e_forest k) d)) -> (from = false -> ~ is_attribute (snd x)) -> allowed (f_tree (e_forest k) d) from e ->
  evaluate k e x position last = Got v ->
  (forall s, v = VSet s -> NoDup (s_nodes s) /\ forall y, In y (s_nodes s) -> fst y = d /\ In (snd y) (nodes (f_tree (e_forest k) d))) /\
  exists w, means (conversions_of k) (e_forest k) (variables_of k) e x position last w /\ same_value v w.
Proof. exact evaluate_lemma. Qed.
Print Assumptions C53_evaluate_partial.

(** With r = "<r><i>a</i><i>b</i><g><i>c</i></g></r>": count(//i[. = 'c' or position() = 1]) is
    2, and concat(/r/i[last()], name(//g/i)) is "bi". *)
Definition leaf (s : string) : xtree := el "i" [Xt (Info Xtext (lit "#text") [] [] [] (lit s)) [] []].
Definition letters_doc : xtree := Xt (info Xdocument "") [] [el "r" [leaf "a"; leaf "b"; el "g" [leaf "c"]]].
Definition letters_env : env := Env (fun _ => S754_nan) (fun _ => []) (fun _ _ => Raises) insertion_sort (alone letters_doc).
Definition all_i (qs : list expr) : expr := EPath true [AxisStep DescendantOrSelf OfNode []; AxisStep Child (Named (lit "i")) qs].
Definition here : expr := EPath false [AxisStep Self OfNode []].
Definition counted : expr := ECall Count [all_i [EOr (ERel OpEq here (ELiteral (lit "c"))) (ERel OpEq (ECall Position []) (ENumber (of_Z 1)))]].
Definition joined : expr := ECall Concat [EPath true [AxisStep Child (Named (lit "r")) []; AxisStep Child (Named (lit "i")) [ECall Last []]];
  ECall Name [EPath true [AxisStep DescendantOrSelf OfNode []; AxisStep Child (Named (lit "g")) []; AxisStep Child (Named (lit "i")) []]]].
Example C53_letters : proper letters_doc /\ documents (alone letters_doc) /\ allowed letters_doc false counted /\ allowed letters_doc false joined /\
  evaluate letters_env counted (0%nat, []) 1 1 = Got (VNum (of_Z 2)) /\ evaluate letters_env joined (0%nat, []) 1 1 = Got (VStr (lit "bi")).
Proof.
  split.
  - split.
    + split; [reflexivity|]. split; [cbn; repeat split; try discriminate; try (repeat constructor); congruence|]. split; [cbn; repeat split; lia|]. split; [vm_compute; reflexivity|]. split.
      * intros p u I U. cbn in I. repeat (destruct I as [<-|I]; [vm_compute in U; injection U as <-; discriminate|]). contradiction.
      * intros i p u k I. cbn in I. repeat (destruct I as [I|I]; [discriminate|]). contradiction.
    + split; [vm_compute; intuition discriminate|].
      intros p u I U. cbn in I. repeat (destruct I as [<-|I]; [vm_compute in U; injection U as <-; split; [reflexivity|discriminate]|]). contradiction.
  - split; [intros i j; cbn; lia|]. split; [repeat split; try discriminate; try (left; discriminate); auto|]. split; [repeat split; try discriminate; auto|]. split; vm_compute; reflexivity.
Qed.
