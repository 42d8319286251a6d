From Coq Require Import String SpecFloat Sorted Permutation.
From Verif.Model Require Import Base XNode XAxis XNodeSet XNumber XCompare XStep XEval Template XSort.
From Verif.Spec Require Import XOrder XNodeSetSpec XSortSpec.
From Verif.Proof Require Import XAxisWalks XNodeSetProof XSortProof.
From Verif.Props Require Import FilterProps XOrderProps XAxisProps XNodeSetProps XStepProps XEvalProps.
From Coq Require Import List.
Import ListNotations.
Open Scope Z_scope.

(** Whatever the keys, NaN among them or not, the comparison that sorting uses is a strict weak
    order. *)
Theorem C46_strict_weak : forall ks last l, strict_weak (sort_less ks last) l.
Proof. exact less_strict_weak. Qed.
Print Assumptions C46_strict_weak.
(** Sorting gives the same nodes, in the order of the keys, those that the keys do not tell
    apart in document order.  Partial: the nodes are in document order to begin with, and the
    keys do not depend on position() and last(). *)
Theorem C46_sort_partial : forall ss f l last s, l <> [] -> Forall valid l -> Forall position_free l -> StronglySorted (precedes f) (s_nodes s) ->
  exists r, sort_nodes ss f l last s = Some r /\ Permutation (s_nodes s) (s_nodes r) /\
  StronglySorted (fun x y => forall n px py, sorted_before l n x px y py \/ (~ sorted_before l n y py x px /\ precedes f x y)) (s_nodes r).
Proof. exact sort_document. Qed.
Print Assumptions C46_sort_partial.
(** Of any list: those not told apart stay in the order of the list. *)
Theorem C46_stable_partial : forall ss f l last s, l <> [] -> Forall valid l -> Forall position_free l ->
  exists r, sort_nodes ss f l last s = Some r /\ Permutation (s_nodes s) (s_nodes r) /\
  StronglySorted (fun x y => forall n px py, sorted_before l n x px y py \/ (~ sorted_before l n y py x px /\ before (s_nodes s) x y)) (s_nodes r).
Proof. exact sort_lemma. Qed.
Print Assumptions C46_stable_partial.
(** Without xsl:sort: document order. *)
Theorem C46_no_sort : forall ss f last s, sorts ss -> documents f -> made ss f s ->
  exists r, sort_nodes ss f [] last s = Some r /\ (forall x, In x (s_nodes r) <-> In x (s_nodes s)) /\ StronglySorted (precedes f) (s_nodes r).
Proof. exact unsorted_lemma. Qed.
Print Assumptions C46_no_sort.
(** Other values of the attributes are rejected. *)
Theorem C46_invalid : forall ss f l last s, ~ Forall valid l -> sort_nodes ss f l last s = None.
Proof. exact invalid_lemma. Qed.
Print Assumptions C46_invalid.

(** The ancestors of an item, sorted by a key that is the same for all: not in document order. *)
Definition by_nothing : sort_element := SortElement (fun _ _ _ => []) (fun _ _ _ => S754_nan) (ascii_str "text") (ascii_str "ascending") (ascii_str "upper-first").
Theorem C46_reverse_axis_refuted : exists d e x s r, evaluate (Env (fun _ => S754_nan) (fun _ => []) (fun _ _ => Raises) insertion_sort (alone d)) e x 1 1 = Got (VSet s) /\
  valid by_nothing /\ position_free by_nothing /\ sort_nodes insertion_sort (alone d) [by_nothing] 1 s = Some r /\ ~ StronglySorted (precedes (alone d)) (s_nodes r).
Proof.
  exists letters_doc, (EPath false [AxisStep Ancestor OfNode []]), (0%nat, [Kid 0; Kid 2; Kid 0]), (Set_ [(0%nat, [Kid 2; Kid 0]); (0%nat, [Kid 0]); (0%nat, [])] false true), (Set_ [(0%nat, [Kid 2; Kid 0]); (0%nat, [Kid 0]); (0%nat, [])] false true).
  split; [vm_compute; reflexivity|]. split; [unfold valid; cbn; auto|]. split; [intros x p n p' n'; split; reflexivity|]. split; [vm_compute; reflexivity|]. intros H. cbn [s_nodes] in H. inversion H as [|? ? _ F]; subst. inversion F as [|? ? P _]; subst. revert P. unfold precedes. cbn [fst snd Nat.eqb]. intros P. apply (no_cycle _ _ _ P).
  exists (firstn 1 (order letters_doc [])), (firstn 4 (skipn 2 (order letters_doc []))), (skipn 7 (order letters_doc [])). vm_compute. reflexivity.
Qed.
Print Assumptions C46_reverse_axis_refuted.
(** A key by position(), descending, does not reverse the nodes. *)
Definition by_position : sort_element := SortElement (fun _ _ _ => []) (fun _ p _ => of_Z p) (ascii_str "number") (ascii_str "descending") (ascii_str "upper-first").
Theorem C46_position_refuted : exists s r, valid by_position /\ sort_nodes insertion_sort (alone letters_doc) [by_position] 2 s = Some r /\
  s_nodes s = [(0%nat, [Kid 0; Kid 0]); (0%nat, [Kid 1; Kid 0])] /\ sorted_before [by_position] 2 (0%nat, [Kid 1; Kid 0]) 2 (0%nat, [Kid 0; Kid 0]) 1 /\ s_nodes r = s_nodes s.
Proof.
  eexists (Set_ [(0%nat, [Kid 0; Kid 0]); (0%nat, [Kid 1; Kid 0])] true true), (Set_ [(0%nat, [Kid 0; Kid 0]); (0%nat, [Kid 1; Kid 0])] true true). split; [unfold valid; cbn; auto|]. split; [vm_compute; reflexivity|]. split; [reflexivity|]. split; [|reflexivity]. left. right. vm_compute. reflexivity.
Qed.
Print Assumptions C46_position_refuted.

(** Nodes 0 to 4 of a list with the numbers 2, NaN, 1, 2, NaN and the names b, a, c, a, a: sorted
    by number, descending, then by name. *)
Definition sample (i : nat) : xnode := (0%nat, [Kid i]).
Definition number_of (x : xnode) : spec_float := match snd x with [Kid i] => nth i [of_Z 2; S754_nan; of_Z 1; of_Z 2; S754_nan] S754_nan | _ => S754_nan end.
Definition name_of (x : xnode) : str := match snd x with [Kid i] => nth i [lit "b"; lit "a"; lit "c"; lit "a"; lit "a"] [] | _ => [] end.
Definition two_keys : list sort_element := [SortElement (fun x _ _ => name_of x) (fun x _ _ => number_of x) (ascii_str "number") (ascii_str "descending") (ascii_str "upper-first");
  SortElement (fun x _ _ => name_of x) (fun x _ _ => number_of x) (ascii_str "text") (ascii_str "ascending") (ascii_str "lower-first")].
Definition five_leaves : xtree := Xt (info Xdocument "") [] [leaf "b"; leaf "a"; leaf "c"; leaf "a"; leaf "a"].
Example C46_two_keys : Forall valid two_keys /\ Forall position_free two_keys /\ StronglySorted (precedes (alone five_leaves)) (map sample [0; 1; 2; 3; 4]%nat) /\
  sort_nodes insertion_sort (alone five_leaves) two_keys 1 (Set_ (map sample [0; 1; 2; 3; 4]%nat) true true) = Some (Set_ (map sample [3; 0; 2; 1; 4]%nat) true true).
Proof.
  split; [constructor; [unfold valid; cbn; auto|constructor; [unfold valid; cbn; auto|constructor]]|]. split; [repeat constructor|]. split; [|vm_compute; reflexivity].
  repeat constructor; match goal with |- precedes _ (sample ?i) (sample ?j) => let o := constr:(order five_leaves []) in
    unfold precedes, sample; cbn [fst snd Nat.eqb f_tree alone]; exists (firstn (1 + 2 * i) o), (firstn (2 * j - 2 * i - 1) (skipn (2 + 2 * i) o)), (skipn (2 + 2 * j) o); vm_compute; reflexivity end.
Qed.
