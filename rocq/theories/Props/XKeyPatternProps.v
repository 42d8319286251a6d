From Coq Require Import String Floats.SpecFloat.
From Verif.Model Require Import Base XNode XAxis XNodeSet XStep XSort XParse XPattern XKeys XKeyPattern.
From Verif.Spec Require Import XmlChars XAxisSpec XParseSpec XNodeSetSpec XKeysSpec XKeyPatternSpec.
From Verif.Proof Require Import XNodeSetProof XKeyPatternProof TextProof.
From Verif.Props Require Import FilterProps XOrderProps XAxisProps XKeysProps.
From Coq Require Import List. Import ListNotations. Open Scope Z_scope.

(** However the call is written, a pattern that is key('name', 'value') compiles, to a pattern
    with that name and value and the priority 0.5. *)
Theorem C80_compiles : forall x current s name value, key_written s name value ->
  exists k, forall n, (k <= n)%nat -> stylesheet_pattern n x current s = Got [(IdKey (lit "key") [name; value], half)].
Proof. exact key_compiles. Qed.
Print Assumptions C80_compiles.

(** Whatever keys are declared and whatever nodes are tried with whatever such patterns one after
    the other, in however many documents and whether some tries fail: a node matches exactly if it
    has a key of that name with that value, and a name that is not declared is reported.
    Partial: [good_keys] leaves out keys that match attributes or whose use is no node set, and
    [key_called] names whose prefix is not declared; see the refutations. *)
Theorem C80_matches_partial : forall ss f namespaces keys tries, sorts ss -> documents f -> Forall (fun a => key_document f (fst (at_node a))) tries ->
  exists answers, run_tries ss f namespaces (declare_keys keys) tries = Val answers /\ Forall2 (attempt_answer f namespaces keys) tries answers.
Proof. intros. apply tries_ok; assumption. Qed.
Print Assumptions C80_matches_partial.

(** The items coded b, tried on three nodes; a name that is not declared; and the item that has
    the code twice, where key() itself gives it twice (C49_twice_refuted). *)
Definition no_prefixes (p : str) : option str := None.
Definition item_tries : list attempt :=
  [Attempt (lit "k") (lit "a") (0%nat, [Kid 0; Kid 0]); Attempt (lit "k") (lit "a") (0%nat, [Kid 1; Kid 0]);
   Attempt (lit "x") (lit "a") (0%nat, [Kid 0; Kid 0]); Attempt (lit "k") (lit "b") (0%nat, [Kid 1; Kid 0]);
   Attempt (lit "k") (lit "b") (1%nat, [Kid 0; Kid 0])].
Example C80_items : documents two_docs /\ Forall (fun a => key_document two_docs (fst (at_node a))) item_tries /\
  key_called no_prefixes (lit "k") (lit "k") /\ good_keys two_docs [code_key] (lit "k") (0%nat, [Kid 0; Kid 0]) /\
  run_tries insertion_sort two_docs no_prefixes (declare_keys [code_key]) item_tries = Val [Some true; Some false; None; Some true; Some true].
Proof.
  assert (KD : key_document two_docs 0).
  { split; [reflexivity|]. split; [cbn; repeat split; try discriminate; repeat constructor; congruence|]. split; [reflexivity|]. cbn. repeat split; lia. }
  assert (KE : key_document two_docs 1).
  { split; [reflexivity|]. split; [cbn; repeat split; try discriminate; repeat constructor; congruence|]. split; [reflexivity|]. cbn. repeat split; lia. }
  split; [intros i j; cbn; lia|]. split; [repeat (apply Forall_cons; [assumption|]); apply Forall_nil|].
  split; [apply Called_plain, TextProof.ncname_spec; vm_compute; reflexivity|]. split; [|vm_compute; reflexivity].
  split; [exists (snd code_key); left; reflexivity|]. destruct C49_codes as [_ [_ [[_ [_ [_ [PL _]]]] _]]]. 
  intros k K [d p] X I M. cbn [fst snd] in *. subst d. destruct (PL k K (0%nat, p) eq_refl I M) as [NA [l [U F]]]. split; [exact NA|]. exists l. split; [exact U|].
  assert (Forall (fun y => fst y = 0%nat) l) as Z.
  { destruct K as [K|[]]. injection K as <-. cbn in U. unfold use_attributes in U. cbn [snd fst] in U.
    repeat match type of U with context [match ?e with _ => _ end] => destruct e end; injection U as <-; repeat constructor. }
  rewrite Forall_forall in *. intros [d q] Y. specialize (F _ Y). specialize (Z _ Y). cbn in Z. subst d. exact F.
Qed.
(** key( "k" ,'a') *)
Example C80_written : key_written (lit " key( ""k"" ,'a')") (lit "k") (lit "a") /\
  stylesheet_pattern 60 (Lexicon (fun _ => None) (fun _ => None)) true (lit " key( ""k"" ,'a')") = Got [(IdKey (lit "key") [lit "k"; lit "a"], half)].
Proof.
  split; [|vm_compute; reflexivity].
  apply (Key_written (lit " ") (lit "k") (lit "a") (lit " ") (lit " ") [] [] (lit """k""") (lit "'a'") []); try solve [repeat constructor; cbn; tauto].
  - apply (quoted 34 (lit "k")); [left; reflexivity|cbn; intuition discriminate].
  - apply (quoted 39 (lit "a")); [right; reflexivity|cbn; intuition discriminate].
Qed.

(** id('x') is a pattern too, but none compiles: there is no such function. *)
Theorem C80_id_refuted : forall x current s value, id_written s value ->
  exists k, forall n, (k <= n)%nat -> stylesheet_pattern n x current s = Raises.
Proof. exact id_raises. Qed.
Print Assumptions C80_id_refuted.
Example C80_id : id_written (lit "id('x')") (lit "x").
Proof. apply (Id_written [] (lit "x") [] [] (lit "'x'") []); try apply Forall_nil. apply (quoted 39 (lit "x")); [right; reflexivity|cbn; intuition discriminate]. Qed.

(** A prefix that is not declared is passed over, so the key of no namespace is found. *)
Theorem C80_prefix_refuted : run_tries insertion_sort (alone codes_doc) no_prefixes (declare_keys [code_key]) [Attempt (lit "u:k") (lit "a") (0%nat, [Kid 0; Kid 0])] = Val [Some true] /\
  forall name, ~ key_called no_prefixes (lit "u:k") name.
Proof.
  split; [vm_compute; reflexivity|]. intros name C. inversion C as [n N E1 E2|p n u P N D U E1 E2]; [|discriminate D].
  assert (Text.is_ncname (lit "u:k") = true) as T by (apply TextProof.ncname_spec; exact N). discriminate T.
Qed.
Print Assumptions C80_prefix_refuted.
(** An attribute that has a key, and an item with a use that is a string, do not match. *)
Theorem C80_attributes_refuted : run_tries insertion_sort (alone codes_doc) no_prefixes (declare_keys [attribute_key]) [Attempt (lit "k") (lit "a") (0%nat, [Att 0; Kid 0; Kid 0])] = Val [Some false] /\
  has_named_key (alone codes_doc) [attribute_key] (lit "k") (lit "a") (0%nat, [Att 0; Kid 0; Kid 0]).
Proof. split; [vm_compute; reflexivity|]. destruct C49_attributes_refuted as [_ [_ [k [v [K [-> H]]]]]]. exists k. split; assumption. Qed.
Print Assumptions C80_attributes_refuted.
Theorem C80_string_use_refuted : run_tries insertion_sort (alone codes_doc) no_prefixes (declare_keys [string_key]) [Attempt (lit "k") (lit "a") (0%nat, [Kid 0; Kid 0])] = Val [Some false] /\
  has_named_key (alone codes_doc) [string_key] (lit "k") (lit "a") (0%nat, [Kid 0; Kid 0]).
Proof. split; [vm_compute; reflexivity|]. destruct C49_string_use_refuted as [_ [_ [k [v [K [-> H]]]]]]. exists k. split; assumption. Qed.
Print Assumptions C80_string_use_refuted.
