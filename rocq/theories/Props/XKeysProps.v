From Coq Require Import String Sorted.
From Verif.Model Require Import Base XNode XAxis XNodeSet XKeys.
From Verif.Spec Require Import XOrder XAxisSpec XNodeSetSpec XKeysSpec.
From Verif.Proof Require Import XNodeSetProof XKeysProof.
From Verif.Props Require Import FilterProps XOrderProps XAxisProps.
From Coq Require Import List.
Import ListNotations.
Open Scope Z_scope.

(** Whatever keys are declared and whatever calls are made one after the other, in however many
    documents and whether some of them fail: a good call gives exactly the nodes that have a key
    of that name with the value, or with one of the values, each once and in document order, and
    a name that is not declared is reported.
    Partial: [good_call] leaves out patterns that match attributes, use expressions that give no
    node set, two equal use values of a node for the only key of a name, and a context node in
    another document than the current node; see the refutations. *)
Theorem C49_calls_partial : forall ss f keys calls, sorts ss -> documents f -> Forall (fun c => key_document f (fst (kc_current c))) calls ->
  exists answers, run_calls ss f (declare_keys keys) calls = Val answers /\ Forall2 (call_answer f keys) calls answers.
Proof. exact calls_ok. Qed.
Print Assumptions C49_calls_partial.

(** Two items, one with the codes a and b and one with b. *)
Definition coded (n : string) (codes : list string) : xtree :=
  Xt (info Xelement n) (map (fun v => Xt (Info Xattribute (lit "c") [] (lit "c") [] (lit v)) [] []) codes) [].
Definition codes_doc : xtree := Xt (info Xdocument "") [] [Xt (info Xelement "r") [] [coded "i" ["a"; "b"]; coded "i" ["b"]]%string].
Definition i_pattern (x : xnode) : bool := match snd x with [Kid _; Kid 0] => true | _ => false end.
(** use="@*" *)
Definition use_attributes (x : xnode) : used := match snd x with [Kid 0; Kid 0] => UseNodes [(fst x, Att 0 :: snd x); (fst x, Att 1 :: snd x)] | p => UseNodes [(fst x, Att 0 :: p)] end.
Definition code_key : str * key := (lit "k", Key [i_pattern] use_attributes).
Definition from_root (name : string) (a : key_arg) : key_call := Call (lit name) a (0%nat, []) (0%nat, []).
Definition three_calls : list key_call := [from_root "k" (ArgString (lit "b")); from_root "x" (ArgString (lit "b")); from_root "k" (ArgNodes [(0%nat, [Att 0; Kid 1; Kid 0]); (0%nat, [Att 0; Kid 0; Kid 0])])].
Example C49_codes : documents (alone codes_doc) /\ Forall (fun c => key_document (alone codes_doc) (fst (kc_current c))) three_calls /\
  good_call (alone codes_doc) [code_key] (from_root "k" (ArgString (lit "b"))) /\
  run_calls insertion_sort (alone codes_doc) (declare_keys [code_key]) three_calls =
    Val [Some [(0%nat, [Kid 0; Kid 0]); (0%nat, [Kid 1; Kid 0])]; None; Some [(0%nat, [Kid 0; Kid 0]); (0%nat, [Kid 1; Kid 0])]].
Proof.
  assert (KD : key_document (alone codes_doc) 0).
  { split; [reflexivity|]. split; [cbn; repeat split; try discriminate; repeat constructor; congruence|]. split; [reflexivity|]. cbn. repeat split; lia. }
  assert (M : forall x, matched (snd code_key) x = true -> exists n, snd x = [Kid n; Kid 0]).
  { intros (d & p). unfold matched, i_pattern. cbn. destruct p as [|[n| |] [|[[|m]| |] [|s p]]]; try discriminate. intros _. exists n. reflexivity. }
  assert (E : nodes codes_doc = [[]; [Kid 0]; [Kid 0; Kid 0]; [Att 0; Kid 0; Kid 0]; [Att 1; Kid 0; Kid 0]; [Kid 1; Kid 0]; [Att 0; Kid 1; Kid 0]]) by (vm_compute; reflexivity).
  assert (V : node_string (alone codes_doc) (0%nat, [Att 0; Kid 0; Kid 0]) = Some (lit "a") /\ node_string (alone codes_doc) (0%nat, [Att 1; Kid 0; Kid 0]) = Some (lit "b") /\ node_string (alone codes_doc) (0%nat, [Att 0; Kid 1; Kid 0]) = Some (lit "b")) by (vm_compute; auto).
  destruct V as (V1 & V2 & V3).
  split; [intros i j; cbn; lia|]. split; [repeat (apply Forall_cons; [exact KD|]); apply Forall_nil|]. split; [|vm_compute; reflexivity]. split; [reflexivity|]. split; [exact KD|]. split; [exists (snd code_key); left; reflexivity|].
  assert (CASES : forall x, fst x = 0%nat -> In (snd x) (nodes codes_doc) -> matched (snd code_key) x = true -> x = (0%nat, [Kid 0; Kid 0]) \/ x = (0%nat, [Kid 1; Kid 0])).
  { intros (d & p) X I MX. cbn [fst snd] in *. subst d. destruct (M _ MX) as (n & N). cbn in N. subst p. rewrite E in I. cbn in I. repeat (destruct I as [I|I]; [try discriminate; injection I as <-; auto|]). destruct I. }
  split.
  - intros k [K|[]]. injection K as <-. intros x X I MX. destruct (CASES x X I MX) as [->| ->]; (split; [intros (i & q & Q); discriminate|]); eexists; (split; [reflexivity|]); repeat constructor; eauto.
  - intros k K. cbn in K. injection K as <-. intros x l X I MX U. destruct (CASES x X I MX) as [->| ->]; cbn in U; injection U as <-; cbn [map]; rewrite ?V1, ?V2, ?V3; repeat constructor; cbn; intuition discriminate.
Qed.

(** match="@c" use=".": nothing is found, since only the document's elements, texts, comments
    and processing instructions are looked at. *)
Definition attribute_key : str * key := (lit "k", Key [fun x => match snd x with Att _ :: _ => true | _ => false end] (fun x => UseNodes [x])).
Theorem C49_attributes_refuted : run_calls insertion_sort (alone codes_doc) (declare_keys [attribute_key]) [from_root "k" (ArgString (lit "a"))] = Val [Some []] /\
  key_node (alone codes_doc) [attribute_key] (lit "k") (ArgString (lit "a")) 0 (0%nat, [Att 0; Kid 0; Kid 0]).
Proof.
  split; [vm_compute; reflexivity|]. split; [reflexivity|]. exists (snd attribute_key), (lit "a"). split; [left; reflexivity|]. split; [reflexivity|]. split; [vm_compute; tauto|]. split; [eexists; split; [left; reflexivity|reflexivity]|].
  cbn. eexists. split; [left; reflexivity|vm_compute; reflexivity].
Qed.
Print Assumptions C49_attributes_refuted.
(** use="string(@c)", or any other expression that gives no node set: nothing is found. *)
Definition string_key : str * key := (lit "k", Key [i_pattern] (fun x => UseOther (lit "a"))).
Theorem C49_string_use_refuted : run_calls insertion_sort (alone codes_doc) (declare_keys [string_key]) [from_root "k" (ArgString (lit "a"))] = Val [Some []] /\
  key_node (alone codes_doc) [string_key] (lit "k") (ArgString (lit "a")) 0 (0%nat, [Kid 0; Kid 0]).
Proof.
  split; [vm_compute; reflexivity|]. split; [reflexivity|]. exists (snd string_key), (lit "a"). split; [left; reflexivity|]. split; [reflexivity|]. split; [vm_compute; tauto|]. split; [eexists; split; [left; reflexivity|reflexivity]|]. reflexivity.
Qed.
Print Assumptions C49_string_use_refuted.
(** A node with two use nodes of the same value is in the result twice, so count(key(...)) is 2. *)
Definition twice_doc : xtree := Xt (info Xdocument "") [] [Xt (info Xelement "r") [] [coded "i" ["b"; "b"]]%string].
Theorem C49_twice_refuted : run_calls insertion_sort (alone twice_doc) (declare_keys [code_key]) [from_root "k" (ArgString (lit "b"))] = Val [Some [(0%nat, [Kid 0; Kid 0]); (0%nat, [Kid 0; Kid 0])]].
Proof. vm_compute. reflexivity. Qed.
Print Assumptions C49_twice_refuted.
(** The nodes come from the current node's document, not from the context node's: in
    document('b.xml')/key('k', 'b') or when a predicate is about a node of another document.
    Here the context node is in document 1, and the answer in document 0. *)
Definition two_docs : forest := Forest (fun i => match i with O => codes_doc | _ => twice_doc end) (fun i => i) (fun i => Z.of_nat i).
Theorem C49_document_refuted : run_calls insertion_sort two_docs (declare_keys [code_key]) [Call (lit "k") (ArgString (lit "a")) (1%nat, []) (0%nat, [])] = Val [Some [(0%nat, [Kid 0; Kid 0])]] /\
  ~ key_node two_docs [code_key] (lit "k") (ArgString (lit "a")) 1 (0%nat, [Kid 0; Kid 0]).
Proof. split; [vm_compute; reflexivity|]. intros (E & _). discriminate. Qed.
Print Assumptions C49_document_refuted.
(** If a use expression fails while the nodes are collected, the call is an error; the next call
    with the same stylesheet is not: it gives what was collected until then. *)
Definition failing_key : str * key := (lit "k", Key [i_pattern] (fun x => match snd x with [Kid 0; Kid 0] => use_attributes x | _ => UseThrows end)).
Theorem C49_after_error_refuted : run_calls insertion_sort (alone codes_doc) (declare_keys [failing_key]) [from_root "k" (ArgString (lit "b")); from_root "k" (ArgString (lit "b"))] = Val [None; Some [(0%nat, [Kid 0; Kid 0])]].
Proof. vm_compute. reflexivity. Qed.
Print Assumptions C49_after_error_refuted.
