(** C27: attributes of elements. *)
From Coq Require Import String.
From Verif.Model Require Import Base Chars AttrMap.
From Verif.Spec Require Import AttrMapSpec.
From Verif.Proof Require Import AttrMapProof.
From Verif.Props Require Import FilterProps.
From Coq Require Import List.
Import ListNotations.
Local Open Scope Z_scope.

(** After any calls at all, with and without namespaces: an attribute in the list of an
    element names that element as its owner, is of the same document, is listed there once,
    and is in the list of no other element. *)
Theorem C27_one_owner w e a :
  attr_reach w -> In a (e_attrs (w_elem w e)) ->
  a_owner (w_attr w a) = Some e /\ a_doc (w_attr w a) = e_doc (w_elem w e) /\
  NoDup (e_attrs (w_elem w e)) /\ forall e', In a (e_attrs (w_elem w e')) -> e' = e.
Proof.
  intros R I. assert (T := reach_tidy w R). destruct (proj2 (T e) a I) as (_ & O & _ & D). repeat split; auto; [apply T|].
  intros e' I'. destruct (proj2 (T e') a I') as (_ & O' & _). congruence.
Qed.
Print Assumptions C27_one_owner.
(** After any calls: what setAttribute replies. *)
Theorem C27_set_reply w e n v :
  attr_reach w ->
  snd (attr_call w (ASet e n v)) =
    if name_ok n then if e_ro (w_elem w e) then RThrow A_NO_MODIFICATION else RNone else RThrow A_INVALID_CHARACTER.
Proof. exact (fun R => set_reply w e n v (reach_tidy w R)). Qed.
Print Assumptions C27_set_reply.
(** After any calls: setAttribute and then getAttribute gives the value set, and what
    getAttribute gives for every other name or element is as before. *)
Theorem C27_set_get w e n v w' :
  attr_reach w -> attr_call w (ASet e n v) = (w', RNone) ->
  snd (attr_call w' (AGet e n)) = RStr v /\
  forall e' n', e' <> e \/ n' <> n -> snd (attr_call w' (AGet e' n')) = snd (attr_call w (AGet e' n')).
Proof.
  intros R E. destruct (set_then_get w e n v w' (reach_tidy w R) E) as [A B].
  assert (G : forall u x m, snd (attr_call u (AGet x m)) = RStr (says u x (name_is m))).
  { intros u x m. unfold says. cbn [attr_call]. destruct (get_by u x (name_is m)). reflexivity. }
  split; [rewrite G, A; reflexivity|]. intros e' n' N. rewrite !G, B; auto.
Qed.
Print Assumptions C27_set_get.
(** The same with namespaces, for the namespace and local name of the attribute made. *)
Theorem C27_set_get_ns w e u q v w' x :
  attr_reach w -> attr_call w (ASetNS e u q v) = (w', RNone) -> ns_attr (e_doc (w_elem w e)) u q false = inl x ->
  snd (attr_call w' (AGetNS e (uri_of x) (a_local x))) = RStr v.
Proof.
  intros R E X. assert (A := set_ns_then_get w e u q v w' x (reach_tidy w R) E X). unfold says in A.
  cbn [attr_call]. destruct (get_by w' e _). cbn in *. congruence.
Qed.
Print Assumptions C27_set_get_ns.

(** Histories of DOM Level 1 calls: every reply is what the abstract maps of
    Spec/AttrMapSpec.v give.  That map has one attribute per element and name, and one
    element per attribute. *)
Theorem C27_level1_partial docs dflt cs :
  history docs dflt first_view cs ->
  snd (attr_calls (first_world docs dflt) cs) = snd (calls_spec docs dflt first_view cs).
Proof. exact (fun H => proj2 (shows_calls docs dflt cs _ _ (shows_first docs dflt) H)). Qed.
Print Assumptions C27_level1_partial.
(** In particular an element never has two attributes with one name. *)
Theorem C27_level1_names_partial docs dflt cs e :
  history docs dflt first_view cs ->
  let w := fst (attr_calls (first_world docs dflt) cs) in
  NoDup (map (fun a => a_name (w_attr w a)) (e_attrs (w_elem w e))).
Proof. exact (fun H => sh_names docs dflt _ _ (proj1 (shows_calls docs dflt cs _ _ (shows_first docs dflt) H)) e). Qed.
Print Assumptions C27_level1_names_partial.
(** Histories of DOM Level 2 calls, where no defaults are declared: an element never has
    two attributes with one namespace and local name. *)
Theorem C27_level2_names_partial w e :
  reach2 w -> NoDup (map (fun a => (a_uri (w_attr w a), a_local (w_attr w a))) (e_attrs (w_elem w e))).
Proof. exact (fun R => proj2 (proj1 (proj2 (reach2_named w R))) e). Qed.
Print Assumptions C27_level2_names_partial.

(** * Examples *)
Definition no_defaults : nat -> list default_attr := fun _ => [].
Definition docs2 : nat -> nat := fun e => if Nat.ltb e 5 then 0%nat else 1%nat.
Definition colour : nat -> list default_attr := fun e => [Default (lit "colour") (lit "red")].
Fixpoint passes (w : world) (cs : list acall) : bool :=
  match cs with
  | [] => true
  | c :: r => forallb (fun a => Nat.ltb a (w_next w)) (passed c) && passes (fst (attr_call w c)) r
  end.
Lemma passes_reach : forall cs w, attr_reach w -> passes w cs = true -> attr_reach (fst (attr_calls w cs)).
Proof.
  induction cs as [|c cs IH]; intros w R P; cbn [attr_calls]; [exact R|]. cbn [passes] in P. apply andb_true_iff in P. destruct P as [P1 P2].
  assert (R1 : attr_reach (fst (attr_call w c))).
  { apply ar_call; [exact R|]. apply Forall_forall. intros a I. apply Nat.ltb_lt. rewrite forallb_forall in P1. apply P1, I. }
  destruct (attr_call w c) as [w1 x]. cbn [fst] in *. specialize (IH w1 R1 P2). destruct (attr_calls w1 cs). exact IH.
Qed.
Definition later (dflt : nat -> list default_attr) (cs : list acall) : world := fst (attr_calls (first_world docs2 dflt) cs).
Ltac attr_reached := apply passes_reach; [apply ar_first|vm_compute; reflexivity].
Lemma later_reach dflt cs : passes (first_world docs2 dflt) cs = true -> attr_reach (later dflt cs).
Proof. intro P. apply passes_reach; [apply ar_first|exact P]. Qed.

(** A history with replacement, removal bringing a default back, and exceptions. *)
Definition busy : list acall :=
  [ASet 1 (lit "id") (lit "x"); ACreate 0 (lit "id"); AAppendText 1 (lit "y"); AAppendText 1 (lit "z"); ASetNode 1 1;
   AGet 1 (lit "id"); ASetNode 2 1; ASetNode 2 0; AGet 2 (lit "id"); ASet 1 (lit "colour") (lit "blue");
   ARemove 1 (lit "colour"); AGet 1 (lit "colour"); ARemoveNode 1 1; AHas 1 (lit "id"); ARemove 1 (lit "nothing");
   AFreeze 2; ASet 2 (lit "id") (lit "w"); ASetValue 0 (lit "w"); ASet 1 (lit "a b") []].
Example C27_level1_nonvacuous : history docs2 colour first_view busy /\
  snd (attr_calls (first_world docs2 colour) busy) =
    [RNone; RAttr (Some 1%nat); RNone; RNone; RAttr (Some 0%nat); RStr (lit "yz"); RThrow A_INUSE; RAttr None; RStr (lit "x");
     RNone; RNone; RStr (lit "red"); RAttr (Some 1%nat); RBool false; RThrow A_NOT_FOUND; RNone; RThrow A_NO_MODIFICATION;
     RThrow A_NO_MODIFICATION; RThrow A_INVALID_CHARACTER].
Proof.
  split; [|vm_compute; reflexivity]. cbn [history busy].
  repeat match goal with |- _ /\ _ => split | |- True => exact I end; vm_compute; try reflexivity; repeat split; try lia; auto.
Qed.
Definition namespaced : list acall :=
  [ASetNS 1 (lit "u") (lit "p:a") (lit "1"); ASetNS 1 (lit "v") (lit "p:a") (lit "2"); ASetNS 1 [] (lit "a") (lit "3");
   ASetNS 1 (lit "u") (lit "q:a") (lit "4"); ACreateNS 0 (lit "v") (lit "a"); ASetNodeNS 1 4; ARemoveNS 1 [] (lit "a");
   AGetNS 1 (lit "u") (lit "a"); ASetNS 1 [] (lit "p:b") []].
Example C27_level2_nonvacuous :
  reach2 (later no_defaults namespaced) /\
  snd (attr_calls (first_world docs2 no_defaults) namespaced) =
   [RNone; RNone; RNone; RNone; RAttr (Some 4%nat); RAttr (Some 1%nat); RNone; RStr (lit "4"); RThrow A_NAMESPACE] /\
  e_attrs (w_elem (later no_defaults namespaced) 1) = [3; 4]%nat.
Proof.
  split; [|split; vm_compute; reflexivity]. unfold later.
  assert (G : forall cs w, reach2 w -> forallb level2 cs = true -> passes w cs = true -> reach2 (fst (attr_calls w cs))).
  { induction cs as [|c cs IH]; intros w R L P; cbn [attr_calls]; [exact R|]. cbn [passes] in P. apply andb_true_iff in P. destruct P as [P1 P2].
    cbn [forallb] in L. apply andb_true_iff in L. destruct L as [L1 L2].
    assert (R1 : reach2 (fst (attr_call w c))).
    { apply r2_call; auto. apply Forall_forall. intros a I. apply Nat.ltb_lt. rewrite forallb_forall in P1. apply P1, I. }
    destruct (attr_call w c) as [w1 x]. cbn [fst] in *. specialize (IH w1 R1 L2 P2). destruct (attr_calls w1 cs). exact IH. }
  apply G; [apply r2_first|vm_compute; reflexivity|vm_compute; reflexivity].
Qed.
Example C27_set_get_ns_nonvacuous : exists w', attr_call (later no_defaults namespaced) (ASetNS 1 (lit "u") (lit "r:a") (lit "5")) = (w', RNone)
  /\ attr_reach (later no_defaults namespaced) /\
  match ns_attr 0 (lit "u") (lit "r:a") false with inl x => uri_of x = lit "u" /\ a_local x = lit "a" | inr _ => False end.
Proof.
  exists (fst (attr_call (later no_defaults namespaced) (ASetNS 1 (lit "u") (lit "r:a") (lit "5")))).
  split; [|split; [apply later_reach; vm_compute; reflexivity|vm_compute; auto]].
  destruct (attr_call (later no_defaults namespaced) _) as [w' r] eqn:E.
  assert (X : r = RNone) by (change r with (snd (w', r)); rewrite <- E; vm_compute; reflexivity). rewrite X. reflexivity.
Qed.

(** * Where the property fails *)
(** The data of the attribute's text is changed after the value has been read once: the
    old value is given for ever. *)
Theorem C27_stale_value_refuted : exists w, attr_reach w /\
  a_texts (w_attr w 0%nat) = [lit "new"] /\ snd (attr_call w (AGet 1 (lit "a"))) = RStr (lit "old").
Proof.
  exists (later no_defaults [ASet 1 (lit "a") (lit "old"); AGet 1 (lit "a"); AEditText 0 0 (lit "new")]).
  split; [apply later_reach|split]; vm_compute; reflexivity.
Qed.
Print Assumptions C27_stale_value_refuted.
(** Two attributes with the same name, made without and with a namespace. *)
Theorem C27_same_name_refuted : exists w, attr_reach w /\
  map (fun a => a_name (w_attr w a)) (e_attrs (w_elem w 1%nat)) = [lit "a"; lit "a"].
Proof.
  exists (later no_defaults [ASet 1 (lit "a") (lit "x"); ASetNS 1 (lit "u") (lit "a") (lit "y")]).
  split; [apply later_reach|]; vm_compute; reflexivity.
Qed.
Print Assumptions C27_same_name_refuted.
(** Two attributes of one namespace each, with the same name after setPrefix. *)
Theorem C27_prefix_same_name_refuted : exists w, reach2 w /\
  map (fun a => a_name (w_attr w a)) (e_attrs (w_elem w 1%nat)) = [lit "q:a"; lit "q:a"].
Proof.
  set (w0 := first_world docs2 (fun _ => [])).
  set (w1 := fst (attr_call w0 (ASetNS 1 (lit "u") (lit "p:a") (lit "x")))).
  set (w2 := fst (attr_call w1 (ASetNS 1 (lit "v") (lit "q:a") (lit "x")))).
  exists (fst (attr_call w2 (ASetPrefix 0 (lit "q")))).
  split; [|vm_compute; reflexivity]. apply r2_call; [|reflexivity|constructor; [vm_compute; lia|constructor]].
  apply r2_call; [|reflexivity|constructor]. apply r2_call; [|reflexivity|constructor]. apply r2_first.
Qed.
Print Assumptions C27_prefix_same_name_refuted.
(** setAttributeNodeNS with an attribute made by createAttribute: it takes the place of an
    attribute with a different name. *)
Theorem C27_node_ns_level1_refuted : exists w, attr_reach w /\
  snd (attr_call w (AGet 1 (lit "a"))) = RStr (lit "x") /\ a_name (w_attr w 1%nat) = lit "b" /\
  let w' := fst (attr_call w (ASetNodeNS 1 1)) in
  snd (attr_call w (ASetNodeNS 1 1)) = RAttr (Some 0%nat) /\
  snd (attr_call w' (AHas 1 (lit "a"))) = RBool false /\ snd (attr_call w' (AHas 1 (lit "b"))) = RBool true.
Proof.
  exists (later no_defaults [ASet 1 (lit "a") (lit "x"); ACreate 0 (lit "b")]).
  split; [apply later_reach; vm_compute; reflexivity|]. repeat split; vm_compute; reflexivity.
Qed.
Print Assumptions C27_node_ns_level1_refuted.
(** The same happens to declared defaults: an element with two of them is made with the
    last one only. *)
Definition two_defaults : nat -> list default_attr := fun _ => [Default (lit "a") (lit "1"); Default (lit "b") (lit "2")].
Theorem C27_defaults_refuted : exists w, attr_reach w /\
  e_attrs (w_elem (first_world docs2 two_defaults) 1%nat) = [] /\
  w = fst (attr_call (first_world docs2 two_defaults) (ADefaults 1)) /\
  snd (attr_call w (AHas 1 (lit "a"))) = RBool false /\ snd (attr_call w (AGet 1 (lit "b"))) = RStr (lit "2").
Proof.
  eexists. split; [|split; [reflexivity|split; [reflexivity|split; vm_compute; reflexivity]]].
  apply ar_call; [apply ar_first|constructor].
Qed.
Print Assumptions C27_defaults_refuted.
(** removeAttributeNode with an attribute that was replaced: its successor is removed, and
    the call reports success. *)
Theorem C27_remove_node_refuted : exists w, attr_reach w /\
  snd (attr_call w (AGetNode 1 (lit "a"))) = RAttr (Some 1%nat) /\
  snd (attr_call w (ARemoveNode 1 0)) = RAttr (Some 0%nat) /\
  snd (attr_call (fst (attr_call w (ARemoveNode 1 0))) (AHas 1 (lit "a"))) = RBool false.
Proof.
  exists (later no_defaults [ASet 1 (lit "a") (lit "x"); ASet 1 (lit "a") (lit "y")]).
  split; [apply later_reach; vm_compute; reflexivity|]. repeat split; vm_compute; reflexivity.
Qed.
Print Assumptions C27_remove_node_refuted.
(** setAttributeNode with an attribute of another document: the exception leaves the
    attribute owned by an element that does not have it, and no element can take it. *)
Theorem C27_wrong_document_refuted : exists w, attr_reach w /\ is_orphaned (w_attr w 0%nat) = true /\
  let w' := fst (attr_call w (ASetNode 7 0)) in
  snd (attr_call w (ASetNode 7 0)) = RThrow A_WRONG_DOCUMENT /\
  a_owner (w_attr w' 0%nat) = Some 7%nat /\ snd (attr_call w' (AHas 7 (lit "a"))) = RBool false /\
  snd (attr_call w' (ASetNode 1 0)) = RThrow A_INUSE /\ snd (attr_call w (ASetNode 1 0)) = RAttr None.
Proof.
  exists (later no_defaults [ACreate 0 (lit "a")]).
  split; [apply later_reach; vm_compute; reflexivity|]. repeat split; vm_compute; reflexivity.
Qed.
Print Assumptions C27_wrong_document_refuted.
