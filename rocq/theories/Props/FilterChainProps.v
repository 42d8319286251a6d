(** C79: filters above readers, and the features of both. *)
From Coq Require Import String.
From Verif.Model Require Import Base FilterChain XSort.
From Verif.Spec Require Import FilterChainSpec.
From Verif.Proof Require Import FilterChainProof.
From Coq Require Import List Bool ZArith Lia.
Import ListNotations.

(** However many filters are above a reader: a feature set on one of them is the feature that each
    of them tells, and nothing but the reader changes. *)
Theorem C79_feature : forall h a l b r n v a' l', above h a l b r -> above h a' l' b r -> r_parsing r = false ->
  In n [namespaces_name; prefixes_name; general_name; parameter_name] -> forall f, (length l < f)%nat -> exists h',
  set_feature f h a n v = Val (inl h') /\ (forall f', (length l' < f')%nat -> get_feature f' h' a' n = Val (inl v)) /\ forall x, x <> b -> h' x = h x.
Proof. exact feature_lemma. Qed.
Print Assumptions C79_feature.
(** Filters tell of any feature, and refuse to, as the reader does. *)
Theorem C79_asked : forall h a l b r n, above h a l b r -> forall f, (length l < f)%nat ->
  get_feature f h a n = Val (reader_get r n).
Proof. exact get_above. Qed.
Print Assumptions C79_asked.
(** No feature is set while the reader parses. *)
Theorem C79_parsing : forall h a l b r n v f, above h a l b r -> r_parsing r = true -> (length l < f)%nat ->
  exists x, set_feature f h a n v = Val (inr x).
Proof. exact parsing_lemma. Qed.
Print Assumptions C79_parsing.
(** A parse through filters: each event goes through each of them once, from the reader up, and to
    the handler that was set on the filter that was asked to parse; whatever handlers were set on
    the others, or on the reader.  It ends with the first event at which a handler throws.  All else
    is as it was, and without an exception the reader is ready again.  Partial: handlers of that
    filter that are themselves filters. *)
Theorem C79_delivered_partial : forall throws h a fs b r p s d,
  above h a (a :: fs) b r -> h a = Filter p s -> plain s -> r_library r = Fresh ->
  forall f, (2 * length (a :: fs) < f)%nat -> exists h' r',
  parse throws f h a d = Val (h', flat_map (goes (rev (a :: fs)) s) (until (upset throws s) (whole d)), existsb (upset throws s) (whole d)) /\
  above h' a (a :: fs) b r' /\ h' a = h a /\ same_features r r' /\ (existsb (upset throws s) (whole d) = false -> ready r') /\
  (forall y, ~ In y (a :: fs) -> y <> b -> h' y = h y).
Proof. exact delivered_lemma. Qed.
Print Assumptions C79_delivered_partial.
(** Whatever is made, set and parsed, in whatever order: as long as nothing has thrown, each reader
    is ready to parse and to have its features set. *)
Theorem C79_ready_partial : forall throws h l h', all_ready h -> history throws h l h' -> all_ready h'.
Proof. exact ready_lemma. Qed.
Print Assumptions C79_ready_partial.
(** Whatever features are asked of a DOM parser: the reader it makes has the feature for namespaces
    as it was last asked for, and that for prefixes as well, unless both would be off. *)
Theorem C79_dom_partial : forall l r, grant new_reader (fold_left (fun w x => wish w (fst x) (snd x)) l first_wishes) = r ->
  r_namespaces r = last_wish namespaces_name true l /\
  r_prefixes r = (last_wish prefixes_name true l || negb (last_wish namespaces_name true l)).
Proof. exact dom_lemma. Qed.
Print Assumptions C79_dom_partial.

(** * Examples *)
Definition nothing : heap := fun _ => new_filter None.
(** A reader at 0, and filters 1, 2 and 3 above it. *)
Definition three : heap :=
  set_slot (set_slot (set_slot (put (put (put (put nothing 0 (FilterChain.Base new_reader)) 1 (new_filter (Some 0%nat))) 2 (new_filter (Some 1%nat)))
    3 (new_filter (Some 2%nat))) 3 KContent (User 7)) 1 KLexical (User 8)) 3 KErrors (User 9).
Definition quiet (u : nat) (e : event) : bool := false.
Definition a_document : document := Document [(KContent, 1%nat); (KLexical, 2%nat); (KContent, 3%nat)] true.
Definition told (o : outcome (heap * list heard * bool)) : outcome (list heard * bool) := obind o (fun '(_, l, t) => Val (l, t)).
Definition heap_of (o : outcome (heap * list heard * bool)) : heap := match o with Val (h, _, _) => h | _ => nothing end.
Example C79_chain : exists r p s, above three 3 [3; 2; 1]%nat 0 r /\ three 3%nat = Filter p s /\ plain s /\ ready r.
Proof.
  eexists. eexists. eexists. split.
  - eapply A_filter; [reflexivity|]. eapply A_filter; [reflexivity|]. eapply A_filter; [reflexivity|]. apply A_reader. reflexivity.
  - split; [reflexivity|]. split; [intros k; destruct k; exact I|split; reflexivity].
Qed.
Definition passing (e : event) : list heard := [Passed 1 e; Passed 2 e; Passed 3 e].
Example C79_case : told (parse quiet 9 three 3 a_document) =
  Val (passing LocatorSet ++ [Heard 7 LocatorSet] ++ passing DocStart ++ [Heard 7 DocStart] ++ passing (Said KContent 1) ++ [Heard 7 (Said KContent 1)] ++
    passing (Said KLexical 2) ++ passing (Said KContent 3) ++ [Heard 7 (Said KContent 3)] ++ passing Fatal ++ [Heard 9 Fatal] ++
    passing DocEnd ++ [Heard 7 DocEnd], false).
Proof. vm_compute. reflexivity. Qed.
Example C79_history : all_ready three /\ exists h', history quiet three [SetFeature 3 general_name true; Parse 3 a_document; SetParent 3 1; Parse 3 a_document] h'.
Proof.
  split.
  - intros a r. destruct a as [|[|[|[|a]]]]; intros E; try discriminate E. injection E as <-. split; reflexivity.
  - assert (Q : forall o : outcome (heap * list heard * bool), match o with Val (_, _, t) => t | _ => true end = false ->
      exists l, o = Val (heap_of o, l, false)) by (intros [[[h l] []]| |] E; try discriminate E; eexists; reflexivity).
    eexists. eapply H_call; [apply C_feature with (f := 9%nat) (h' := put three 0 (FilterChain.Base (Reader (fun _ => None) true true true false Fresh))); reflexivity|].
    eapply H_call; [edestruct (Q (parse quiet 9 (put three 0 (FilterChain.Base (Reader (fun _ => None) true true true false Fresh))) 3 a_document)) as [l E];
      [vm_compute; reflexivity|exact (C_parse _ _ _ _ _ _ _ E)]|].
    eapply H_call; [apply C_parent|].
    eapply H_call; [|apply H_none].
    match goal with |- calls _ ?h _ _ => edestruct (Q (parse quiet 9 h 3 a_document)) as [l E]; [vm_compute; reflexivity|exact (C_parse _ _ _ _ _ _ _ E)] end.
Qed.
Example C79_dom_case :
  let r := grant new_reader (fold_left (fun w x => wish w (fst x) (snd x)) [(namespaces_name, false); (prefixes_name, false)] first_wishes) in
  r_namespaces r = false /\ r_prefixes r = true.
Proof. split; vm_compute; reflexivity. Qed.

(** * What does not hold *)
(** A filter on which no handler for errors was set makes parse throw where the document is not well
    formed.  After that no feature can be set, though nothing is being parsed, and the next document,
    which has no errors, is told to have one. *)
Definition pair_of : heap := put (put nothing 0 (FilterChain.Base new_reader)) 1 (new_filter (Some 0%nat)).
Definition after_error : heap := heap_of (parse quiet 5 pair_of 1 (Document [] true)).
Theorem C79_thrown_refuted :
  told (parse quiet 5 pair_of 1 (Document [] true)) = Val ([Passed 1 LocatorSet; Passed 1 DocStart; Passed 1 Fatal], true) /\
  (forall v, set_feature 5 after_error 1 namespaces_name v = Val (inr NotSupported)) /\
  told (parse quiet 5 (set_slot (set_slot after_error 1 KErrors (User 9)) 1 KContent (User 7)) 1 (Document [(KContent, 1%nat)] false)) =
    Val ([Passed 1 LocatorSet; Heard 7 LocatorSet; Passed 1 DocStart; Heard 7 DocStart; Passed 1 Fatal; Heard 9 Fatal; Passed 1 DocEnd; Heard 7 DocEnd], false).
Proof. split; [vm_compute; reflexivity|]. split; [destruct v; vm_compute; reflexivity|vm_compute; reflexivity]. Qed.
Print Assumptions C79_thrown_refuted.
(** The documentation says that without a parent "any attempt to parse or to set or get a feature
    will fail": features do, parse uses a null pointer. *)
Theorem C79_orphan_refuted : forall h a s f d n v throws, h a = Filter None s ->
  set_feature (S f) h a n v = Val (inr NotRecognized) /\ get_feature (S f) h a n = Val (inr NotRecognized) /\ parse throws (S f) h a d = UB.
Proof. intros h a s f d n v throws E. cbn [set_feature get_feature parse]. rewrite E. auto. Qed.
Print Assumptions C79_orphan_refuted.
(** Features asked of a DOM parser that share one flag: general entities were asked for, last, and
    are not read. *)
Theorem C79_dom_refuted :
  r_external (grant new_reader (fold_left (fun w x => wish w (fst x) (snd x)) [(parameter_name, false); (general_name, true)] first_wishes)) = false.
Proof. vm_compute. reflexivity. Qed.
Print Assumptions C79_dom_refuted.
(** A filter among its own parents never answers. *)
Theorem C79_circle_refuted : forall f n v, set_feature f (set_parent (set_parent nothing 0 1) 1 0) 0 n v = Base.NoFuel /\
  set_feature f (set_parent (set_parent nothing 0 1) 1 0) 1 n v = Base.NoFuel.
Proof. induction f as [|f IH]; intros n v; [split; reflexivity|]. split; [exact (proj2 (IH n v))|exact (proj1 (IH n v))]. Qed.
Print Assumptions C79_circle_refuted.

(** Setting a feature through any number of filters does what [set_as] says and leaves the other
    features and the handlers of the reader as they were. *)
Theorem C79_others : forall h a l b r n v f h', above h a l b r -> (length l < f)%nat -> set_feature f h a n v = Val (inl h') ->
  exists r', above h' a l b r' /\ set_as n v r r'.
Proof. exact others_lemma. Qed.
Print Assumptions C79_others.
(** Validation is known to be off and cannot be set; any other name is not recognised. *)
Theorem C79_refused : forall h a l b r n v f, above h a l b r -> (length l < f)%nat -> ~ In n [namespaces_name; prefixes_name; general_name; parameter_name] ->
  (n = validation_name -> set_feature f h a n v = Val (inr NotSupported) /\ get_feature f h a n = Val (inl false)) /\
  (n <> validation_name -> set_feature f h a n v = Val (inr NotRecognized) /\ get_feature f h a n = Val (inr NotRecognized)).
Proof. exact refused_lemma. Qed.
Print Assumptions C79_refused.
(** A filter that is given another parent keeps its handlers; nothing else changes. *)
Theorem C79_parent : forall h a p, (forall x k, get_slot (set_parent h a p) x k = get_slot h x k) /\ (forall q s, h a = Filter q s -> set_parent h a p a = Filter (Some p) s) /\ forall x, x <> a -> set_parent h a p x = h x.
Proof. exact parent_lemma. Qed.
Print Assumptions C79_parent.
Definition set_twice (h : heap) (n m : str) (v w : bool) (asked : str) : outcome (bool + refusal) :=
  match set_feature 5 h 3 n v with Val (inl h1) => match set_feature 5 h1 3 m w with Val (inl h2) => get_feature 5 h2 3 asked | _ => UB end | _ => UB end.
Example C79_others_case : set_twice three namespaces_name general_name false true namespaces_name = Val (inl false) /\
  set_twice three namespaces_name general_name false true parameter_name = Val (inl true) /\
  ~ In validation_name [namespaces_name; prefixes_name; general_name; parameter_name] /\ get_slot (set_parent three 3 1) 3 KContent = Some (User 7).
Proof. split; [vm_compute; reflexivity|]. split; [vm_compute; reflexivity|]. split; [|vm_compute; reflexivity]. intros [E|[E|[E|[E|[]]]]]; vm_compute in E; discriminate E. Qed.
(** SAX does not allow both to be off, and turning namespaces off sees to that: but turning
    prefixes off afterwards leaves both off. *)
Theorem C79_both_off_refuted : set_twice three namespaces_name prefixes_name false false namespaces_name = Val (inl false) /\
  set_twice three namespaces_name prefixes_name false false prefixes_name = Val (inl false).
Proof. split; vm_compute; reflexivity. Qed.
Print Assumptions C79_both_off_refuted.
(** A reader whose names are not to be processed, with all attributes told (namespaces off and
    prefixes on, which SAX allows), cannot be had by asking for prefixes last: namespaces are on. *)
Theorem C79_asked_last_refuted : set_twice three namespaces_name prefixes_name false true namespaces_name = Val (inl true) /\
  set_twice three prefixes_name namespaces_name true false namespaces_name = Val (inl false).
Proof. split; vm_compute; reflexivity. Qed.
Print Assumptions C79_asked_last_refuted.
