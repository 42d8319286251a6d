(** C78: external entities, read with expat. *)
From Coq Require Import String.
From Verif.Model Require Import Base Attrs Sax External XSort.
From Verif.Spec Require Import ExternalSpec.
From Verif.Proof Require Import ContainersProof ExternalProof.
From Coq Require Import List ZArith Lia.
Import ListNotations.
Open Scope Z_scope.

(** A new reader, with the feature for external entities: what is told of the declarations of a
    document and of its text, with entities in entities to any depth, is what SAX says, wherever a
    resolver says that the entities are.  Partial: the entities have places of their own. *)
Theorem C78_reported_partial : forall h text l body t e place,
  all_told h -> s_resolving h = true -> own_places l -> has_text h text l body ->
  tells body t e -> all_declared l t -> text (fst place) (snd place) = Some (map declared_as l ++ map (called l) t, true) ->
  exists f0, forall f, (f0 <= f)%nat -> exists m, do_parse h text f place [] = Val (map Heard (map declares l ++ e), m, true).
Proof. exact reported_lemma. Qed.
Print Assumptions C78_reported_partial.
(** Without the feature: each reference is told to be skipped, and nothing is read but the
    document. *)
Theorem C78_skipped_partial : forall h text l t place,
  all_told h -> s_resolving h = false -> own_places l -> all_declared l t ->
  text (fst place) (snd place) = Some (map declared_as l ++ map (called l) t, true) ->
  forall f, exists m, do_parse h text (S f) place [] = Val (map Heard (map declares l ++ skips t), m, true).
Proof. exact skipped_lemma. Qed.
Print Assumptions C78_skipped_partial.
(** Whatever is read, has been read before, or cannot be read: the beginnings and ends of entities
    that are told match. *)
Theorem C78_matched : forall h text f place m l m' ok, do_parse h text f place m = Val (l, m', ok) -> matched l.
Proof. exact matched_lemma. Qed.
Print Assumptions C78_matched.
(** Whatever was read before, and wherever the entities are: the characters told are those of the
    text with its entities put in. *)
Theorem C78_text : forall h text l body t x place, s_content h = true -> s_resolving h = true -> has_text h text l body ->
  expands body t x -> all_declared l t -> text (fst place) (snd place) = Some (map (called l) t, true) ->
  exists f0, forall f, (f0 <= f)%nat -> forall m, exists e m', do_parse h text f place m = Val (e, m', true) /\ letters e = x.
Proof. exact text_lemma. Qed.
Print Assumptions C78_text.

(** * Examples *)
Definition all_on : settings := Settings true true true true true true None.
Definition skipping : settings := Settings true true true true true false None.
Definition entities : list declaration :=
  [External (ascii_str "a") None (ascii_str "a.ent"); Internal (ascii_str "i") (ascii_str "v");
   External (ascii_str "b") (Some (ascii_str "-//b")) (ascii_str "b.ent")].
Definition bodies (n : str) : list piece :=
  if str_eqb n (ascii_str "a") then [Letters (ascii_str "x"); Refer (ascii_str "b")] else [Letters (ascii_str "y")].
Definition contents : list piece := [Refer (ascii_str "a"); Letters (ascii_str "z"); Refer (ascii_str "b")].
Definition library (pub sys : str) : option (list callback * bool) :=
  if str_eqb sys (ascii_str "a.ent") then Some (map (called entities) (bodies (ascii_str "a")), true)
  else if str_eqb sys (ascii_str "b.ent") then Some (map (called entities) (bodies (ascii_str "b")), true)
  else if str_eqb sys (ascii_str "doc") then Some (map declared_as entities ++ map (called entities) contents, true)
  else None.
Definition its_events : list sax :=
  [StartEntity (ascii_str "a"); Characters (ascii_str "x"); StartEntity (ascii_str "b"); Characters (ascii_str "y"); EndEntity (ascii_str "b");
   EndEntity (ascii_str "a"); Characters (ascii_str "z"); StartEntity (ascii_str "b"); Characters (ascii_str "y"); EndEntity (ascii_str "b")].
Lemma a_b : forall n p s, In (External n p s) entities ->
  n = ascii_str "a" /\ p = None /\ s = ascii_str "a.ent" \/ n = ascii_str "b" /\ p = Some (ascii_str "-//b") /\ s = ascii_str "b.ent".
Proof. intros n p s [I|[I|[I|[]]]]; [|discriminate|]; injection I as <- <- <-; auto. Qed.
Example C78_reported_case : all_told all_on /\ s_resolving all_on = true /\ own_places entities /\ has_text all_on library entities bodies /\
  tells bodies contents its_events /\ all_declared entities contents /\
  library [] (ascii_str "doc") = Some (map declared_as entities ++ map (called entities) contents, true) /\ expands bodies contents (ascii_str "xyzy").
Proof.
  split; [repeat split|]. split; [reflexivity|]. split; [|split; [|split; [|split; [|split; [reflexivity|]]]]].
  - intros n p s I. apply a_b in I. split; [intros ->; intuition discriminate|]. split; [intros ->; intuition discriminate|].
    intros n' p' s' I'. apply a_b in I'. destruct I as [(-> & -> & ->)|(-> & -> & ->)], I' as [(-> & -> & ->)|(-> & -> & ->)]; split;
      solve [discriminate | auto | intros [E|E]; discriminate E].
  - intros n p s place I A. cbn in A. subst place. apply a_b in I. destruct I as [(-> & -> & ->)|(-> & -> & ->)]; (split; [reflexivity|]).
    + intros n I. vm_compute in I. destruct I as [I|[I|[]]]; [discriminate|]. injection I as <-. eexists. eexists. right. right. left. reflexivity.
    + intros n I. vm_compute in I. destruct I as [I|[]]; discriminate.
  - apply (T_refer bodies (ascii_str "a") _ [Characters (ascii_str "x"); StartEntity (ascii_str "b"); Characters (ascii_str "y"); EndEntity (ascii_str "b")]).
    + apply T_letters. apply (T_refer bodies (ascii_str "b") _ [Characters (ascii_str "y")] []); [apply T_letters, T_end|apply T_end].
    + apply T_letters. apply (T_refer bodies (ascii_str "b") _ [Characters (ascii_str "y")] []); [apply T_letters, T_end|apply T_end].
  - intros n I. vm_compute in I. destruct I as [I|[I|[I|[]]]]; [|discriminate|]; injection I as <-; eexists; eexists; [left|right; right; left]; reflexivity.
  - apply (E_refer bodies (ascii_str "a") _ (ascii_str "xy") (ascii_str "zy")).
    + apply (E_letters bodies (ascii_str "x") _ (ascii_str "y")). apply (E_refer bodies (ascii_str "b") _ (ascii_str "y") []); [|apply E_end].
      apply (E_letters bodies (ascii_str "y") _ []), E_end.
    + apply (E_letters bodies (ascii_str "z") _ (ascii_str "y")). apply (E_refer bodies (ascii_str "b") _ (ascii_str "y") []); [|apply E_end].
      apply (E_letters bodies (ascii_str "y") _ []), E_end.
Qed.
Definition told (r : outcome result) : outcome (list news * bool) := obind r (fun '(e, _, ok) => Val (e, ok)).
Example C78_case : told (do_parse all_on library 3 ([], ascii_str "doc") []) = Val (map Heard (map declares entities ++ its_events), true) /\
  told (do_parse skipping library 1 ([], ascii_str "doc") []) =
    Val (map Heard (map declares entities ++ [SkippedEntity (ascii_str "a"); Characters (ascii_str "z"); SkippedEntity (ascii_str "b")]), true).
Proof. split; vm_compute; reflexivity. Qed.

(** * What does not hold *)
(** Two entities at one place: the second is told under the name of the first. *)
Definition one_place : list declaration := [External (ascii_str "a") None (ascii_str "e"); External (ascii_str "b") None (ascii_str "e")].
Definition at_one (pub sys : str) : option (list callback * bool) :=
  if str_eqb sys (ascii_str "e") then Some ([XText (ascii_str "x")], true)
  else Some (map declared_as one_place ++ map (called one_place) [Refer (ascii_str "b")], true).
Theorem C78_shared_refuted :
  tells (fun _ => [Letters (ascii_str "x")]) [Refer (ascii_str "b")] [StartEntity (ascii_str "b"); Characters (ascii_str "x"); EndEntity (ascii_str "b")] /\
  told (do_parse all_on at_one 2 ([], ascii_str "doc") []) = Val (map Heard (map declares one_place ++
    [StartEntity (ascii_str "a"); Characters (ascii_str "x"); EndEntity (ascii_str "a")]), true).
Proof.
  split; [|vm_compute; reflexivity]. apply (T_refer (fun _ => [Letters (ascii_str "x")]) (ascii_str "b") _ [Characters (ascii_str "x")] []); [|apply T_end].
  apply T_letters, T_end.
Qed.
Print Assumptions C78_shared_refuted.
(** A public identifier that is the place of another entity. *)
Definition crossed : list declaration := [External (ascii_str "a") (Some (ascii_str "e")) (ascii_str "f"); External (ascii_str "b") None (ascii_str "e")].
Definition at_crossed (pub sys : str) : option (list callback * bool) :=
  if str_eqb sys (ascii_str "doc") then Some (map declared_as crossed ++ map (called crossed) [Refer (ascii_str "b")], true)
  else Some ([XText (ascii_str "x")], true).
Theorem C78_crossed_refuted : told (do_parse all_on at_crossed 2 ([], ascii_str "doc") []) = Val (map Heard (map declares crossed ++
    [StartEntity (ascii_str "a"); Characters (ascii_str "x"); EndEntity (ascii_str "a")]), true).
Proof. vm_compute. reflexivity. Qed.
Print Assumptions C78_crossed_refuted.
(** The names of one document are told of the next: the reader does not forget. *)
Definition only (n : string) : list declaration := [External (ascii_str n) None (ascii_str "e")].
Definition two_documents (pub sys : str) : option (list callback * bool) :=
  if str_eqb sys (ascii_str "e") then Some ([XText (ascii_str "x")], true)
  else if str_eqb sys (ascii_str "1") then Some (map declared_as (only "a") ++ [XExternal (Some (ascii_str "e")) None], true)
  else Some (map declared_as (only "b") ++ [XExternal (Some (ascii_str "e")) None], true).
Theorem C78_again_refuted : exists m l,
  do_parse all_on two_documents 2 ([], ascii_str "1") [] = Val (l, m, true) /\ own_places (only "b") /\
  told (do_parse all_on two_documents 2 ([], ascii_str "2") m) = Val (map Heard (map declares (only "b") ++
    [StartEntity (ascii_str "a"); Characters (ascii_str "x"); EndEntity (ascii_str "a")]), true).
Proof.
  eexists. eexists. split; [vm_compute; reflexivity|]. split; [|vm_compute; reflexivity].
  intros n p s [I|[]]. injection I as <- <- <-. split; [discriminate|]. split; [discriminate|].
  intros n' p' s' [I|[]]. injection I as <- <- <-. split; [auto|discriminate].
Qed.
Print Assumptions C78_again_refuted.
(** Once a DTD was read without a lexical handler, it is not told with one. *)
Definition with_dtd (pub sys : str) : option (list callback * bool) :=
  if str_eqb sys (ascii_str "d.dtd") then Some ([], true)
  else Some ([XDoctype (ascii_str "r") (Some (ascii_str "d.dtd")) None; XExternal (Some (ascii_str "d.dtd")) None; XEndDoctype], true).
Definition no_lexical : settings := Settings true false true true true true None.
Theorem C78_dtd_refuted : exists m l,
  do_parse no_lexical with_dtd 2 ([], ascii_str "doc") [] = Val (l, m, true) /\
  told (do_parse all_on with_dtd 2 ([], ascii_str "doc") []) =
    Val (map Heard [StartDTD (ascii_str "r") [] (ascii_str "d.dtd"); StartEntity (ascii_str "[dtd]"); EndEntity (ascii_str "[dtd]"); EndDTD], true) /\
  told (do_parse all_on with_dtd 2 ([], ascii_str "doc") m) =
    Val (map Heard [StartDTD (ascii_str "r") [] (ascii_str "d.dtd"); EndDTD], true).
Proof. eexists. eexists. split; [vm_compute; reflexivity|]. split; vm_compute; reflexivity. Qed.
Print Assumptions C78_dtd_refuted.
(** The name of a parameter entity is told without its percent sign, which SAX requires. *)
Theorem C78_parameter_refuted : forall n pub sys m, fst (declare all_on (XEntity n true None (Some sys) pub None) m) =
  fst (declare all_on (XEntity n false None (Some sys) pub None) m) /\
  fst (declare all_on (XEntity n true None (Some sys) pub None) m) = [Heard (ExternalEntityDecl n (ids pub) sys)].
Proof. intros n pub sys m. destruct pub; split; reflexivity. Qed.
Print Assumptions C78_parameter_refuted.
(** An entity that cannot be read is two fatal errors. *)
Theorem C78_twice_refuted : told (do_parse all_on (fun pub sys => if str_eqb sys (ascii_str "doc") then Some (map declared_as (only "a") ++
    [XExternal (Some (ascii_str "e")) None], true) else None) 2 ([], ascii_str "doc") []) =
  Val (map Heard (map declares (only "a") ++ [StartEntity (ascii_str "a")]) ++ [Unresolved; Heard (EndEntity (ascii_str "a")); Malformed], false).
Proof. vm_compute. reflexivity. Qed.
Print Assumptions C78_twice_refuted.
