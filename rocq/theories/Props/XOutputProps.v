From Coq Require Import String.
From Verif.Model Require Import Base Containers Attrs XSort XOutput.
From Verif.Spec Require Import XOutputSpec.
From Verif.Proof Require Import XOutputText XOutputProof XOutputPlain XOutputNames.
From Verif.Props Require Import FilterProps.
From Coq Require Import List.
Import ListNotations.
Open Scope Z_scope.

(** * C47 *)
(** Whatever text is given for a comment, what is written can be in a comment and is that text
    with spaces put in; so for a processing instruction.  The loops end. *)
Theorem C47_comment : forall s, exists r, comment_text s = Some r /\ comment_ok r /\ spaced s r.
Proof. exact comment_lemma. Qed.
Print Assumptions C47_comment.
Theorem C47_pi : forall s, exists r, pi_text s = Some r /\ pi_ok r /\ spaced s r.
Proof. exact pi_lemma. Qed.
Print Assumptions C47_pi.
(** So every comment and processing instruction of a result is well formed. *)
Theorem C47_result : forall l declares cdata e, In e (o_events (executes l (new_output false declares cdata))) -> match e with Comment s => comment_ok s | Pi _ s => pi_ok s | _ => True end.
Proof. exact written_lemma. Qed.
Print Assumptions C47_result.
Example C47_examples :
  comment_text (lit "a---b-") = Some (lit "a- - -b- ") /\ pi_text (lit "a?>b??>") = Some (lit "a? >b?? >") /\ comment_text [] = Some [] /\ ~ comment_ok (lit "a--b").
Proof. repeat split; try (vm_compute; reflexivity). intros (H & _). apply H. exists (lit "a"), (lit "b"). reflexivity. Qed.

(** * C48 *)
(** Whatever the instructions, with the method xml: elements are nested, CDATA sections are closed
    where they are open, ends have the names of their starts, nothing undefined happens. *)
Theorem C48_balanced : forall l declares cdata, let o := executes l (new_output false declares cdata) in balanced (o_events o) /\ o_undefined o = false.
Proof. intros l d c. destruct (balanced_lemma l d c) as (A & B & _). exact (conj A B). Qed.
Print Assumptions C48_balanced.
(** The nodes in the result are the nodes that the instructions make, in order. *)
Theorem C48_content : forall l declares cdata, Forall2 shows (flat_map denote l) (filter is_content (o_events (executes l (new_output false declares cdata)))).
Proof. intros l d c. destruct (balanced_lemma l d c) as (_ & _ & C). exact C. Qed.
Print Assumptions C48_content.
(** With the method text and no CDATA elements, the result is the text that the instructions make. *)
Theorem C48_text_partial : forall l declares, exists ts, o_events (executes l (new_output true declares [])) = Escaping true :: map Chars ts /\ concat ts = concat (map string_value l).
Proof. exact text_lemma. Qed.
Print Assumptions C48_text_partial.
(** If each prefix has one meaning in the stylesheet, nothing without a namespace is below a
    default namespace, and no attributes are copied, then all names stand for what they are to
    stand for, no attribute is there twice, and the elements have the attributes asked for. *)
Theorem C48_names_partial : forall r l cdata, Forall (consistent r) l -> let o := executes l (new_output false true cdata) in
  all_names_ok [] (o_events o) /\ flat_map started_by (o_events o) = flat_map starts l.
Proof. exact names_lemma. Qed.
Print Assumptions C48_names_partial.

Definition el_ (p l u : string) (b : list instruction) := IElement (lit p) (lit l) (lit u) b.
Definition at_ (p l u v : string) := IAttribute (lit p) (lit l) (lit u) [IText false (lit v)].
Definition meaning (p : str) : str := if str_eqb p (lit "p") then lit "urn:p" else if str_eqb p (lit "q") then lit "urn:q" else [].
Definition book : list instruction :=
  [el_ "p" "book" "urn:p" [at_ "" "id" "" "1"; at_ "q" "lang" "urn:q" "en"; at_ "" "kind" "urn:k" "x"; at_ "" "id" "" "2";
     el_ "" "title" "" [IText false (lit "a"); at_ "" "late" "" "no"]; IComment [IText false (lit "--")]; el_ "q" "end" "urn:q" [el_ "p" "in" "urn:p" []]]].
Example C48_book_events : map (fun e => match e with Start q _ a => (q, map (fun x => (a_qname x, a_value x)) a) | End_ q _ => (q, []) | Comment s | Chars s => (s, []) | _ => ([], []) end) (o_events (executes book (new_output false true []))) =
  [(lit "p:book", [(lit "id", lit "2"); (lit "q:lang", lit "en"); (lit "auto-ns1:kind", lit "x"); (lit "xmlns:auto-ns1", lit "urn:k"); (lit "xmlns:q", lit "urn:q"); (lit "xmlns:p", lit "urn:p")]);
   (lit "title", []); (lit "a", []); (lit "title", []); (lit "- - ", []); (lit "q:end", [(lit "xmlns:q", lit "urn:q")]); (lit "p:in", []); (lit "p:in", []); (lit "q:end", []); (lit "p:book", [])].
Proof. vm_compute. reflexivity. Qed.
Lemma simple_prefix : forall c, c <> 58 -> c <> 97 -> own_prefix [c].
Proof.
  intros c H A. split; [intros [E|[]]; congruence|]. split; [discriminate|]. split; [discriminate|]. intros k E. unfold auto_ns in E. injection E as E _. congruence.
Qed.
Example C48_book_consistent : Forall (consistent meaning) book.
Proof.
  assert (P : forall s, existsb (Z.eqb 58) s = false -> plain_name s). { intros s E I. assert (X : existsb (Z.eqb 58) s = true) by (apply existsb_exists; exists 58; auto). congruence. }
  assert (O1 : own_prefix (lit "p")) by (apply simple_prefix; discriminate). assert (O2 : own_prefix (lit "q")) by (apply simple_prefix; discriminate).
  constructor; [|constructor]. cbn [book el_ at_ consistent fold_right].
  repeat match goal with |- _ /\ _ => split end; try exact Logic.I; try (apply P; reflexivity); try (intros _; split; [exact O1|reflexivity]); try (intros _; split; [exact O2|reflexivity]); try (intros _; right; split; [exact O2|reflexivity]); try (intros _; left; reflexivity); try (intros _; reflexivity); try (intros _; discriminate); try (intros E; discriminate E); try (intros E; destruct (E eq_refl)).
Qed.

(** In general the names do not stand for what they should.  An element without a namespace
    below a default namespace is put into that namespace. *)
Theorem C48_no_namespace_refuted : exists l, l = [el_ "" "a" "urn:d" [el_ "" "b" "" []]] /\ ~ all_names_ok [] (o_events (executes l (new_output false true []))).
Proof. eexists. split; [reflexivity|]. intros H. match type of H with all_names_ok _ ?l => let l' := eval vm_compute in l in assert (E : l = l') by (vm_compute; reflexivity) end. rewrite E in H. clear E. cbn [all_names_ok] in H. destruct H as (_ & (H & _) & _). vm_compute in H. discriminate H. Qed.
Print Assumptions C48_no_namespace_refuted.
(** A prefix that an inner element has given another meaning is used for the outer one. *)
Theorem C48_shadowed_refuted : exists l, l = [el_ "p" "a" "urn:1" [el_ "p" "b" "urn:2" [el_ "q" "c" "urn:1" []]]] /\ ~ all_names_ok [] (o_events (executes l (new_output false true []))).
Proof. eexists. split; [reflexivity|]. intros H. match type of H with all_names_ok _ ?l => let l' := eval vm_compute in l in assert (E : l = l') by (vm_compute; reflexivity) end. rewrite E in H. clear E. cbn [all_names_ok] in H. destruct H as (_ & _ & (H & _) & _). vm_compute in H. discriminate H. Qed.
Print Assumptions C48_shadowed_refuted.
(** Two attributes of an element with one prefix and two namespaces. *)
Theorem C48_attributes_refuted : exists l, l = [el_ "" "a" "" [at_ "p" "x" "urn:1" "1"; at_ "p" "y" "urn:2" "2"]] /\ ~ all_names_ok [] (o_events (executes l (new_output false true []))).
Proof.
  eexists. split; [reflexivity|]. intros H. match type of H with all_names_ok _ ?l => let l' := eval vm_compute in l in assert (E : l = l') by (vm_compute; reflexivity) end. rewrite E in H. clear E. cbn [all_names_ok] in H. destruct H as ((_ & H & _) & _). specialize (H _ (or_introl eq_refl) eq_refl). vm_compute in H. discriminate H.
Qed.
Print Assumptions C48_attributes_refuted.
(** A copied attribute can be there twice, has no declaration of its prefix, and an xsl:attribute
    that should replace it can leave it empty. *)
Definition start_atts (l : list instruction) : list (list (str * str)) :=
  flat_map (fun e => match e with Start _ _ a => [map (fun x => (a_qname x, a_value x)) a] | _ => [] end) (o_events (executes l (new_output false true []))).
Theorem C48_copies_refuted :
  start_atts [el_ "" "a" "" [ICopyAttribute [] (lit "x") (lit "x") (lit "1"); ICopyAttribute [] (lit "x") (lit "x") (lit "2")]] = [[(lit "x", lit "1"); (lit "x", lit "2")]] /\
  start_atts [el_ "" "a" "" [ICopyAttribute (lit "urn:1") (lit "x") (lit "p:x") (lit "1")]] = [[(lit "p:x", lit "1")]] /\
  start_atts [el_ "" "a" "" [ICopyAttribute (lit "urn:1") (lit "x") (lit "p:x") (lit "old"); at_ "q" "x" "urn:1" "new"]] = [[(lit "p:x", []); (lit "xmlns:q", lit "urn:1")]].
Proof. repeat split; vm_compute; reflexivity. Qed.
Print Assumptions C48_copies_refuted.
(** With the method text, CDATA elements give CDATA sections. *)
Theorem C48_text_refuted : o_events (executes [el_ "" "a" "" [IText false (lit "t")]] (new_output true true [Qualified [] (lit "a") []])) = [Escaping true; StartCdata; Chars (lit "t"); EndCdata].
Proof. vm_compute. reflexivity. Qed.
Print Assumptions C48_text_refuted.
