From Coq Require Import String SpecFloat.
From Verif.Proof Require Import TemplateProof XRunProof XRunComplete XRunEnds XRunUnique.
From Verif.Model Require Import Base XNode XNumber XOutput Precedence Template XRun.
From Verif.Spec Require Import PrecedenceSpec TemplateSpec XRunSpec.
From Verif.Props Require Import FilterProps.
From Coq Require Import List.
Import ListNotations.
Open Scope Z_scope.

(** A transformation that ends gives what XSLT says, if the document has no document type, what
    comes after other nodes were processed does not look at position(), current() or the current
    template rule, and there is no xsl:apply-templates without select if attributes are
    processed.  Missing: this would have to be true of every stylesheet and document; see the
    refutations below.  [mode] and [g] are left from earlier uses of the stylesheet. *)
Theorem C60_follows_partial : forall s c f body attributes x fuel mode g out st, load s = Val (Some c) -> plain f ->
  tidy_sheet f attributes (visit [] (tree_of s)) body -> proper f attributes x ->
  transform f (Sheet c body) fuel mode g x = Done out st ->
  applies f (visit [] (tree_of s)) body (Sink false false) (fun _ => True) [] x 1 1 out.
Proof. exact transform_lemma. Qed.
Print Assumptions C60_follows_partial.
(** And if XSLT says that there is a result, the transformation ends with it. *)
Theorem C60_complete_partial : forall s c f body attributes x mode g out, load s = Val (Some c) -> plain f ->
  tidy_sheet f attributes (visit [] (tree_of s)) body -> proper f attributes x ->
  applies f (visit [] (tree_of s)) body (Sink false false) (fun _ => True) [] x 1 1 out ->
  exists fuel st, transform f (Sheet c body) fuel mode g x = Done out st.
Proof. exact transform_complete. Qed.
Print Assumptions C60_complete_partial.
(** The specification gives one result at most. *)
Theorem C60_one_result : forall f v body k scope mode x p size out out', applies f v body k scope mode x p size out -> applies f v body k scope mode x p size out' -> out = out'.
Proof. intros f v body k scope mode x p size out out' H H'. exact (proj2 (proj2 (proj2 (proj2 (unique_lemma f v body)))) k scope mode x p size out H out' H'). Qed.
Print Assumptions C60_one_result.
(** A transformation ends, with a result or an exception, if templates are only applied further
    down, and templates are not called and not imported.  Missing: xsl:call-template without
    recursion, and xsl:apply-imports. *)
Theorem C60_ends_partial : forall f h x mode g, (forall n, each (descends f) (h_body h n)) -> tree_at f x <> None -> exists fuel, transform f h fuel mode g x <> Exhausted.
Proof. exact transform_ends. Qed.
Print Assumptions C60_ends_partial.

(** * Examples *)
Definition xe (name : str) (attrs kids : list xtree) : xtree := Xt (Info Xelement name [] name [] []) attrs kids.
Definition xa (name value : str) : xtree := Xt (Info Xattribute name [] name [] value) [] [Xt (Info Xtext (lit "#text") [] [] [] value) [] []].
Definition xt (value : str) : xtree := Xt (Info Xtext (lit "#text") [] [] [] value) [] [].
Definition one_doc (kids : list xtree) : forest := Forest (fun _ => Xt (Info Xdocument (lit "#document") [] [] [] []) [] kids) (fun n => n) (fun _ => 0).
(** A template for the nodes at some paths. *)
Definition at_paths (ps : list path) : pattern := Pattern (fun x => existsb (path_eqb (snd x)) ps) (of_Z 0).
Definition rule (p : pattern) (body : nat) : item template := Declares (make_template [p] None [] [] body).
Definition bodies (ls : list (list action)) (n : nat) : list action := nth n ls [].
Definition run (s : list (item template)) (f : forest) (body : nat -> list action) (fuel : nat) : option (list instruction) :=
  match load s with Val (Some c) => match transform f (Sheet c body) fuel [] [] (O, []) with Done out _ => Some out | _ => None end | _ => None end.
Definition said (s : list (item template)) (f : forest) (body : nat -> list action) (out : list instruction) : Prop :=
  applies f (visit [] (tree_of s)) body (Sink false false) (fun _ => True) [] (O, []) 1 1 out.
(** The position as a digit. *)
Definition position_digit : expression str := fun w => Some [48 + w_position w].
Definition the_root : pattern := at_paths [[]].
Lemma only_rule : forall p n (scope : address -> Prop) x, scope [] -> p_matches p x = true -> applied (visit [] (tree_of [rule p n])) scope [] x (make_template [p] None [] [] n) [].
Proof.
  intros p n scope x S M. exists [], [make_template [p] None [] [] n], []. split; [reflexivity|]. split; [exact S|]. split; [intros b o r []|].
  exists [], p, []. split; [reflexivity|]. split; [split; [exact M|reflexivity]|]. split; intros r [].
Qed.
Lemma only_rule_not : forall p n scope x, p_matches p x = false -> none_applicable (visit [] (tree_of [rule p n])) scope [] x.
Proof. intros p n scope x M b o r [E|[]] _ I [A _]. injection E as <- <-. destruct I as [<-|[]]. cbn [fst] in A. congruence. Qed.

(** <a>x<b/></a>: the root template makes an element and applies templates, and the others write
    the position of what they find. *)
Definition shelf : forest := one_doc [xe (lit "a") [] [xt (lit "x"); xe (lit "b") [] []]].
Definition count_sheet : list (item template) := [rule the_root 0; rule (at_paths [[Kid 0; Kid 0]; [Kid 1; Kid 0]]) 1].
Definition count_bodies : nat -> list action :=
  bodies [[AElement (fun _ => Some ([], lit "r", [])) [AForEach (fun w => Some (children shelf (w_node w))) [AValueOf false position_digit; AApply None []]]; AText false (lit "z")];
          [AIf (fun w => Some (w_position w =? 2)) [AValueOf false position_digit]]].
Example C60_count : run count_sheet shelf count_bodies 30 = Some [IElement [] (lit "r") [] [IText false (lit "1"); IText false (lit "2")]; IText false (lit "z")].
Proof. vm_compute. reflexivity. Qed.
Example C60_count_tidy : plain shelf /\ tidy_sheet shelf false (visit [] (tree_of count_sheet)) count_bodies /\ proper shelf false (O, []) /\
  (forall n, each (descends shelf) (count_bodies n)).
Proof.
  assert (P : plain shelf) by (apply plain_checked; intros n; vm_compute; reflexivity).
  destruct (children_selected shelf false P) as [S1 S2].
  split; [exact P|]. split; [split|split].
  - intros [|[|[|n]]]; cbn -[children shelf]; try exact Logic.I.
    + repeat (split; try exact Logic.I; try exact S1; try reflexivity; try discriminate).
    + repeat (split; try exact Logic.I; try reflexivity; try discriminate).
  - intros a own t [E|[]] I N. injection E as <- <-. destruct I as [<-|[<-|[]]]; exfalso; apply N; reflexivity.
  - eexists. split; [reflexivity|]. repeat split; discriminate.
  - intros [|[|[|n]]]; cbn -[children shelf]; try exact Logic.I.
    + split; [|split; exact Logic.I]. split; [|exact Logic.I]. right. split; [exact S2|]. split; [exact Logic.I|]. split; exact Logic.I.
    + repeat (split; try exact Logic.I).
Qed.

(** * Where it does not *)
(** After xsl:for-each, position() is that of its last node. *)
Definition position_bodies : nat -> list action := bodies [[AForEach (fun _ => Some [(O, [Kid 0; Kid 0]); (O, [Kid 1; Kid 0])]) []; AValueOf false position_digit]].
Theorem C60_position_refuted : run [rule the_root 0] shelf position_bodies 30 = Some [IText false (lit "2")] /\ said [rule the_root 0] shelf position_bodies [IText false (lit "1")].
Proof.
  split; [vm_compute; reflexivity|].
  eapply P_rule; [apply only_rule; [exact Logic.I|reflexivity]|]. cbn [tm_body make_template position_bodies bodies nth].
  apply (G_next _ _ _ _ _ _ _ [] [IText false (lit "1")]).
  - eapply G_for_each; [reflexivity|]. apply (G_each _ _ _ _ _ _ _ _ _ [] []); [constructor|]. apply (G_each _ _ _ _ _ _ _ _ _ [] []); constructor.
  - apply (G_next _ _ _ _ _ _ _ [IText false (lit "1")] []); constructor. reflexivity.
Qed.
Print Assumptions C60_position_refuted.
(** And current() is that node. *)
Definition current_bodies : nat -> list action := bodies [[AForEach (fun _ => Some [(O, [Kid 0])]) []; AIf (fun w => Some (xnode_eqb (w_current w) (w_node w))) [AText false (lit "y")]]].
Theorem C60_current_refuted : run [rule the_root 0] shelf current_bodies 30 = Some [] /\ said [rule the_root 0] shelf current_bodies [IText false (lit "y")].
Proof.
  split; [vm_compute; reflexivity|].
  eapply P_rule; [apply only_rule; [exact Logic.I|reflexivity]|]. cbn [tm_body make_template current_bodies bodies nth].
  apply (G_next _ _ _ _ _ _ _ [] [IText false (lit "y")]).
  - eapply G_for_each; [reflexivity|]. apply (G_each _ _ _ _ _ _ _ _ _ [] []); constructor.
  - apply (G_next _ _ _ _ _ _ _ [IText false (lit "y")] []); [|constructor]. apply G_if; [reflexivity|]. apply (G_next _ _ _ _ _ _ _ [IText false (lit "y")] []); constructor.
Qed.
Print Assumptions C60_current_refuted.
(** Document type declarations count. *)
Definition typed : forest := one_doc [Xt (Info Xdoctype (lit "a") [] [] [] []) [] []; xe (lit "a") [] []].
Definition doctype_bodies : nat -> list action := bodies [[AValueOf false position_digit]].
Theorem C60_doctype_refuted : run [rule (at_paths [[Kid 1]]) 0] typed doctype_bodies 30 = Some [IText false (lit "2")] /\ said [rule (at_paths [[Kid 1]]) 0] typed doctype_bodies [IText false (lit "1")].
Proof.
  split; [vm_compute; reflexivity|].
  eapply P_content; [apply only_rule_not; reflexivity|reflexivity|reflexivity|].
  change (children typed (O, [])) with [(O, [Kid 1])]. apply (P_each _ _ _ _ _ _ _ _ _ [IText false (lit "1")] []); [|constructor].
  eapply P_rule; [apply only_rule; [exact Logic.I|reflexivity]|]. apply (G_next _ _ _ _ _ _ _ [IText false (lit "1")] []); constructor. reflexivity.
Qed.
Print Assumptions C60_doctype_refuted.
(** Attributes have their text for a child. *)
Definition attributed : forest := one_doc [xe (lit "a") [xa (lit "n") (lit "v")] []].
Definition attribute_bodies : nat -> list action := bodies [[AApply (Some (fun _ => Some [(O, [Att 0; Kid 0])])) []]; [AApply None []]].
Theorem C60_attribute_refuted : run [rule the_root 0; rule (at_paths [[Att 0; Kid 0]]) 1] attributed attribute_bodies 30 = Some [IText false (lit "v")] /\ said [rule the_root 0; rule (at_paths [[Att 0; Kid 0]]) 1] attributed attribute_bodies [].
Proof.
  split; [vm_compute; reflexivity|].
  eapply (P_rule _ _ _ _ _ _ _ _ _ (make_template [the_root] None [] [] 0) []).
  { exists [], [make_template [the_root] None [] [] 0; make_template [at_paths [[Att 0; Kid 0]]] None [] [] 1], []. split; [reflexivity|]. split; [exact Logic.I|]. split; [intros b o r []|].
    exists [], the_root, [(at_paths [[Att 0; Kid 0]], make_template [at_paths [[Att 0; Kid 0]]] None [] [] 1)]. split; [reflexivity|]. split; [split; reflexivity|]. split; [intros r []|].
    intros r [<-|[]] [A _]. discriminate A. }
  apply (G_next _ _ _ _ _ _ _ [] []); [|constructor]. eapply G_apply_select; [reflexivity|]. apply (P_each _ _ _ _ _ _ _ _ _ [] []); [|constructor].
  eapply (P_rule _ _ _ _ _ _ _ _ _ (make_template [at_paths [[Att 0; Kid 0]]] None [] [] 1) []).
  { exists [], [make_template [the_root] None [] [] 0; make_template [at_paths [[Att 0; Kid 0]]] None [] [] 1], []. split; [reflexivity|]. split; [exact Logic.I|]. split; [intros b o r []|].
    exists [(the_root, make_template [the_root] None [] [] 0)], (at_paths [[Att 0; Kid 0]]), []. split; [reflexivity|]. split; [split; reflexivity|]. split; [|intros r []].
    intros r [<-|[]] [A _]. discriminate A. }
  apply (G_next _ _ _ _ _ _ _ [] []); [|constructor]. apply G_apply. constructor.
Qed.
Print Assumptions C60_attribute_refuted.
(** After xsl:apply-templates, xsl:apply-imports looks where the last of the templates was. *)
Definition import_sheet : list (item template) := [Imports [rule the_root 1]; rule the_root 0].
Definition imports_bodies : nat -> list action := bodies [[AApply None []; AImports]; [AText false (lit "y")]].
Theorem C60_imports_refuted : run import_sheet (one_doc [xt (lit "x")]) imports_bodies 30 = Some [IText false (lit "x"); IText false (lit "x")] /\ said import_sheet (one_doc [xt (lit "x")]) imports_bodies [IText false (lit "x"); IText false (lit "y")].
Proof.
  split; [vm_compute; reflexivity|].
  eapply (P_rule _ _ _ _ _ _ _ _ _ (make_template [the_root] None [] [] 0) []).
  { exists [([O], [make_template [the_root] None [] [] 1])], [make_template [the_root] None [] [] 0], []. split; [reflexivity|]. split; [exact Logic.I|]. split; [intros b o r []|].
    exists [], the_root, []. split; [reflexivity|]. split; [split; reflexivity|]. split; intros r []. }
  apply (G_next _ _ _ _ _ _ _ [IText false (lit "x")] [IText false (lit "y")]).
  - apply G_apply. change (children (one_doc [xt (lit "x")]) (at_node (At (O, []) 1 1 (Some ([], []))))) with [(O, [Kid 0])].
    apply (P_each _ _ _ _ _ _ _ _ _ [IText false (lit "x")] []); [|constructor]. 
    apply (P_text _ _ _ _ _ _ _ _ _ (Info Xtext (lit "#text") [] [] [] (lit "x")) [] []); [|reflexivity|right; left; reflexivity].
    intros b o r [E|[E|[]]] _ I [A _]; injection E as <- <-; destruct I as [<-|[]]; discriminate A.
  - apply (G_next _ _ _ _ _ _ _ [IText false (lit "y")] []); [|constructor]. eapply G_imports; [reflexivity|].
    eapply (P_rule _ _ _ _ _ _ _ _ _ (make_template [the_root] None [] [] 1) [O]).
    { exists [], [make_template [the_root] None [] [] 1], [([], [make_template [the_root] None [] [] 0])]. split; [reflexivity|]. split; [exists O, []; reflexivity|]. split.
      - intros b o r [E|[]] (i & c & X). injection E as <- <-. discriminate X.
      - exists [], the_root, []. split; [reflexivity|]. split; [split; reflexivity|]. split; intros r []. }
    apply (G_next _ _ _ _ _ _ _ [IText false (lit "y")] []); constructor.
Qed.
Print Assumptions C60_imports_refuted.
(** In xsl:for-each there is no current template rule, and xsl:apply-imports is an error; it is
    not reported. *)
Definition imports_for_each_bodies : nat -> list action := bodies [[AForEach (fun _ => Some [(O, [Kid 0])]) [AImports]]].
Theorem C60_imports_for_each_refuted : run [rule the_root 0] (one_doc [xt (lit "x")]) imports_for_each_bodies 30 = Some [IText false (lit "x")] /\
  forall out', ~ said [rule the_root 0] (one_doc [xt (lit "x")]) imports_for_each_bodies out'.
Proof.
  split; [vm_compute; reflexivity|]. intros out' H. inversion H as [? ? ? ? ? ? t a ? Ap G|? ? ? ? ? ? t ? No| ? ? ? ? ? ? i at_ ks No|? ? ? ? ? ? t No]; subst.
  - destruct (applied_unique _ _ _ _ _ _ _ _ Ap (only_rule the_root O (fun _ => True) (O, []) Logic.I eq_refl)) as [-> ->]. cbn [tm_body make_template imports_for_each_bodies bodies nth] in G.
    inversion G as [|? ? ? ? o1 o2 G1 G2]; subst. inversion G1 as [| | | | | | | | | | |? ? ? nodes ? ? E GE| | | | | | | | | | |]; subst. injection E as <-.
    inversion GE as [|? ? ? ? ? ? o3 o4 G3 G4]; subst. inversion G3 as [|? ? ? ? o5 o6 G5 G6]; subst. inversion G5 as [| | | | | | | | | | | | | |? ? ? ? ? R| | | | | | | |]; subst. discriminate R.
  - exact (applied_some _ _ _ _ _ _ (only_rule the_root O (fun _ => True) (O, []) Logic.I eq_refl) No).
  - exact (applied_some _ _ _ _ _ _ (only_rule the_root O (fun _ => True) (O, []) Logic.I eq_refl) No).
  - exact (applied_some _ _ _ _ _ _ (only_rule the_root O (fun _ => True) (O, []) Logic.I eq_refl) No).
Qed.
Print Assumptions C60_imports_for_each_refuted.
