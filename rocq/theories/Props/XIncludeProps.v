(** C70: xsl:include and xsl:import. *)
From Coq Require Import String.
From Verif.Model Require Import Base Chars Containers Attrs XSort XSheet Precedence XInclude.
From Verif.Spec Require Import XSheetSpec PrecedenceSpec XIncludeSpec.
From Verif.Proof Require Import ContainersProof XSheetProof PrecedenceProof XIncludeProof XIncludeEnds XIncludeSheets.
From Verif.Props Require Import XSheetProps.
From Coq Require Import List Lia.
Import ListNotations.
Open Scope Z_scope.

(** Whatever the handlers are, the declarations of the documents reach them as the import tree
    says: those of a document that is included in place of the include, those of one that is
    imported after those of the documents that import it and before those that were imported
    earlier, all with the precedence of their place in the tree. *)
Theorem C70_combines_partial : forall {scope D : Type} (down : D -> precedence -> event (scope := scope) -> res D) (begin : D -> D)
  (world : str -> option (document (scope := scope))) absolute base evs items n d ok,
  unfolds world absolute true [] base evs items -> (list_sum (map documents items) <= n)%nat ->
  let told := play down begin (concat (map (fun x => map (fun t => (t, code (fst x))) (snd x)) (rev (visit [] (tree_of items))))) (begin d) [] in
  told <> Wild -> compile_all down begin world absolute n base (Doc evs ok) d = next told (fun '(d, _) => Done d).
Proof. exact @compiled_all. Qed.
Print Assumptions C70_combines_partial.

(** Stylesheets in several documents compile to the stylesheets of their import tree, each with
    what it includes. *)
Theorem C70_stylesheets_partial : forall {scope X M N P : Type} (V : services (scope := scope) (X := X) (M := M) (N := N) (P := P)),
  no_current V -> forall (world : str -> option (xml (scope := scope))) absolute base main items n ok,
  module V world absolute true [] base main items -> Forall (fun x => sound (snd x)) (visit [] (tree_of items)) ->
  (list_sum (map documents items) <= n)%nat ->
  exists l, compile_sheets V n (given_world world) absolute base (Doc (reports main) ok) = Done l /\
    Forall2 (fun x y => fst y = code (fst x) /\ alike (sheet_of (snd x)) (snd y)) (rev (visit [] (tree_of items))) l.
Proof. intros scope X M N P V C world absolute base main items n ok. exact (compiles V C world absolute base main items n ok). Qed.
Print Assumptions C70_stylesheets_partial.

(** Whatever the documents bring in, even themselves, compiling comes to an end: if there are
    finitely many documents, some depth of nesting and number of imports is enough. *)
Theorem C70_ends : forall {scope D : Type} (down : D -> precedence -> event (scope := scope) -> res D) (begin : D -> D)
  (world : str -> option (document (scope := scope))) absolute (names : list str), (forall h, world h <> None -> In h names) ->
  forall base main d, exists n, forall m, (n <= m)%nat -> compile_all down begin world absolute m base main d <> Starved.
Proof. intros scope D down begin world absolute names F base main d. exact (ends down begin world absolute names F base main d). Qed.
Print Assumptions C70_ends.

(** * Examples *)
Definition anything : services (scope := unit) (X := str) (M := str) (N := str) (P := str) :=
  Services (fun _ _ _ s => Some s) (fun _ _ s => Some s) (fun _ _ s => Some [s]) (fun _ s => Some s) (fun _ s => Some [s]) Some (fun _ => []).
Definition bring (how where_ : string) : xml := xe how [un "href" where_] [].
Definition named_ (n : string) : xml := xe "template" [un "name" n] [].
Definition template_ (n : string) : rule_ (X := str) (M := str) (P := str) := Template [] (t_ n) [] None [].
Definition outputs_ (m : string) : xml := xe "output" [un "method" m] [].
Definition library (l : list (string * xml (scope := unit))) (h : str) : option xml :=
  option_map snd (find (fun d => str_eqb (t_ (fst d)) h) l).
Definition by_name (base href : str) : str := href.
Definition compiled (l : list (string * xml (scope := unit))) (main : xml) := compile_sheets anything 20 (given_world (library l)) by_name (t_ "m") (Doc (reports main) true).
Definition names_of (l : list (precedence * sheet (X := str) (M := str) (N := str) (P := str))) : list (str * precedence) := map (fun t => (t_name (fst t), snd t)) (all_templates l).

(** The stylesheet m imports i, includes b and declares the template m; b imports j. *)
Definition few_documents : list (string * xml (scope := unit)) :=
  [("b", root_ [bring "import" "j"; named_ "b"]); ("i", root_ [named_ "i"]); ("j", root_ [named_ "j"])]%string.
Definition main_document : xml := root_ [bring "import" "i"; bring "include" "b"; named_ "m"].
Definition main_items : list (item (declaration (X := str) (M := str) (N := str) (P := str))) :=
  let d n := Declares (DTemplate (template_ n)) in [Imports [d "i"]; Includes [Imports [d "j"]; d "b"]; d "m"]%string.

Lemma named_declared : forall n, t_ n <> [] -> own_element anything (named_ n) (DTemplate (template_ n)).
Proof.
  intros n Nn. split; [|split; [|split; [reflexivity|split; [cbn; auto|]]]].
  - apply (D_template anything [] false false _ [] [] [] (t_ n) [] None [] []).
    + split; reflexivity.
    + only_.
    + left. exists (t_ n). split; [has_|]. split; [exact Nn|reflexivity].
    + right. split; [lacks_|reflexivity].
    + right. split; [lacks_|]. split; [lacks_|]. split; [lacks_|]. split; [reflexivity|]. split; [reflexivity|]. exists (t_ n). has_.
    + plain_space.
    + constructor.
    + constructor.
  - ordinary_. tag_.
  - intros g [E|[E|[]]]; [|discriminate E]. injection E as <-. intros [[_ Q]|[_ Q]]; vm_compute in Q; discriminate Q.
Qed.
Lemma bring_refers : forall how h, how = "include"%string \/ how = "import"%string -> t_ h <> [] -> forall base, refers by_name (Tag tt xslt (t_ how) (t_ ("xsl:" ++ how)) [un "href" h]) how base (t_ h).
Proof.
  intros how h Hh Nh base. split; [split; reflexivity|]. split; [only_|]. split; [destruct Hh as [-> | ->]; tag_|]. split.
  - intros a [<-|[]] U. exfalso. apply U. reflexivity.
  - exists (t_ h). split; [has_|]. split; [exact Nh|reflexivity].
Qed.
Lemma root_tagged : root_tag (Tag tt xslt (t_ "stylesheet") (t_ "xsl:stylesheet") [un "version" "1.0"]).
Proof. split; [left; split; reflexivity|]. split; [only_|]. split; [has_|tag_]. Qed.
Lemma main_module : module anything (library few_documents) by_name true [] (t_ "m") main_document main_items.
Proof.
  apply Module; [exact root_tagged|].
  apply (N_import anything (library few_documents) by_name true [] (t_ "m") _ (t_ "i") [] (root_ [named_ "i"]) _ _ _); [apply bring_refers; [right; reflexivity|discriminate]|intros []|reflexivity| |constructor|reflexivity|].
  - apply Module; [exact root_tagged|]. apply N_declares; [apply named_declared; discriminate|apply N_end].
  - apply (N_include anything (library few_documents) by_name true [] (t_ "m") _ (t_ "b") [] (root_ [bring "import" "j"; named_ "b"]) _ _ _); [apply bring_refers; [left; reflexivity|discriminate]|intros []|reflexivity| |constructor|reflexivity|].
    + apply Module; [exact root_tagged|].
      apply (N_import anything (library few_documents) by_name false [t_ "b"] (t_ "b") _ (t_ "j") [] (root_ [named_ "j"]) _ _ _); [apply bring_refers; [right; reflexivity|discriminate]|intros [Q|[]]; discriminate Q|reflexivity| |constructor|reflexivity|].
      * apply Module; [exact root_tagged|]. apply N_declares; [apply named_declared; discriminate|apply N_end].
      * apply N_declares; [apply named_declared; discriminate|apply N_end].
    + apply N_declares; [apply named_declared; discriminate|apply N_end].
Qed.
Lemma anything_agrees : no_current anything.
Proof. split; reflexivity. Qed.
Lemma main_sound : Forall (fun x => sound (snd x)) (visit [] (tree_of main_items)).
Proof. cbn. repeat (apply Forall_cons; [split; [cbn; repeat (apply NoDup_cons; [cbn; intuition discriminate|]); apply NoDup_nil|cbn; lia]|]). apply Forall_nil. Qed.
Example C70_stylesheets_example : exists l, compiled few_documents main_document = Done l /\
  Forall2 (fun x y => fst y = code (fst x) /\ alike (sheet_of (snd x)) (snd y)) (rev (visit [] (tree_of main_items))) l.
Proof. apply (C70_stylesheets_partial anything anything_agrees (library few_documents) by_name (t_ "m") main_document main_items 20 true main_module main_sound). cbn. lia. Qed.
(** The templates of m and b have the same precedence; j, which comes later, comes before i. *)
Example C70_stylesheets_example_result : match compiled few_documents main_document with Done l => names_of l | _ => [] end = [(t_ "b", [0]); (t_ "m", [0]); (t_ "j", [0; 2]); (t_ "i", [0; 1])].
Proof. vm_compute. reflexivity. Qed.
Example C70_combines_example : exists items, unfolds (given_world (library few_documents)) by_name true [] (t_ "m") (reports main_document) items.
Proof. destruct (shown anything anything_agrees (library few_documents) by_name _ _ _ _ _ main_module) as (its & U & _). exists its. exact U. Qed.
Example C70_ends_example : forall h, given_world (library few_documents) h <> None -> In h [t_ "b"; t_ "i"; t_ "j"].
Proof.
  intros h H. unfold given_world, library, few_documents in H. cbn [find fst] in H.
  destruct (str_eqb (t_ "b") h) eqn:E1; [apply str_eqb_true in E1; left; exact E1|]. destruct (str_eqb (t_ "i") h) eqn:E2; [apply str_eqb_true in E2; right; left; exact E2|].
  destruct (str_eqb (t_ "j") h) eqn:E3; [apply str_eqb_true in E3; right; right; left; exact E3|]. exfalso. apply H. reflexivity.
Qed.
(** A document that brings itself in is an error. *)
Example C70_loop_example : compiled [("b", root_ [bring "include" "c"]); ("c", root_ [bring "import" "b"])]%string (root_ [bring "include" "b"]) = Fails /\
  compiled [("m", root_ [bring "include" "m"])]%string (root_ [bring "include" "m"]) = Fails.
Proof. split; vm_compute; reflexivity. Qed.

(** * Where XSLT is not followed *)
(** An xsl:include of the main document that holds white space is passed over, without an error;
    another one after it is an error (XSLT 3.4: white space is stripped). *)
Theorem C70_white_refuted :
  let b := ("b"%string, root_ [named_ "b"]) in
  let spaced_ := xe "include" [un "href" "b"] [Txt [32]] in
  compiled [b] (root_ [bring "include" "b"]) = Done [([0], Sheet [template_ "b"] [] [] None [])] /\
  compiled [b] (root_ [spaced_]) = Done [([0], no_sheet)] /\
  compiled [b] (root_ [spaced_; bring "include" "b"]) = Fails.
Proof. vm_compute. repeat split. Qed.
Print Assumptions C70_white_refuted.

(** If a document that is included has an error, and includes another one, the message about it
    is made from a string that is gone. *)
Theorem C70_dangling_refuted :
  let world h := if str_eqb h (t_ "b") then Some (Doc (reports (root_ [bring "include" "c"])) false)
                 else if str_eqb h (t_ "c") then Some (Doc (reports (root_ [named_ "c"])) true) else None in
  compile_sheets anything 20 world by_name (t_ "m") (Doc (reports (root_ [bring "include" "b"])) true) = Wild.
Proof. vm_compute. reflexivity. Qed.
Print Assumptions C70_dangling_refuted.

(** That the main document is not well-formed is never found out. *)
Theorem C70_malformed_refuted : forall {scope X M N P : Type} (V : services (scope := scope) (X := X) (M := M) (N := N) (P := P)) n world absolute base evs,
  compile_sheets V n world absolute base (Doc evs false) = compile_sheets V n world absolute base (Doc evs true).
Proof. reflexivity. Qed.
Print Assumptions C70_malformed_refuted.

(** xsl:output of a stylesheet that is imported counts instead of that of the one that imports it
    (XSLT 16: the one with the highest import precedence is used). *)
Theorem C70_output_refuted :
  match compiled [("i"%string, root_ [outputs_ "xml"])] (root_ [bring "import" "i"; outputs_ "html"]) with
  | Done l => option_map (fun o => lookup o (t_ "method")) (last_output l) | _ => None end = Some (t_ "xml").
Proof. vm_compute. reflexivity. Qed.
Print Assumptions C70_output_refuted.

(** xsl:import may come after other elements (XSLT 2.6.2: it must come first). *)
Theorem C70_late_import_refuted :
  match compiled [("i"%string, root_ [named_ "i"])] (root_ [named_ "m"; bring "import" "i"]) with Done l => names_of l | _ => [] end = [(t_ "m", [0]); (t_ "i", [0; 1])].
Proof. vm_compute. reflexivity. Qed.
Print Assumptions C70_late_import_refuted.

(** In a document that is brought in xsl:import may be anywhere, even inside a template, where it
    is an error in the main document. *)
Theorem C70_inside_refuted :
  let inside := root_ [xe "template" [un "name" "b"] [bring "import" "i"]] in
  let i := ("i"%string, root_ [named_ "i"]) in
  match compiled [("b"%string, inside); i] (root_ [bring "include" "b"]) with Done l => names_of l | _ => [] end = [(t_ "b", [0]); (t_ "i", [0; 1])] /\
  compiled [i] inside = Fails.
Proof. vm_compute. repeat split. Qed.
Print Assumptions C70_inside_refuted.

(** Two templates of an imported stylesheet may have one name if a template of the importing one
    has it too (XSLT 6: it is an error). *)
Theorem C70_names_refuted :
  let i := ("i"%string, root_ [named_ "x"; named_ "x"]) in
  match compiled [i] (root_ [bring "import" "i"; named_ "x"]) with Done l => names_of l | _ => [] end = [(t_ "x", [0]); (t_ "x", [0; 1]); (t_ "x", [0; 1])] /\
  compiled [i] (root_ [bring "import" "i"]) = Fails.
Proof. vm_compute. repeat split. Qed.
Print Assumptions C70_names_refuted.
