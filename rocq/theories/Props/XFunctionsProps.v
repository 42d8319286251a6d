(** C76: the functions of XSLT and the calls of functions. *)
From Coq Require Import String List ZArith.
From Verif.Model Require Import Base Uri XNode XNodeSet XCompare XStep XSort XEval XParse XSheet XFunctions.
From Verif.Spec Require Import XmlChars XOrder XNodeSetSpec XFunctionsSpec.
From Verif.Proof Require Import XFunctionsProof.
From Verif.Props Require Import XNodeSetProps.
Import ListNotations.
Open Scope Z_scope.

(** Which calls compile: those of the functions of XPath and XSLT, with as many arguments as they
    take.  Partial: Arabica does not have four of them. *)
Theorem C76_calls_partial : forall name n, ~ In name missing ->
  ((exists f, make_function true [] name n = Got f) <-> can_be_called name n).
Proof. exact calls_lemma. Qed.
Print Assumptions C76_calls_partial.
Example C76_calls_case : ~ In (ascii_str "substring") missing /\ can_be_called (ascii_str "substring") 3 /\ ~ can_be_called (ascii_str "substring") 4.
Proof.
  assert (N : ~ In (ascii_str "substring") missing) by (vm_compute; intuition discriminate).
  split; [exact N|]. split; rewrite <- (C76_calls_partial _ _ N).
  - eexists. vm_compute. reflexivity.
  - intros (f & H). vm_compute in H. discriminate.
Qed.
(** id, lang, format-number and unparsed-entity-uri cannot be called at all. *)
Theorem C76_missing_refuted : exists name n, can_be_called name n /\ In name missing /\ make_function true [] name n = Raises.
Proof.
  exists (ascii_str "format-number"), 2%nat. split; [|split; [vm_compute; tauto|reflexivity]].
  exists 2%nat, (Some 3%nat). split; [vm_compute; tauto|]. split; repeat constructor.
Qed.
Print Assumptions C76_missing_refuted.
Theorem C76_missing : forall name n, In name missing -> make_function true [] name n = Raises.
Proof. exact missing_lemma. Qed.
Print Assumptions C76_missing.
(** A call of a function of another namespace compiles, whatever it is given, so that a stylesheet
    may ask first whether there is one; it is no function of Arabica. *)
Theorem C76_extension : forall current uri name n, uri <> [] -> make_function current uri name n = Got Undefined.
Proof. exact foreign_lemma. Qed.
Print Assumptions C76_extension.
Example C76_extension_case : make_function true (ascii_str "http://exslt.org/math") (ascii_str "max") 1 = Got Undefined /\
  function_available (fun p => if str_eqb p (ascii_str "m") then Some (ascii_str "http://exslt.org/math") else None) (ascii_str "m:max") = Got false.
Proof. split; [apply C76_extension; discriminate|vm_compute; reflexivity]. Qed.

(** function-available tells whether some call of the function compiles and is not of an undefined
    function.  Partial: not for unparsed-entity-uri. *)
Theorem C76_function_available_partial : forall ns raw uri n, reads ns raw uri n -> n <> ascii_str "unparsed-entity-uri" ->
  (function_available ns raw = Got true <-> exists k f, make_function true uri n k = Got f /\ f <> Undefined).
Proof. exact functions_lemma. Qed.
Print Assumptions C76_function_available_partial.
Lemma plain : forall s, Text.is_ncname s = true -> NCName s.
Proof. intros s. apply TextProof.ncname_spec. Qed.
Example C76_function_available_case : reads (fun _ => None) (ascii_str "concat") [] (ascii_str "concat").
Proof. left. split; [apply plain; vm_compute; reflexivity|auto]. Qed.
(** It says that there is unparsed-entity-uri; no call of that compiles. *)
Theorem C76_unparsed_refuted : exists ns raw uri n, reads ns raw uri n /\ function_available ns raw = Got true /\
  forall k, make_function true uri n k = Raises.
Proof.
  exists (fun _ => None), (ascii_str "unparsed-entity-uri"), [], (ascii_str "unparsed-entity-uri").
  split; [left; split; [apply plain; vm_compute; reflexivity|auto]|]. split; [vm_compute; reflexivity|]. intros k. reflexivity.
Qed.
Print Assumptions C76_unparsed_refuted.
(** A prefix that is not declared is taken for none, and no error. *)
Theorem C76_undeclared_refuted : exists ns raw, ns (ascii_str "other") = None /\ raw = ascii_str "other:concat" /\ function_available ns raw = Got true.
Proof. exists (fun _ => None), (ascii_str "other:concat"). repeat split; vm_compute; reflexivity. Qed.
Print Assumptions C76_undeclared_refuted.
(** In a match pattern current() is refused. *)
Theorem C76_no_current : forall n, make_function false [] (ascii_str "current") n = Raises.
Proof. reflexivity. Qed.
Print Assumptions C76_no_current.

(** element-available tells whether the compiler takes the element as an instruction, with some
    attributes, in the content of an instruction.  Partial: not for fallback and number. *)
Theorem C76_element_available_partial :
  forall (scope X M N P : Type) (V : services (scope := scope) (X := X) (M := M) (N := N) (P := P))
    (c : compiler) x items done below ns raw n,
  reads ns raw xslt_uri n -> c_stack c = Box (KIf x) items done :: below -> able V (c_current c) ->
  n <> ascii_str "fallback" -> n <> ascii_str "number" ->
  (element_available ns raw = Got true <->
   exists g c', g_uri g = xslt_uri /\ g_local g = n /\ start_element V c g = Ok c').
Proof. intros scope X M N P V. exact (elements_lemma V). Qed.
Print Assumptions C76_element_available_partial.
Definition some_services : services (scope := unit) (X := str) (M := str) (N := str) (P := Z) :=
  Services (fun _ _ _ s => Some s) (fun _ _ s => Some s) (fun _ _ s => Some [s]) (fun _ s => Some s) (fun _ s => Some [s]) (fun _ => None) (fun _ => []).
Definition in_an_if : compiler (X := str) (M := str) (N := str) (P := Z) :=
  with_stack [Box (KIf (ascii_str "1")) [] false; Box (KTemplate [ascii_str "/"] [] [] None) [] true] start_compiler.
Definition xsl_only (p : str) : option str := if str_eqb p (ascii_str "xsl") then Some xslt_uri else None.
Example C76_element_available_case :
  reads xsl_only (ascii_str "xsl:for-each") xslt_uri (ascii_str "for-each") /\
  c_stack in_an_if = [Box (KIf (ascii_str "1")) [] false; Box (KTemplate [ascii_str "/"] [] [] None) [] true] /\
  able some_services (c_current in_an_if) /\ element_available xsl_only (ascii_str "xsl:for-each") = Got true /\
  element_available xsl_only (ascii_str "xsl:sort") = Got false.
Proof.
  split; [right; exists (ascii_str "xsl"); repeat split; try (apply plain; vm_compute; reflexivity); reflexivity|].
  split; [reflexivity|]. split; [|split; vm_compute; reflexivity].
  repeat split; exists tt, [49], [49]; split; try discriminate; reflexivity.
Qed.
(** It says that there are xsl:fallback and xsl:number; the compiler throws. *)
Theorem C76_unimplemented_refuted : forall local, In local ["fallback"; "number"]%string ->
  element_available xsl_only (ascii_str "xsl:" ++ ascii_str local) = Got true /\
  forall (scope X M N P : Type) (V : services (scope := scope) (X := X) (M := M) (N := N) (P := P))
    (c : compiler) x items done below (g : tag), c_stack c = Box (KIf x) items done :: below -> g_uri g = xslt_uri ->
    g_local g = ascii_str local -> start_element V c g = Throws.
Proof.
  intros local I. split.
  - cbn in I. destruct I as [<-|[<-|[]]]; vm_compute; reflexivity.
  - intros scope X M N P V c x items done below g E U L. eapply unready_lemma; [exact E|exact U|].
    cbn in I. destruct I as [<-|[<-|[]]]; [left|right]; exact L.
Qed.
Print Assumptions C76_unimplemented_refuted.
(** Elements in no namespace are said to be instructions. *)
Theorem C76_no_namespace_refuted : forall ns, element_available ns (ascii_str "if") = Got true.
Proof. intros ns. vm_compute. reflexivity. Qed.
Print Assumptions C76_no_namespace_refuted.

(** generate-id gives nodes that are there at one time, which have addresses of their own, the same
    text only if they are the same node; it is of letters and digits. *)
Theorem C76_ids_partial : forall k address (there : xnode -> Prop), (forall x, there x -> 0 <= address x) ->
  (forall x y, there x -> there y -> address x = address y -> x = y) ->
  forall x y p l p' l', there x -> there y ->
  exists s t, generate_id k address [] x p l = Got (VStr s) /\ generate_id k address [] y p' l' = Got (VStr t) /\
    s <> [] /\ Forall alphanumeric s /\ (s = t <-> x = y).
Proof. exact ids_lemma. Qed.
Print Assumptions C76_ids_partial.
Definition two_nodes (x : xnode) : Prop := x = (0%nat, []) \/ x = (0%nat, [Kid 0]).
Definition their_address (x : xnode) : Z := match snd x with [] => 4096 | _ => 4352 end.
Example C76_ids_case : (forall x, two_nodes x -> 0 <= their_address x) /\
  (forall x y, two_nodes x -> two_nodes y -> their_address x = their_address y -> x = y) /\
  pointer (their_address (0%nat, [])) = ascii_str "0x1000" /\ pointer (their_address (0%nat, [Kid 0])) = ascii_str "0x1100".
Proof.
  split; [intros x [->| ->]; cbn; discriminate|]. split; [|split; vm_compute; reflexivity].
  intros x y [->| ->] [->| ->] E; try reflexivity; discriminate E.
Qed.
(** Of a node set, it is that of the first node in document order. *)
Theorem C76_id_of_set_partial : forall k address e x p l s, sorts (e_sort k) -> documents (e_forest k) -> made (e_sort k) (e_forest k) s ->
  e x p l = Got (VSet s) ->
  (s_nodes s = [] /\ generate_id k address [e] x p l = Got (VStr [])) \/
  exists y, In y (s_nodes s) /\ (forall z, In z (s_nodes s) -> z = y \/ precedes (e_forest k) y z) /\
    generate_id k address [e] x p l = generate_id k address [] y p l.
Proof. exact id_of_set_lemma. Qed.
Print Assumptions C76_id_of_set_partial.
(** It is never a name: the first character is a digit. *)
Theorem C76_id_name_refuted : forall k address x p l, exists s, generate_id k address [] x p l = Got (VStr s) /\ ~ NCName s.
Proof.
  intros k address x p l. exists (pointer (address x)). split; [reflexivity|].
  destruct (pointer_plain (address x)) as (_ & r & ->). rewrite <- TextProof.ncname_spec. vm_compute. discriminate.
Qed.
Print Assumptions C76_id_name_refuted.

(** system-property, for stylesheets that use the prefix xsl for XSLT, and no other. *)
Theorem C76_properties_partial : forall ns raw uri local, reads ns raw uri local ->
  (forall p, ns p = Some xslt_uri <-> p = ascii_str "xsl") -> system_property raw = property uri local.
Proof. exact property_lemma. Qed.
Print Assumptions C76_properties_partial.
Example C76_properties_case : (forall p, xsl_only p = Some xslt_uri <-> p = ascii_str "xsl") /\
  reads xsl_only (ascii_str "xsl:version") xslt_uri (ascii_str "version") /\ property xslt_uri (ascii_str "version") = ascii_str "1.0".
Proof.
  split; [|split; [right; exists (ascii_str "xsl"); repeat split; try (apply plain; vm_compute; reflexivity); reflexivity|vm_compute; reflexivity]].
  intros p. unfold xsl_only. rewrite <- ContainersProof.str_eqb_true. destruct (str_eqb p (ascii_str "xsl")); split; congruence.
Qed.
(** With another prefix there are none. *)
Theorem C76_prefix_refuted : exists ns raw uri local, reads ns raw uri local /\ uri = xslt_uri /\
  system_property raw = [] /\ property uri local = ascii_str "1.0".
Proof.
  exists (fun p => if str_eqb p (ascii_str "t") then Some xslt_uri else None), (ascii_str "t:version"), xslt_uri, (ascii_str "version").
  split; [right; exists (ascii_str "t"); repeat split; try (apply plain; vm_compute; reflexivity); reflexivity|].
  split; [reflexivity|split; vm_compute; reflexivity].
Qed.
Print Assumptions C76_prefix_refuted.

(** document() with one string gives the root of what is at that place, resolved against the base
    of the stylesheet, or nothing; every call, a node of its own. *)
Theorem C76_documents_partial : forall world first base b, Uri.parse base = Val b ->
  forall locations loaded results loaded',
  documents_run world first base locations loaded = Got (loaded', results) ->
  (exists more, loaded' = loaded ++ more) /\
  Forall2 (fun location s => exists u, Uri.resolve b location = Val (Some u) /\
    match world (Uri.as_string u) with
    | None => s_nodes s = []
    | Some t => exists i, (length loaded <= i)%nat /\ s_nodes s = [((first + i)%nat, [])] /\ nth_error loaded' i = Some t
    end) locations results /\ NoDup (flat_map s_nodes results).
Proof. exact documents_lemma. Qed.
Print Assumptions C76_documents_partial.
Definition small : xtree := Xt (Info Xdocument [] [] [] [] []) [] [].
Definition one_place (s : str) : option xtree := if str_eqb s (ascii_str "http://a/d/x.xml") then Some small else None.
Example C76_documents_case : exists loaded results,
  documents_run one_place 1 (ascii_str "http://a/d/s.xsl") [ascii_str "x.xml"; ascii_str "y.xml"; ascii_str "/d/x.xml"] [] = Got (loaded, results) /\
  map s_nodes results = [[(1%nat, [])]; []; [(2%nat, [])]].
Proof. eexists. eexists. split; vm_compute; reflexivity. Qed.
(** The same place twice is two documents: document('x') | document('x') has two nodes. *)
Theorem C76_document_twice_refuted : exists a b,
  documents_run one_place 1 (ascii_str "http://a/d/s.xsl") [ascii_str "x.xml"; ascii_str "x.xml"] [] = Got ([small; small], [a; b]) /\
  s_nodes a = [(1%nat, [])] /\ s_nodes b = [(2%nat, [])].
Proof. eexists. eexists. split; [vm_compute; reflexivity|split; reflexivity]. Qed.
Print Assumptions C76_document_twice_refuted.
(** Numbers, node sets, and a second argument are refused. *)
Theorem C76_document_arguments_refuted : forall world first base loaded v, (forall s, v <> VStr s) ->
  document world first base [v] loaded = Raises /\ forall s w, document world first base [VStr s; w] loaded = Raises.
Proof. intros world first base loaded [b|n|s|s] H; split; try reflexivity; destruct (H s); reflexivity. Qed.
Print Assumptions C76_document_arguments_refuted.
