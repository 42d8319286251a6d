(** C67: declarations, as the readers hand them to a declaration handler. *)
From Coq Require Import String.
From Verif.Model Require Import Base XSort ContentText.
From Verif.Spec Require Import ContentTextSpec.
From Verif.Proof Require Import ContentTextProof.
From Verif.Props Require Import FilterProps.
From Coq Require Import List.
Import ListNotations.
Open Scope Z_scope.

(** C67. Through expat, a content model is written so that reading it back gives the model;
    all but mixed content with element names. *)
Theorem C67_expat_partial : forall c, proper_spec c -> (forall n l, c <> Mixed (n :: l)) ->
  read_contentspec (convert_content false (given_spec c)) = Some c.
Proof. exact expat_reads. Qed.
Print Assumptions C67_expat_partial.

(** So two models are told apart. *)
Theorem C67_distinct_partial : forall c d, proper_spec c -> proper_spec d ->
  (forall n l, c <> Mixed (n :: l)) -> (forall n l, d <> Mixed (n :: l)) ->
  convert_content false (given_spec c) = convert_content false (given_spec d) -> c = d.
Proof.
  intros c d C D MC MD E. apply expat_reads in C; auto. apply expat_reads in D; auto.
  rewrite E in C. congruence.
Qed.
Print Assumptions C67_distinct_partial.

(** Through libxml2: one group of two or more names. *)
Theorem C67_libxml2_partial : forall (choice : bool) a b l o,
  Forall (fun x => proper_name (fst x)) (a :: b :: l) ->
  exists t, lx_element_decl LxElementDecl (Some (occurs o (chain (if choice then LxOr else LxSeq) a (b :: l)))) = Val t
    /\ read_contentspec t
       = Some (Children ((if choice then PChoice else PSeq) (map name_of (a :: b :: l)) o)).
Proof. exact libxml2_reads. Qed.
Print Assumptions C67_libxml2_partial.

(** ** Findings *)
(** Mixed content with the names a and b comes from expat's reader without the first bar, so
    that it cannot be read. *)
Theorem C67_mixed_refuted :
  proper_spec (Mixed [[97]; [98]])
  /\ convert_content false (given_spec (Mixed [[97]; [98]])) = lit "(#PCDATAa|b)*"
  /\ read_contentspec (lit "(#PCDATAa|b)*") = None.
Proof.
  split; [|split; vm_compute; reflexivity].
  repeat constructor; discriminate.
Qed.
Print Assumptions C67_mixed_refuted.

(** libxml2's reader: EMPTY follows a null pointer; mixed content has a parenthesis too many;
    groups within groups lose their parentheses. *)
Theorem C67_empty_refuted : lx_element_decl LxEmptyDecl None = UB.
Proof. reflexivity. Qed.
Print Assumptions C67_empty_refuted.
Theorem C67_libxml2_mixed_refuted :
  lx_element_decl LxMixedDecl
    (Some (LxContent LxOr Rep [] (Some (LxContent LxPcdata Once [] None None)) (Some (leaf [97] One))))
  = Val (lit "(#PCDATA(|a)*")
  /\ read_contentspec (lit "(#PCDATA(|a)*") = None.
Proof. split; vm_compute; reflexivity. Qed.
Print Assumptions C67_libxml2_mixed_refuted.
(** The sequence of a and any number of b or c. *)
Theorem C67_nested_refuted :
  lx_element_decl LxElementDecl
    (Some (LxContent LxSeq Once [] (Some (leaf [97] One))
             (Some (occurs Any_number (chain LxOr ([98], One) [([99], One)])))))
  = Val (lit "(a,b|c*)")
  /\ read_contentspec (lit "(a,b|c*)") = None.
Proof. split; vm_compute; reflexivity. Qed.
Print Assumptions C67_nested_refuted.

(** ** Attribute modes *)
(** What expat hands over: isrequired and the default. *)
Definition expat_mode (m : mode) : bool * option (list Z) :=
  match m with
  | Required => (true, None) | Implied => (false, None)
  | Fixed v => (true, Some v) | Default v => (false, Some v)
  end.
Theorem C67_mode_partial : forall m, (forall v, m <> Default v) ->
  mode_name (fst (expat_mode m)) (snd (expat_mode m)) = sax_mode m.
Proof. intros [| |v|v] H; [reflexivity..|now destruct (H v)]. Qed.
Print Assumptions C67_mode_partial.
(** A default that is not fixed is reported as #IMPLIED. *)
Theorem C67_default_refuted : forall v,
  mode_name (fst (expat_mode (Default v))) (snd (expat_mode (Default v))) = lit "#IMPLIED"
  /\ sax_mode (Default v) <> lit "#IMPLIED".
Proof. intros v. split; [reflexivity|discriminate]. Qed.
Print Assumptions C67_default_refuted.
(** libxml2 counts the modes from 1: the reader reports #IMPLIED as #REQUIRED, and every
    default as #FIXED. *)
Definition libxml2_mode (m : mode) : Z * option (list Z) :=
  match m with
  | Default v => (1, Some v) | Required => (2, None) | Implied => (3, None) | Fixed v => (4, Some v)
  end.
Theorem C67_libxml2_mode_refuted :
  lx_mode_name (fst (libxml2_mode Implied)) (snd (libxml2_mode Implied)) = lit "#REQUIRED"
  /\ forall v, lx_mode_name (fst (libxml2_mode (Default v))) (snd (libxml2_mode (Default v))) = lit "#FIXED".
Proof. split; reflexivity. Qed.
Print Assumptions C67_libxml2_mode_refuted.
(** SAX asks for token lists without spaces. *)
Theorem C67_tokens_refuted : enum_text false [[97]; [98]] = lit "(a | b)".
Proof. reflexivity. Qed.
Print Assumptions C67_tokens_refuted.

(** ** The hypotheses can be met *)
Definition nested_model : contentspec :=
  Children (PSeq [PName (lit "head") One; PChoice [PName (lit "p") Some_; PSeq [PName (lit "q") One] Maybe] Any_number] Some_).
Example C67_case : proper_spec nested_model
  /\ convert_content false (given_spec nested_model) = lit "(head,(p+|(q)?)*)+".
Proof.
  split; [|vm_compute; reflexivity].
  repeat split; cbn; try discriminate; try lia; repeat constructor.
Qed.
Example C67_libxml2_case :
  lx_element_decl LxElementDecl (Some (occurs Some_ (chain LxSeq ([97], Maybe) [([98], One); ([99], Any_number)])))
  = Val (lit "(a?,b,c*)+").
Proof. vm_compute; reflexivity. Qed.
