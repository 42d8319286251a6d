(** C66: the events of the readers around expat and libxml2. *)
From Coq Require Import String Permutation.
From Verif.Model Require Import Base Containers Text NsSupport Attrs Sax Wrapper.
From Verif.Spec Require Import XmlChars WrapperSpec.
From Verif.Proof Require Import TextProof WrapperProof.
From Verif.Props Require Import FilterProps.
From Coq Require Import List.
Import ListNotations.
Open Scope Z_scope.

(** A reader with a content handler, doing namespaces. *)
Definition listening (s : settings) : Prop := s_content s = true /\ s_namespaces s = true.
(** The documents: they meet the namespace constraints, no attribute but a declaration has a
    name that begins with xmlns and, for libxml2, no CDATA section follows another. *)
Definition well (lib : library) (doc : list node) : Prop :=
  Forall (good lib outermost) doc /\ (lib = Libxml2 -> parted false doc).

(** C66. Through libxml2, and through expat when every element declares a namespace: exactly
    the events of the document, no error, and the reader is as new. *)
Theorem C66_events_partial : forall lib s doc, listening s -> well lib doc ->
  lib = Libxml2 \/ Forall (every declares_some) doc ->
  exists evs, shows_all (s_prefixes s) (s_lexical s) outermost doc evs
    /\ parse lib s (flat_map (calls lib) doc) true new_reader
       = (map Said (StartDocument :: evs ++ [EndDocument]), Fine new_reader).
Proof.
  intros lib s doc [HC HN] [G P] D. destruct (parse_ok lib s doc HC HN G P) as (evs & H & E).
  exists evs. split; auto. exact (proj2 (hears_exact lib s) _ _ _ _ H D).
Qed.
Print Assumptions C66_events_partial.

(** For every document: exactly its events but for the ends of mappings. *)
Theorem C66_but_ends_partial : forall lib s doc, listening s -> well lib doc ->
  exists evs out, shows_all (s_prefixes s) (s_lexical s) outermost doc evs
    /\ filter not_end out = filter not_end evs
    /\ parse lib s (flat_map (calls lib) doc) true new_reader
       = (map Said (StartDocument :: out ++ [EndDocument]), Fine new_reader).
Proof.
  intros lib s doc [HC HN] [G P]. destruct (parse_ok lib s doc HC HN G P) as (out & H & E).
  destruct (proj2 (hears_loosely lib s) _ _ _ _ H) as (evs & S & F). exists evs, out. auto.
Qed.
Print Assumptions C66_but_ends_partial.

(** So one reader reads any number of such documents, each as a new one would. *)
Fixpoint parse_each (lib : library) (s : settings) (docs : list (list node)) (r : reader)
  : list (list report) * status :=
  match docs with
  | [] => ([], Fine r)
  | d :: k =>
      match parse lib s (flat_map (calls lib) d) true r with
      | (l, Fine r') => let (ls, st) := parse_each lib s k r' in (l :: ls, st)
      | (l, st) => ([l], st)
      end
  end.
Theorem C66_again : forall lib s docs, listening s -> Forall (well lib) docs ->
  parse_each lib s docs new_reader
  = (map (fun d => fst (parse lib s (flat_map (calls lib) d) true new_reader)) docs, Fine new_reader).
Proof.
  intros lib s docs [HC HN]. induction docs as [|d k IH]; intros W; cbn [parse_each map]; auto.
  inversion_clear W as [|? ? [G P] W2]. destruct (parse_ok lib s d HC HN G P) as (out & _ & E).
  rewrite E. now rewrite IH.
Qed.
Print Assumptions C66_again.

(** ** Findings *)
Definition all_on : settings := Settings true true true true true.
Definition p_ : str := [112].
Definition a_ : xname := Plain [97].
Definition b_ : xname := Plain [98].
Definition u_ : str := [117].

(** Through expat a document without any declaration ends a mapping of xml that was never
    started. *)
Theorem C66_xml_ends_refuted :
  well Expat [Element a_ [] []]
  /\ fst (parse Expat all_on (flat_map (calls Expat) [Element a_ [] []]) true new_reader)
     = map Said [StartDocument; StartElement [] [97] [97] []; EndElement [] [97] [97];
                 EndPrefix [120; 109; 108]; EndDocument].
Proof.
  split; [|vm_compute; reflexivity].
  split; [|discriminate]. repeat constructor; try discriminate.
  apply ncname_spec. vm_compute; reflexivity.
Qed.
Print Assumptions C66_xml_ends_refuted.

(** ... and each element inside another ends the mappings of the other, while they are in
    force. *)
Theorem C66_early_ends_refuted :
  fst (parse Expat all_on (flat_map (calls Expat)
         [Element a_ [Declares (Some p_) u_] [Element b_ [] []; Element (Prefixed p_ [99]) [] []]])
         true new_reader)
  = map Said [StartDocument; StartPrefix p_ u_;
              StartElement [] [97] [97] [Attr [] [] (lit "xmlns:p") (lit "CDATA") u_];
              StartElement [] [98] [98] []; EndElement [] [98] [98]; EndPrefix p_;
              StartElement u_ [99] (lit "p:c") []; EndElement u_ [99] (lit "p:c"); EndPrefix p_;
              EndElement [] [97] [97]; EndPrefix p_; EndDocument].
Proof. vm_compute; reflexivity. Qed.
Print Assumptions C66_early_ends_refuted.

(** An attribute whose name only begins with xmlns is taken to declare the default namespace
    (both readers). *)
Theorem C66_xmlns_attribute_refuted : forall lib,
  fst (parse lib all_on (flat_map (calls lib) [Element a_ [Has (Plain (lit "xmlnsish")) u_] []])
         true new_reader)
  = map Said [StartDocument; StartPrefix [] u_;
              StartElement u_ [97] [97] [Attr [] [] (lit "xmlnsish") (lit "CDATA") u_];
              EndElement u_ [97] [97]; EndPrefix []; EndDocument].
Proof. intros []; vm_compute; reflexivity. Qed.
Print Assumptions C66_xmlns_attribute_refuted.

(** Declaring xml as the namespace it always has is legal, but an error is reported. *)
Theorem C66_xml_declared_refuted : forall lib, exists evs,
  fst (parse lib all_on (flat_map (calls lib) [Element a_ [Declares (Some xml) xml_uri] []])
         true new_reader) = Said StartDocument :: Erred (IllegalPrefix xml) :: evs.
Proof. intros []; eexists; vm_compute; reflexivity. Qed.
Print Assumptions C66_xml_declared_refuted.

(** Two CDATA sections in a row are reported by libxml2's reader as one. *)
Theorem C66_sections_refuted :
  fst (parse Libxml2 all_on (flat_map (calls Libxml2) [Element a_ [] [Section [120]; Section [121]]])
         true new_reader)
  = map Said [StartDocument; StartElement [] [97] [97] []; StartCDATA; Characters [120];
              Characters [121]; EndCDATA; EndElement [] [97] [97]; EndDocument].
Proof. vm_compute; reflexivity. Qed.
Print Assumptions C66_sections_refuted.

(** After a document that breaks off inside an element, the prefixes declared there are still
    bound in the next document, which uses one without declaring it: no error is reported. *)
Theorem C66_left_over_refuted : forall lib,
  let broken := [CStart [97] [(lit "xmlns:p", u_)]] in
  let next := [Element (Prefixed p_ [99]) [] []] in
  exists r, snd (parse lib all_on broken false new_reader) = Fine r
  /\ ~ all_proper outermost (Element (Prefixed p_ [99]) [] [])
  /\ In (Erred (UndeclaredPrefix (lit "p:c")))
       (fst (parse lib all_on (flat_map (calls lib) next) true new_reader))
  /\ ~ (exists e, In (Erred e) (fst (parse lib all_on (flat_map (calls lib) next) true r)))
  /\ In (Said (StartElement u_ [99] (lit "p:c") []))
       (fst (parse lib all_on (flat_map (calls lib) next) true r)).
Proof.
  intros lib broken next.
  exists (match snd (parse lib all_on broken false new_reader) with Fine r => r | _ => new_reader end).
  split; [destruct lib; vm_compute; reflexivity|]. split.
  - cbn [all_proper proper_name]. intros (_ & (_ & _ & B) & _). apply B. reflexivity.
  - destruct lib; vm_compute; repeat split; auto 10.
    all: intros [e H]; repeat (destruct H as [H|H]; [discriminate|]); exact H.
Qed.
Print Assumptions C66_left_over_refuted.

(** A name with two colons makes parse throw, and the reader then refuses to have its features
    set, as if it were still parsing. *)
Theorem C66_stuck_refuted : forall lib, exists r,
  snd (parse lib all_on [CStart (lit "a:b:c") []; CEnd (lit "a:b:c")] true new_reader) = Thrown r
  /\ forall f v, set_feature f v r all_on = None.
Proof. intros []; eexists; (split; [vm_compute; reflexivity|intros [] v; reflexivity]). Qed.
Print Assumptions C66_stuck_refuted.

(** ** Features *)
Fixpoint set_all (l : list (feature * bool)) (s : settings) : option settings :=
  match l with
  | [] => Some s
  | (f, v) :: k => match set_feature f v new_reader s with Some s' => set_all k s' | None => None end
  end.
(** Whatever was set before, a feature set is a feature got. *)
Theorem C66_feature : forall l s f v, set_all (l ++ [(f, v)]) all_on = Some s -> get_feature f s = v.
Proof.
  intros l. generalize all_on. induction l as [|[f' v'] l IH]; intros s0 s f v H; cbn [app set_all] in H.
  - destruct f; cbn in H; injection H as <-; reflexivity.
  - destruct (set_feature f' v' new_reader s0) eqn:E; [|discriminate]. exact (IH _ _ _ _ H).
Qed.
Print Assumptions C66_feature.
(** Turning namespaces off and on is remembered, but both features can be off, which SAX
    forbids, and setting one can change the other. *)
Theorem C66_both_off_refuted : exists s,
  set_all [(Namespaces, false); (NamespacePrefixes, false)] all_on = Some s
  /\ get_feature Namespaces s = false /\ get_feature NamespacePrefixes s = false.
Proof. eexists; split; [reflexivity|]. split; reflexivity. Qed.
Print Assumptions C66_both_off_refuted.
Theorem C66_other_feature_refuted : exists s,
  set_all [(Namespaces, false); (NamespacePrefixes, true)] all_on = Some s
  /\ get_feature Namespaces s = true.
Proof. eexists; split; [reflexivity|]. reflexivity. Qed.
Print Assumptions C66_other_feature_refuted.

(** ** The hypotheses can be met *)
Definition sample : list node :=
  [Remark (lit "c");
   Element (Prefixed p_ [97]) [Has (Prefixed p_ [120]) [49]; Declares (Some p_) u_; Has (Plain [121]) [50];
                               Declares None (lit "d")]
     [Data [116]; Section [115];
      Element b_ [Declares (Some p_) (lit "v"); Has (Prefixed p_ [120]) [51]] [];
      Instruction [105] [106]]].
Example C66_case : forall lib, well lib sample.
Proof.
  intros lib. split.
  - repeat constructor; cbn [map fst declarations flat_map app prefix_of In]; auto;
      try (apply ncname_spec; vm_compute; reflexivity); try discriminate;
      try (intros r Q; discriminate Q).
    all: intros Q; repeat (destruct Q as [Q|Q]; [discriminate|]); exact Q.
  - intros _. repeat split.
Qed.
Example C66_heard_case :
  fst (parse Libxml2 all_on (flat_map (calls Libxml2) sample) true new_reader)
  = map Said
    [StartDocument; Comment (lit "c"); StartPrefix p_ u_; StartPrefix [] (lit "d");
     StartElement u_ [97] (lit "p:a")
       [Attr [] [] (lit "xmlns:p") (lit "CDATA") u_; Attr [] [] (lit "xmlns") (lit "CDATA") (lit "d");
        Attr u_ [120] (lit "p:x") (lit "CDATA") [49]; Attr [] [121] [121] (lit "CDATA") [50]];
     Characters [116]; StartCDATA; Characters [115]; EndCDATA;
     StartPrefix p_ (lit "v");
     StartElement (lit "d") [98] [98]
       [Attr [] [] (lit "xmlns:p") (lit "CDATA") (lit "v"); Attr (lit "v") [120] (lit "p:x") (lit "CDATA") [51]];
     EndElement (lit "d") [98] [98]; EndPrefix p_;
     PI [105] [106];
     EndElement u_ [97] (lit "p:a"); EndPrefix []; EndPrefix p_; EndDocument].
Proof. vm_compute; reflexivity. Qed.
Example C66_declares_case : Forall (every declares_some) sample.
Proof. repeat constructor; discriminate. Qed.
