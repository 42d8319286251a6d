(** Documents as trees, the SAX events they are reported by, and a walk over a DOM tree that
    reports what it sees as events. *)
From Verif.Model Require Import Base Chars Dom Attrs Sax.
From Verif.Model Require AttrMap.
From Verif.Spec Require Import AttrMapSpec.

(** What an event says, apart from attribute types and prefix mappings. *)
Inductive dev :=
  | VStart (uri qname : str) (atts : list (str * str * str)) | VEnd (uri qname : str)
  | VChars (s : str) | VStartCData | VEndCData | VComment (s : str) | VPI (t d : str)
  | VSkipped (n : str) | VDoctype (n : str) | VEndDoctype | VEndDocument
  | VOther (e : sax).
Definition colon : Z := 58.
Definition xml : str := [120; 109; 108].
Definition xmlns : str := [120; 109; 108; 110; 115].
Definition declares (q : str) : bool := str_eqb q xmlns || str_eqb (firstn 6 q) (xmlns ++ [colon]).
(** In the DOM attributes that declare namespaces are in a namespace of their own. *)
Definition see_attr (a : attr) : str * str * str :=
  let q := match a_qname a with [] => a_local a | q => q end in
  (match a_uri a with [] => if declares q then AttrMap.xmlns_ns else [] | u => u end, q, a_value a).
Definition see (e : sax) : list dev :=
  match e with
  | StartElement u _ q atts => [VStart u q (map see_attr atts)]
  | EndElement u _ q => [VEnd u q]
  | Characters s => [VChars s]
  | StartCDATA => [VStartCData] | EndCDATA => [VEndCData]
  | Comment s => [VComment s] | PI t d => [VPI t d] | SkippedEntity n => [VSkipped n]
  | StartDTD n _ _ => [VDoctype n] | EndDTD => [VEndDoctype]
  | EndDocument => [VEndDocument]
  | StartDocument | StartPrefix _ _ | EndPrefix _ => []
  | NotationDecl _ _ _ | UnparsedEntityDecl _ _ _ _ | ElementDecl _ _ | AttributeDecl _ _ _ _ _ => []
  | _ => [VOther e]
  end.

(** Trees. *)
Inductive xt :=
  | XElem (uri qname : str) (atts : list (str * str * str)) (kids : list xt)
  | XText (s : str) | XCData (s : str) | XComment (s : str) | XPI (t d : str) | XSkip (n : str).
Fixpoint tree_events (t : xt) : list dev :=
  match t with
  | XElem u q atts kids =>
      VStart u q atts :: (fix go (l : list xt) := match l with [] => [] | k :: r => tree_events k ++ go r end) kids ++ [VEnd u q]
  | XText s => [VChars s]
  | XCData s => [VStartCData; VChars s; VEndCData]
  | XComment s => [VComment s]
  | XPI t d => [VPI t d]
  | XSkip n => [VSkipped n]
  end.
(** The namespace constraints on names. *)
Definition prefixed (q p l : str) : Prop := q = p ++ colon :: l /\ ~ In colon p.
Definition element_fits (u q : str) : Prop :=
  name_ok q = true /\
  (~ In colon q \/ exists p l, prefixed q p l /\ u <> [] /\ (p = xml -> u = AttrMap.xml_ns)).
Definition attribute_fits (a : str * str * str) : Prop :=
  let '(u, q, _) := a in
  name_ok q = true /\
  ((~ In colon q /\ (q = xmlns -> u = AttrMap.xmlns_ns)) \/
   exists p l, prefixed q p l /\ u <> [] /\ (p = xml -> u = AttrMap.xml_ns) /\ (p = xmlns -> u = AttrMap.xmlns_ns)).
Fixpoint after_colon (q : str) : option str :=
  match q with [] => None | c :: r => if c =? colon then Some r else after_colon r end.
Definition local_part (q : str) : str := match after_colon q with Some l => l | None => q end.
Definition key (a : str * str * str) : str * str := let '(u, q, _) := a in (u, local_part q).
Fixpoint fits (t : xt) : Prop :=
  match t with
  | XElem u q atts kids =>
      element_fits u q /\ Forall attribute_fits atts /\ NoDup (map key atts) /\
      (fix go (l : list xt) := match l with [] => True | k :: r => fits k /\ go r end) kids
  | XText _ | XCData _ | XComment _ => True
  | XPI t d => name_ok t = true /\ forallb is_char d = true
  | XSkip n => name_ok n = true
  end.
(** A document: comments and processing instructions around a document type, if any, and the
    root element. *)
Definition misc (t : xt) : Prop := match t with XComment _ | XPI _ _ => True | _ => False end.
Record xdoc := XDoc { x_before : list xt; x_type : option str; x_between : list xt; x_root : xt; x_after : list xt }.
Definition type_events (o : option str) : list dev := match o with Some n => [VDoctype n; VEndDoctype] | None => [] end.
Definition doc_events (d : xdoc) : list dev :=
  flat_map tree_events (x_before d) ++ type_events (x_type d) ++ flat_map tree_events (x_between d) ++
  tree_events (x_root d) ++ flat_map tree_events (x_after d) ++ [VEndDocument].
Definition doc_fits (d : xdoc) : Prop :=
  Forall (fun t => misc t /\ fits t) (x_before d) /\ Forall (fun t => misc t /\ fits t) (x_between d) /\
  Forall (fun t => misc t /\ fits t) (x_after d) /\
  fits (x_root d) /\ exists u q atts kids, x_root d = XElem u q atts kids.

(** Walking a DOM tree: nodes in document order, through the child lists.  None if it is
    deeper than the fuel. *)
Definition walk_attr (a : AttrMap.attr) : str * str * str := (AttrMap.uri_of a, AttrMap.a_name a, AttrMap.node_value a).
Definition uri_of (n : node) : str := match n_uri n with Some u => u | None => [] end.
Definition opt_app {A} (a b : option (list A)) : option (list A) :=
  match a, b with Some x, Some y => Some (x ++ y) | _, _ => None end.
Fixpoint walk (fuel : nat) (h : heap) (atts : nat -> list AttrMap.attr) (n : nat) : option (list dev) :=
  match fuel with
  | O => None
  | S f =>
      let below := (fix go (l : list nat) := match l with [] => Some [] | k :: r => opt_app (walk f h atts k) (go r) end) (n_kids (h n)) in
      match n_kind (h n) with
      | KElement => opt_app (Some [VStart (uri_of (h n)) (n_name (h n)) (map walk_attr (atts n))])
                      (opt_app below (Some [VEnd (uri_of (h n)) (n_name (h n))]))
      | KText => Some [VChars (n_data (h n))]
      | KCData => Some [VStartCData; VChars (n_data (h n)); VEndCData]
      | KComment => Some [VComment (n_data (h n))]
      | KPI => Some [VPI (n_name (h n)) (n_data (h n))]
      | KEntityRef => Some [VSkipped (n_name (h n))]
      | KDocType => Some [VDoctype (n_name (h n)); VEndDoctype]
      | KDocument => opt_app below (Some [VEndDocument])
      | _ => None
      end
  end.
