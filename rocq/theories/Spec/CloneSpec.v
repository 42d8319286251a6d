(** What a copy of a node is, as DOM Level 2 says it of importNode and cloneNode, on trees. *)
From Verif.Model Require Import Base Chars Dom Clone.
From Verif.Model Require AttrMap.
From Verif.Spec Require Import AttrMapSpec.

(** A node with its attributes and children.  [naming] has what getNodeName, getNodeValue (of
    a node without children), getNamespaceURI and getLocalName give; [specified] says whether
    an attribute is. *)
Inductive tree := Tree (k : nkind) (nm : naming) (specified : bool) (atts kids : list tree).
Definition kind (t : tree) : nkind := match t with Tree k _ _ _ _ => k end.
Definition naming_ (t : tree) : naming := match t with Tree _ nm _ _ _ => nm end.
Definition specified (t : tree) : bool := match t with Tree _ _ b _ _ => b end.
Definition is_ref (k : nkind) : bool := match k with KEntityRef => true | _ => false end.

(** * The tree at a node
    The nodes of the tree are numbers from [lo] on, belong to the document [d], and know the
    element or the node they are in.  With [Some flag] for [m] they can be changed or not:
    an entity reference and what is in it cannot. *)
Definition flag_fits (m : option bool) (k : nkind) (ro : bool) : Prop :=
  match m with None => True | Some r => ro = r || is_ref k end.
Definition below (m : option bool) (k : nkind) : option bool :=
  match m with None => None | Some r => Some (r || is_ref k) end.
Fixpoint shows (lo : nat) (s : store) (d : nat) (m : option bool) (t : tree) (i : nat) {struct t} : Prop :=
  match t with
  | Tree k nm sp atts kids =>
      let x := s_heap s i in
      (lo <= i < s_next s)%nat /\ n_kind x = k /\ Naming (n_name x) (n_data x) (n_uri x) (n_local x) = nm /\
      n_owner x = Some d /\ s_spec s i = sp /\ flag_fits m k (n_ro x) /\
      (fix all (ts : list tree) (l : list nat) : Prop :=
         match ts, l with
         | [], [] => True
         | t :: ts, a :: l => (shows lo s d (below m k) t a /\ s_host s a = Some i) /\ all ts l
         | _, _ => False
         end) atts (s_atts s i) /\
      (fix all (ts : list tree) (l : list nat) : Prop :=
         match ts, l with
         | [], [] => True
         | t :: ts, c :: l => (shows lo s d (below m k) t c /\ n_parent (s_heap s c) = Some i) /\ all ts l
         | _, _ => False
         end) kids (n_kids x)
  end.

(** * Copies
    [defn] has the content of the entities of the document the copy is for.  Attributes that
    are not specified are left out; a reference to an entity has the content the entity has
    in that document. *)
Definition content_of (defn : str -> option (list tree)) (name : str) : list tree :=
  match defn name with Some l => l | None => [] end.
Inductive copied (defn : str -> option (list tree)) : tree -> tree -> Prop :=
  | copied_leaf : forall k nm sp,
      (k = KText \/ k = KCData \/ k = KComment \/ k = KPI) ->
      copied defn (Tree k nm sp [] []) (Tree k nm true [] [])
  | copied_ref : forall nm sp kids kids',
      all_copied defn (content_of defn (nm_name nm)) kids' ->
      copied defn (Tree KEntityRef nm sp [] kids) (Tree KEntityRef nm true [] kids')
  | copied_attr : forall nm sp kids kids',
      all_copied defn kids kids' -> copied defn (Tree KAttr nm sp [] kids) (Tree KAttr nm true [] kids')
  | copied_fragment : forall nm sp kids kids',
      all_copied defn kids kids' -> copied defn (Tree KFragment nm sp [] kids) (Tree KFragment nm true [] kids')
  | copied_element : forall nm sp atts atts' kids kids',
      all_copied defn (filter specified atts) atts' -> all_copied defn kids kids' ->
      copied defn (Tree KElement nm sp atts kids) (Tree KElement nm true atts' kids')
with all_copied (defn : str -> option (list tree)) : list tree -> list tree -> Prop :=
  | copied_nil : all_copied defn [] []
  | copied_cons : forall t t' l l', copied defn t t' -> all_copied defn l l' -> all_copied defn (t :: l) (t' :: l').
(** A copy that is not deep has no children; attributes and entity references have theirs. *)
Definition cut (deep : bool) (t : tree) : tree :=
  match t with
  | Tree k nm sp atts kids =>
      match k with KElement | KFragment => Tree k nm sp atts (if deep then kids else []) | _ => t end
  end.

(** * The nodes a document can have *)
Definition colon : Z := 58.
Definition xml : str := [120; 109; 108].
Definition xmlns : str := [120; 109; 108; 110; 115].
(** The names of elements and attributes made by createElement and createAttribute, and by
    createElementNS and createAttributeNS. *)
Definition named (attribute : bool) (nm : naming) : Prop :=
  nm = plain (nm_name nm) \/
  nm_data nm = [] /\ nm_local nm <> [] /\
  ((nm_name nm = nm_local nm /\ ~ In colon (nm_name nm) /\ nm_uri nm <> Some [] /\
    (attribute = true -> nm_name nm = xmlns -> nm_uri nm = Some AttrMap.xmlns_ns)) \/
   exists p u, nm_name nm = p ++ colon :: nm_local nm /\ ~ In colon p /\ nm_uri nm = Some u /\ u <> [] /\
     (p = xml -> u = AttrMap.xml_ns) /\ (attribute = true -> p = xmlns -> u = AttrMap.xmlns_ns)).
(** The name of an attribute, and its namespace and local name; no two attributes have the same. *)
Definition full (nm : naming) : option str * str :=
  (nm_uri nm, match nm_local nm with [] => nm_name nm | l => l end).
Definition apart (atts : list tree) : Prop :=
  NoDup (map (fun a => nm_name (naming_ a)) atts) /\ NoDup (map (fun a => full (naming_ a)) atts).
(** cloneNode checks the names again; importNode does not. *)
Definition legal (w : way) (name : str) : Prop := w = Clone -> name_ok name = true.
Definition every (P : tree -> Prop) : list tree -> Prop :=
  fix go (l : list tree) : Prop := match l with [] => True | t :: r => P t /\ go r end.
Fixpoint good (w : way) (t : tree) : Prop :=
  match t with
  | Tree k nm sp atts kids =>
      match k with
      | KText | KCData | KComment => nm = Naming [] (nm_data nm) None [] /\ atts = [] /\ kids = []
      | KPI => nm = Naming (nm_name nm) (nm_data nm) None [] /\ atts = [] /\ kids = [] /\
               legal w (nm_name nm) /\ (w = Clone -> forallb is_char (nm_data nm) = true)
      | KEntityRef => nm = plain (nm_name nm) /\ atts = [] /\ legal w (nm_name nm)
      | KAttr => named true nm /\ atts = [] /\ legal w (nm_name nm) /\ (w = Clone -> sp = true) /\
                 every (fun c => kind c = KText \/ kind c = KEntityRef) kids /\ every (good w) kids
      | KFragment => nm = plain [] /\ atts = [] /\
                     every (fun c => content_kind (kind c) = true) kids /\ every (good w) kids
      | KElement => named false nm /\ legal w (nm_name nm) /\ apart (filter specified atts) /\
                    every (fun a => kind a = KAttr) atts /\ every (fun a => specified a = true -> good w a) atts /\
                    every (fun c => content_kind (kind c) = true) kids /\ every (good w) kids
      | _ => False
      end
  end.
(** [defn] is what the document [d] says of its entities, and it declares no default
    attributes. *)
Definition defines (s : store) (d : nat) (defn : str -> option (list tree)) : Prop :=
  (d < s_next s)%nat /\ (forall name, s_defs s d name = []) /\
  forall name,
    match s_ents s d name, defn name with
    | Some e, Some ts =>
        (e < s_next s)%nat /\ (exists d', Forall2 (shows 0 s d' None) ts (n_kids (s_heap s e))) /\
        Forall (good Import) ts /\ Forall (fun t => content_kind (kind t) = true) ts
    | None, None => True
    | _, _ => False
    end.
(** Nothing that was there has changed, but for the counters of changes. *)
Definition same_node (x y : node) : Prop := set_changes_f 0 x = set_changes_f 0 y.
Definition untouched (s s' : store) : Prop :=
  (s_next s <= s_next s')%nat /\
  (forall j, (j < s_next s)%nat -> s_ents s' j = s_ents s j /\ s_defs s' j = s_defs s j) /\
  forall j, (j < s_next s)%nat ->
    same_node (s_heap s j) (s_heap s' j) /\ s_atts s' j = s_atts s j /\ s_host s' j = s_host s j /\ s_spec s' j = s_spec s j.

(** A new node of the document [d] is in no other, can be changed and has the tree [t]; its
    nodes are all new. *)
Record made (s0 s : store) (d i : nat) (t : tree) : Prop := {
  m_old : untouched s0 s; m_shows : shows (s_next s0) s d (Some false) t i;
  m_parent : n_parent (s_heap s i) = None; m_host : s_host s i = None; m_orphan : n_orphan (s_heap s i) = true }.

(** * Documents *)
(** The children of a document but for its type. *)
Definition others (s : store) (d : nat) : list nat :=
  filter (fun c => negb (opt_eqb (Some c) (n_doctype (s_heap s d)))) (n_kids (s_heap s d)).
Definition top_kind (k : nkind) : Prop := k = KElement \/ k = KPI \/ k = KComment.
Definition is_element (t : tree) : bool := match kind t with KElement => true | _ => false end.
Definition no_entities (_ : str) : option (list tree) := None.
(** The type of the document [d] with the name [nm]. *)
Definition titled (nm : str) (d : nat) (x : node) : Prop := n_kind x = KDocType /\ n_name x = nm /\ n_parent x = Some d.
(** The new document [new] has a type if [d] has one, and then [ts]. *)
Record twin (s s' : store) (d new : nat) (ts : list tree) : Prop := {
  tw_old : untouched s s'; tw_at : (s_next s <= new < s_next s')%nat; tw_kind : n_kind (s_heap s' new) = KDocument;
  tw_own : n_owner (s_heap s' new) = Some new;
  tw_kids : Forall2 (fun t c => shows (s_next s) s' new (Some false) t c /\ n_parent (s_heap s' c) = Some new) ts (others s' new);
  tw_root : forall c, In c (n_kids (s_heap s' new)) -> n_kind (s_heap s' c) = KElement -> n_docel (s_heap s' new) = Some c;
  tw_type : match n_doctype (s_heap s d) with
            | None => n_doctype (s_heap s' new) = None
            | Some y => exists y', n_doctype (s_heap s' new) = Some y' /\ n_kids (s_heap s' new) = y' :: others s' new /\
                titled (n_name (s_heap s y)) new (s_heap s' y')
            end }.

(** * Trees whose copies are the same
    All attributes are specified and all references have the content of their entities. *)
Fixpoint whole (defn : str -> option (list tree)) (t : tree) : Prop :=
  match t with
  | Tree k nm sp atts kids =>
      sp = true /\ every (whole defn) atts /\ every (whole defn) kids /\
      match k with
      | KText | KCData | KComment | KPI => atts = [] /\ kids = []
      | KEntityRef => atts = [] /\ kids = content_of defn (nm_name nm)
      | KAttr | KFragment => atts = []
      | KElement => True
      | _ => False
      end
  end.
