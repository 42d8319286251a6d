(** C69: importNode and cloneNode make copies of nodes, as DOM says. *)
From Coq Require Import String List ZArith Bool Lia.
From Coq Require Import List.
Import ListNotations.
Open Scope Z_scope.
From Verif.Model Require Import Base Chars Dom XSort.
From Verif.Proof Require Import CloneProof CloneDoc.
From Verif.Model Require AttrMap.
From Verif.Model Require Import Clone.
From Verif.Spec Require Import CloneSpec.

(** The copy importNode gives for a node of any document: its own nodes, in the document that
    makes it, in no other node, with the names, namespaces, data, specified attributes and, if
    it is deep, children; nothing else changes.  A reference has the content its entity has in
    the document that makes the copy.  It returns with enough fuel. *)
Theorem C69_import_partial (d : nat) (defn : str -> option (list tree)) (t t' : tree) :
  copied defn t t' -> good Import t ->
  exists f0, forall f deep s n d0, (f0 <= f)%nat -> defines s d defn -> shows 0 s d0 None t n ->
  exists s' i, import_node f s d n deep = Done s' i /\ made s s' d i (cut deep t').
Proof. exact (import_ok d defn t t'). Qed.
Print Assumptions C69_import_partial.

(** The same for cloneNode, in the document the node belongs to. *)
Theorem C69_clone_partial (d : nat) (defn : str -> option (list tree)) (t t' : tree) :
  copied defn t t' -> good Clone t ->
  exists f0, forall f deep s n, (f0 <= f)%nat -> defines s d defn -> shows 0 s d None t n ->
  exists s' i, clone_node f s n deep = Done s' i /\ made s s' d i (cut deep t').
Proof. exact (clone_ok d defn t t'). Qed.
Print Assumptions C69_clone_partial.

(** The copy is the same tree when all attributes are specified and references have the
    content of their entities. *)
Theorem C69_same (defn : str -> option (list tree)) (t : tree) : whole defn t -> copied defn t t.
Proof. exact (whole_copied defn t). Qed.
Print Assumptions C69_same.

(** A deep clone of a document is a new document: its type comes first, with the same name,
    then copies of the other children in order, and the element is its document element. *)
Theorem C69_document_partial (s : store) (d : nat) (ts ts' : list tree) :
  (d < s_next s)%nat -> Forall2 (shows 0 s d None) ts (others s d) ->
  Forall (good Import) ts -> Forall (fun t => top_kind (kind t)) ts -> (length (filter is_element ts) <= 1)%nat ->
  all_copied no_entities ts ts' ->
  exists f0, forall f, (f0 <= f)%nat -> exists s' new, clone_document f s d true = Done s' new /\ twin s s' d new ts'.
Proof. exact (clone_document_ok s d ts ts'). Qed.
Print Assumptions C69_document_partial.

(** * Cases *)
Definition nothing : store :=
  Store (fun i => new_node i KText 0 (plain [])) (fun _ => []) (fun _ => None) (fun _ => true) 0 (fun _ _ => None) (fun _ _ => []).
Definition mk (k : nkind) (nm : naming) (s : store) : store := fst (alloc s k 0 nm).
Definition hang (p c : nat) (s : store) : store := match append 5 s p c with Done s' _ => s' | _ => s end.
Definition pin (e a : nat) (s : store) : store :=
  match set_attribute_node s e a with Done s' _ => s' | _ => s end.
Definition declare (name : str) (e : nat) (s : store) : store :=
  Store (s_heap s) (s_atts s) (s_host s) (s_spec s) (s_next s)
    (fun d n => if Nat.eqb d 0 then if str_eqb n name then Some e else None else None) (s_defs s).
Definition default (el : str) (l : list (str * str)) (s : store) : store :=
  Store (s_heap s) (s_atts s) (s_host s) (s_spec s) (s_next s) (s_ents s)
    (fun d n => if Nat.eqb d 0 then if str_eqb n el then l else [] else []).
Definition data (s : str) : naming := Naming [] s None [].
Fixpoint do_all (l : list (store -> store)) (s : store) : store :=
  match l with [] => s | f :: r => do_all r (f s) end.
(** The tree at a node, and what a call gives. *)
Fixpoint read (fuel : nat) (s : store) (i : nat) : tree :=
  match fuel with
  | O => Tree KNotation (plain []) false [] []
  | S f => let x := s_heap s i in
      Tree (n_kind x) (Naming (n_name x) (n_data x) (n_uri x) (n_local x)) (s_spec s i) (map (read f s) (s_atts s i)) (map (read f s) (n_kids x))
  end.
Definition got (r : cres nat) : option tree := match r with Done s i => Some (read 9 s i) | _ => None end.

(** [<p:a xmlns:p='u' x='v'>t&e;</p:a>] without the declaration; [&e;] is [w]. *)
Definition xa : naming := Naming (ascii_str "p:a") [] (Some (ascii_str "u")) (ascii_str "a").
Definition page : store := do_all
  [ mk KDocument (plain []); mk KElement xa; mk KAttr (plain (ascii_str "x")); mk KText (data (ascii_str "v")); hang 2 3; pin 1 2;
    mk KText (data (ascii_str "t")); hang 1 4; mk KEntity (plain (ascii_str "e")); mk KText (data (ascii_str "w")); hang 5 6;
    declare (ascii_str "e") 5; mk KEntityRef (plain (ascii_str "e")); mk KText (data (ascii_str "w")); hang 7 8; hang 1 7; hang 0 1 ] nothing.
Definition w_text : tree := Tree KText (data (ascii_str "w")) true [] [].
Definition page_tree : tree :=
  Tree KElement xa true [Tree KAttr (plain (ascii_str "x")) true [] [Tree KText (data (ascii_str "v")) true [] []]]
    [Tree KText (data (ascii_str "t")) true [] []; Tree KEntityRef (plain (ascii_str "e")) true [] [w_text]].
Definition page_defn (n : str) : option (list tree) := if str_eqb n (ascii_str "e") then Some [w_text] else None.
Example C69_case_shows : shows 0 page 0 None page_tree 1.
Proof. vm_compute. repeat split; lia. Qed.
Example C69_case_whole : whole page_defn page_tree.
Proof. vm_compute. repeat split. Qed.
Example C69_case_good : good Clone page_tree /\ good Import page_tree.
Proof.
  assert (G : forall w, good w page_tree).
  { intros w. unfold page_tree. cbn [good every kind specified]. repeat apply conj; try (vm_compute; tauto); try (intros _; vm_compute; reflexivity).
    - right. split; [reflexivity|]. split; [discriminate|]. right. exists (ascii_str "p"), (ascii_str "u"). split; [reflexivity|]. split; [vm_compute; intuition discriminate|].
      split; [reflexivity|]. split; [discriminate|]. split; discriminate.
    - vm_compute. constructor; [intros []|constructor].
    - vm_compute. constructor; [intros []|constructor]. }
  split; apply G.
Qed.
Example C69_case_defines : defines page 0 page_defn.
Proof.
  split; [vm_compute; lia|]. split; [reflexivity|]. intros name.
  assert (E : s_ents page 0%nat name = if str_eqb name (ascii_str "e") then Some 5%nat else None) by reflexivity. rewrite E. unfold page_defn.
  destruct (str_eqb name (ascii_str "e")); [|exact Logic.I]. split; [vm_compute; lia|]. split; [|split].
  - exists 0%nat. assert (K : n_kids (s_heap page 5%nat) = [6%nat]) by (vm_compute; reflexivity). rewrite K. constructor; [|constructor]. vm_compute. repeat split; lia.
  - constructor; [vm_compute; tauto|constructor].
  - constructor; [reflexivity|constructor].
Qed.
Example C69_case_copy : got (clone_node 9 page 1 true) = Some page_tree.
Proof. vm_compute. reflexivity. Qed.
Example C69_case_shallow : got (clone_node 9 page 1 false) = Some (cut false page_tree).
Proof. vm_compute. reflexivity. Qed.
Example C69_case_document :
  Forall2 (shows 0 page 0 None) [page_tree] (others page 0) /\ top_kind (kind page_tree) /\
  all_copied no_entities [page_tree]
    [Tree KElement xa true [Tree KAttr (plain (ascii_str "x")) true [] [Tree KText (data (ascii_str "v")) true [] []]]
       [Tree KText (data (ascii_str "t")) true [] []; Tree KEntityRef (plain (ascii_str "e")) true [] []]].
Proof.
  split; [|split; [left; reflexivity|]].
  - assert (E : others page 0 = [1%nat]) by (vm_compute; reflexivity). rewrite E. constructor; [apply C69_case_shows|constructor].
  - assert (T : forall s, copied no_entities (Tree KText (data s) true [] []) (Tree KText (data s) true [] [])) by (intros s; apply copied_leaf; auto).
    constructor; [|constructor]. apply copied_element; cbn [filter specified].
    + constructor; [|constructor]. apply copied_attr. constructor; [apply T|constructor].
    + constructor; [apply T|]. constructor; [|constructor]. apply copied_ref. constructor.
Qed.

(** * What is not so *)
(** DOM: the clone of an attribute is specified.  The clone of one that is not specified,
    like a default, is not: [<a x='1'>] with x from the type. *)
Definition lax : store := do_all
  [ mk KDocument (plain []); mk KElement (plain (ascii_str "a")); mk KAttr (plain (ascii_str "x"));
    mk KText (data (ascii_str "1")); hang 2 3; pin 1 2; put_spec 2 false; hang 0 1 ] nothing.
Theorem C69_attribute_specified_refuted :
  got (clone_node 9 lax 2 true) =
    Some (Tree KAttr (plain (ascii_str "x")) false [] [Tree KText (data (ascii_str "1")) true [] []]) /\
  got (import_node 9 lax 0 2 true) =
    Some (Tree KAttr (plain (ascii_str "x")) true [] [Tree KText (data (ascii_str "1")) true [] []]).
Proof. split; vm_compute; reflexivity. Qed.
Print Assumptions C69_attribute_specified_refuted.

(** DOM: the copy of an element has the default attributes of the document it is for.  With
    two of them it has the last only: each takes the place of the one before. *)
Definition two_defaults : store := do_all
  [ mk KDocument (plain []); mk KElement (plain (ascii_str "a")); hang 0 1;
    default (ascii_str "a") [(ascii_str "x", ascii_str "1"); (ascii_str "y", ascii_str "2")] ] nothing.
Theorem C69_defaults_refuted :
  got (import_node 9 two_defaults 0 1 true) =
    Some (Tree KElement (plain (ascii_str "a")) true
      [Tree KAttr (plain (ascii_str "y")) false [] [Tree KText (data (ascii_str "2")) true [] []]] []).
Proof. vm_compute. reflexivity. Qed.
Print Assumptions C69_defaults_refuted.

(** One default attribute is there beside the attributes of the element. *)
Definition one_default : store := do_all
  [ mk KDocument (plain []); mk KElement (plain (ascii_str "a")); mk KAttr (plain (ascii_str "z")); pin 1 2; hang 0 1;
    default (ascii_str "a") [(ascii_str "x", ascii_str "1")] ] nothing.
Example C69_one_default :
  got (import_node 9 one_default 0 1 true) =
    Some (Tree KElement (plain (ascii_str "a")) true
      [Tree KAttr (plain (ascii_str "x")) false [] [Tree KText (data (ascii_str "1")) true [] []];
       Tree KAttr (plain (ascii_str "z")) true [] []] []).
Proof. vm_compute. reflexivity. Qed.

(** createElementNS takes the name "p:" with the namespace "u"; the copy importNode makes has
    no namespace, the one cloneNode makes has it. *)
Definition no_local : naming := Naming (ascii_str "p:") [] (Some (ascii_str "u")) [].
Theorem C69_empty_local_refuted :
  AttrMap.check_name (ascii_str "p:") = true /\ ns_naming (ascii_str "u") (ascii_str "p:") = Some no_local /\
  let s := do_all [ mk KDocument (plain []); mk KElement no_local ] nothing in
  got (import_node 9 s 0 1 true) = Some (Tree KElement (plain (ascii_str "p:")) true [] []) /\
  got (clone_node 9 s 1 true) = Some (Tree KElement no_local true [] []).
Proof. vm_compute. repeat split. Qed.
Print Assumptions C69_empty_local_refuted.

(** A comment before the type of a document comes after it in the clone. *)
Definition prologue : store := do_all
  [ mk KDocument (plain []); mk KComment (data (ascii_str "c")); hang 0 1; mk KDocType (plain (ascii_str "a")); hang 0 2;
    mk KElement (plain (ascii_str "a")); hang 0 3 ] nothing.
Definition kinds (r : cres nat) : option (list nkind) :=
  match r with Done s i => Some (map (fun c => n_kind (s_heap s c)) (n_kids (s_heap s i))) | _ => None end.
Theorem C69_document_order_refuted :
  map (fun c => n_kind (s_heap prologue c)) (n_kids (s_heap prologue 0%nat)) = [KComment; KDocType; KElement] /\
  kinds (clone_document 9 prologue 0 true) = Some [KDocType; KComment; KElement].
Proof. vm_compute. repeat split. Qed.
Print Assumptions C69_document_order_refuted.

(** The references in the clone of a document have lost their content: the clone of the type
    has no entities. *)
Theorem C69_document_references_refuted :
  match clone_document 9 page 0 true with
  | Done s i => map (read 9 s) (n_kids (s_heap s i)) =
      [Tree KElement xa true [Tree KAttr (plain (ascii_str "x")) true [] [Tree KText (data (ascii_str "v")) true [] []]]
         [Tree KText (data (ascii_str "t")) true [] []; Tree KEntityRef (plain (ascii_str "e")) true [] []]]
  | _ => False
  end /\ map (read 9 page) (n_kids (s_heap page 0%nat)) = [page_tree].
Proof. vm_compute. repeat split. Qed.
Print Assumptions C69_document_references_refuted.
