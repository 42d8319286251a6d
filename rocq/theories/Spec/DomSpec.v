(** What the DOM says about the shape of the node structure, through the accessors
    getParentNode, getChildNodes, getPreviousSibling and getNextSibling only. *)
From Verif.Model Require Import Base Dom.

Definition kids (h : heap) (p : nat) : list nat := n_kids (h p).

(** Each node is in at most one child list, once; its parent is the owner of that list. *)
Definition parents_ok (h : heap) : Prop :=
  (forall p, NoDup (kids h p)) /\
  (forall p c, In c (kids h p) <-> get_parent h c = Some p).
(** The siblings of a node are its neighbours in the child list; a node with no parent has
    none. *)
Definition siblings_ok (h : heap) : Prop :=
  (forall p x l, kids h p = x :: l -> n_prev (h x) = None) /\
  (forall p l x, kids h p = l ++ [x] -> n_next (h x) = None) /\
  (forall p l x y m, kids h p = l ++ x :: y :: m ->
     n_next (h x) = Some y /\ n_prev (h y) = Some x) /\
  (forall c, get_parent h c = None -> n_prev (h c) = None /\ n_next (h c) = None).
(** Ancestors, by child lists. *)
Inductive above (h : heap) : nat -> nat -> Prop :=
  | above_child : forall p c, In c (kids h p) -> above h p c
  | above_trans : forall p c d, In c (kids h p) -> above h c d -> above h p d.
(** The tree below [n] is finite. *)
Inductive finite_below (h : heap) : nat -> Prop :=
  | finite_node : forall n, (forall c, In c (kids h n) -> finite_below h c) -> finite_below h n.
Definition acyclic (h : heap) : Prop := forall n, ~ above h n n.
Definition tree_ok (h : heap) : Prop := parents_ok h /\ siblings_ok h /\ acyclic h.

(** Child lists before and after a call; all other lists are as they were. *)
Definition without (x : nat) (l : list nat) : list nat := filter (fun y => negb (Nat.eqb y x)) l.
(** [new] put before [ref], or at the end. *)
Fixpoint put_before (ref new : nat) (l : list nat) : list nat :=
  match l with
  | [] => []
  | y :: r => if Nat.eqb y ref then new :: y :: r else y :: put_before ref new r
  end.
Definition put (ref : option nat) (new : nat) (l : list nat) : list nat :=
  match ref with Some r => put_before r new l | None => l ++ [new] end.
Definition put_for (old new : nat) (l : list nat) : list nat :=
  map (fun y => if Nat.eqb y old then new else y) l.

(** What the document node says about its element and doctype, and what is so. *)
Definition element_kids (h : heap) (d : nat) : list nat :=
  filter (fun c => has_kind h c KElement) (kids h d).
Definition doctype_kids (h : heap) (d : nat) : list nat :=
  filter (fun c => has_kind h c KDocType) (kids h d).
Definition opt_list {A} (o : option A) : list A := match o with Some x => [x] | None => [] end.
Definition document_ok (h : heap) (d : nat) : Prop :=
  element_kids h d = opt_list (n_docel (h d)) /\ doctype_kids h d = opt_list (n_doctype (h d)).

(** Calls that put a document into itself, or a fragment into itself. *)
Definition op_target (o : domop) : option (nat * nat) :=
  match o with
  | OpInsert t n _ => Some (t, n)
  | OpReplace t n _ => Some (t, n)
  | _ => None
  end.
Definition not_into_itself (k : nkind) (h : heap) (o : domop) : Prop :=
  match op_target o with
  | Some (t, n) => has_kind h n k = true -> t <> n
  | None => True
  end.

(** The heaps that histories lead to, from nodes just created, when no document and no
    fragment is put into itself. *)
Definition reachable (h : heap) : Prop :=
  exists kinds docs names ops fuel,
    Forall (not_into_itself KDocument (fresh_heap kinds docs names)) ops /\
    dom_run fuel (fresh_heap kinds docs names) ops = Some h.

(** What DOM Core (level 2, 1.1.1) allows as a child of what. *)
Definition dom_allows (parent child : nkind) : Prop :=
  match parent with
  | KDocument => child = KElement \/ child = KPI \/ child = KComment \/ child = KDocType
  | KFragment | KEntityRef | KElement | KEntity =>
      child = KElement \/ child = KPI \/ child = KComment \/ child = KText \/ child = KCData \/ child = KEntityRef
  | KAttr => child = KText \/ child = KEntityRef
  | _ => False
  end.
Definition kinds_ok (h : heap) : Prop :=
  forall p c, In c (kids h p) -> dom_allows (n_kind (h p)) (n_kind (h c)).
(** A document type is only offered to documents. *)
Definition doctype_to_document (h : heap) (o : domop) : Prop :=
  match op_target o with
  | Some (t, n) => has_kind h n KDocType = true -> has_kind h t KDocument = true
  | None => True
  end.

(** The reference child, if given, is a child of the node and not the new node. *)
Definition ref_ok (h : heap) (this new : nat) (ref : option nat) : Prop :=
  match ref with Some r => In r (n_kids (h this)) /\ r <> new | None => True end.

Definition docs_ok (h : heap) : Prop := forall d, n_kind (h d) = KDocument -> document_ok h d.
(** replaceChild on a document neither replaces nor offers a doctype, and replaces the
    root element by an element only. *)
Definition replace_safe (h : heap) (this new old : nat) : Prop :=
  n_kind (h this) = KDocument ->
  n_kind (h new) <> KDocType /\ n_kind (h old) <> KDocType /\ (n_kind (h old) = KElement -> n_kind (h new) = KElement).
Definition op_safe (h : heap) (o : domop) : Prop :=
  match o with OpReplace t n old => replace_safe h t n old | _ => True end.

(** The list [k'] is [k] with [l] put before [ref], or at the end. *)
Definition put_list (ref : option nat) (l k k' : list nat) : Prop :=
  match ref with
  | Some r => exists a b, k = a ++ r :: b /\ k' = a ++ l ++ r :: b
  | None => k' = k ++ l
  end.
