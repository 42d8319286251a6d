(** What key() gives: XSLT 1.0, section 12.2. *)
From Coq Require Import Sorted.
From Verif.Model Require Import Base XNode XAxis XNodeSet XKeys.
From Verif.Spec Require Import XOrder XAxisSpec XNodeSetSpec.

(** A node has a key with a value, in the document with that node. *)
Definition use_has (f : forest) (u : used) (v : str) : Prop :=
  match u with
  | UseNodes l => exists y, In y l /\ node_string f y = Some v
  | UseOther s => v = s
  | UseThrows => False
  end.
Definition has_key (f : forest) (k : key) (v : str) (x : xnode) : Prop :=
  In (snd x) (nodes (f_tree f (fst x))) /\ (exists p, In p (k_matches k) /\ p x = true) /\ use_has f (k_use k x) v.
(** The values a second argument stands for. *)
Definition arg_value (f : forest) (a : key_arg) (v : str) : Prop :=
  match a with ArgString s => v = s | ArgNodes l => exists y, In y l /\ node_string f y = Some v end.
(** The nodes of a call: those in the document of the context node that have a key of that name
    with one of the values. *)
Definition key_node (f : forest) (keys : list (str * key)) (name : str) (a : key_arg) (d : nat) (x : xnode) : Prop :=
  fst x = d /\ exists k v, In (name, k) keys /\ arg_value f a v /\ has_key f k v x.
Definition key_answer (f : forest) (keys : list (str * key)) (name : str) (a : key_arg) (context : xnode) (l : list xnode) : Prop :=
  StronglySorted (precedes f) l /\ forall x, In x l <-> key_node f keys name a (fst context) x.

(** When the code is right.  The document: *)
Definition key_document (f : forest) (d : nat) : Prop :=
  f_doc f d = d /\ shape_ok (f_tree f d) /\ t_kind (f_tree f d) = Xdocument /\ small (f_tree f d).
(** The patterns match no attribute, and the use expression gives, for a node that matches, a
    node set with nodes that have string values. *)
Definition plain_key (f : forest) (d : nat) (k : key) : Prop := forall x, fst x = d -> In (snd x) (nodes (f_tree f d)) -> matched k x = true ->
  ~ is_attribute (snd x) /\ exists l, k_use k x = UseNodes l /\ Forall (fun y => exists v, node_string f y = Some v) l.
(** No two nodes of the use expression have the same value. *)
Definition distinct_uses (f : forest) (d : nat) (k : key) : Prop := forall x l, fst x = d -> In (snd x) (nodes (f_tree f d)) -> matched k x = true ->
  k_use k x = UseNodes l -> NoDup (map (node_string f) l).
(** A call the code answers well: from a node of the document that is being transformed, with a
    declared name, and for a string the key is the only one only if its uses are distinct. *)
Definition good_call (f : forest) (keys : list (str * key)) (c : key_call) : Prop :=
  let d := fst (kc_context c) in
  fst (kc_current c) = d /\ key_document f d /\
  (exists k, In (kc_name c, k) keys) /\
  (forall k, In (kc_name c, k) keys -> plain_key f d k) /\
  match kc_arg c with
  | ArgNodes l => Forall (fun y => exists v, node_string f y = Some v) l
  | ArgString _ => forall k, filter (fun nk => str_eqb (kc_name c) (fst nk)) keys = [(kc_name c, k)] -> distinct_uses f d k
  end.
(** The answer to a call; None is an exception.  A name that is not declared is an error. *)
Definition call_answer (f : forest) (keys : list (str * key)) (c : key_call) (o : option (list xnode)) : Prop :=
  (good_call f keys c -> exists l, o = Some l /\ key_answer f keys (kc_name c) (kc_arg c) (kc_context c) l) /\
  ((forall k, ~ In (kc_name c, k) keys) -> kc_arg c <> ArgNodes [] -> o = None).
