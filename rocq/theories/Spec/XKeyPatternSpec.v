(** Patterns that are a call of key() or id(): XSLT 1.0, sections 5.2 and 12.2. *)
From Coq Require Import String.
From Verif.Model Require Import Base Text XNode XNodeSet XSort XKeys XKeyPattern.
From Verif.Spec Require Import XmlChars XAxisSpec XParseSpec XKeysSpec.
From Coq Require Import List. Import ListNotations. Open Scope Z_scope.

(** Their texts: white space may be beside the arguments, and around the call. *)
Inductive key_written : str -> str -> str -> Prop :=
  | Key_written w name value w1 w2 w3 w4 l1 l2 v : blank w -> blank w1 -> blank w2 -> blank w3 -> blank w4 -> blank v ->
      literal l1 name -> literal l2 value ->
      key_written (w ++ ascii_str "key(" ++ w1 ++ l1 ++ w2 ++ ascii_str "," ++ w3 ++ l2 ++ w4 ++ ascii_str ")" ++ v) name value.
Inductive id_written : str -> str -> Prop :=
  | Id_written w value w1 w2 l v : blank w -> blank w1 -> blank w2 -> blank v -> literal l value ->
      id_written (w ++ ascii_str "id(" ++ w1 ++ l ++ w2 ++ ascii_str ")" ++ v) value.

(** The name of a key: without a prefix it is in no namespace; with one that is declared, in
    its namespace. *)
Inductive key_called (namespaces : str -> option str) : str -> str -> Prop :=
  | Called_plain n : NCName n -> key_called namespaces n n
  | Called_prefixed p n u : NCName p -> NCName n -> namespaces p = Some u -> u <> [] ->
      key_called namespaces (p ++ [58] ++ n) ([123] ++ u ++ [125] ++ n).

(** The nodes that match: those that have a key of that name with that value. *)
Definition has_named_key (f : forest) (keys : list (str * key)) (name value : str) (x : xnode) : Prop :=
  exists k, In (name, k) keys /\ has_key f k value x.
(** When the code is right: the keys of that name, if there are any, match no attribute and are
    used by node sets. *)
Definition good_keys (f : forest) (keys : list (str * key)) (name : str) (x : xnode) : Prop :=
  (exists k, In (name, k) keys) /\ (forall k, In (name, k) keys -> plain_key f (fst x) k).
(** The answer to a try; None is an exception.  A name that is not declared is an error. *)
Definition attempt_answer (f : forest) (namespaces : str -> option str) (keys : list (str * key)) (a : attempt) (o : option bool) : Prop :=
  (forall name, key_called namespaces (at_key a) name -> good_keys f keys name (at_node a) ->
    exists b, o = Some b /\ (b = true <-> has_named_key f keys name (at_value a) (at_node a))) /\
  (forall name, key_called namespaces (at_key a) name -> (forall k, ~ In (name, k) keys) -> o = None).
