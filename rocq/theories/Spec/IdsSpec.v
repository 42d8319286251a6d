(** What getElementById is for: the element that has an attribute, declared as an ID, with the
    value asked for. *)
From Verif.Model Require Import Base Chars AttrMap Ids.
From Verif.Spec Require Import AttrMapSpec.

(** The attribute [a] is one of those the element [e] has now, is named like an attribute declared
    as an ID in the document of the element, and has the value [id]. *)
Definition bears (declared : nat -> list (str * str)) (w : world) (e a : nat) (id : str) : Prop :=
  In a (e_attrs (w_elem w e)) /\ (exists element, In (element, a_name (w_attr w a)) (declared (e_doc (w_elem w e)))) /\
  node_value (w_attr w a) = id.
(** Histories of calls, among them getElementById, that pass attributes that exist, and do not
    rename any. *)
Definition renames (c : acall) : bool := match c with ASetPrefix _ _ => true | _ => false end.
Inductive id_reach (declared : nat -> list (str * str)) (order : list entry -> list entry) : dstate -> Prop :=
  | ir_first : forall docs dflt, id_reach declared order (first_dstate docs dflt)
  | ir_call : forall s c, id_reach declared order s -> Forall (fun a => (a < w_next (d_w s))%nat) (passed c) -> renames c = false ->
      id_reach declared order (fst (id_call declared s c))
  | ir_seek : forall s d id s' o, id_reach declared order s -> get_by_id order s d id = Val (s', o) -> id_reach declared order s'.
(** No attribute declared as an ID has been taken from its element, or replaced on it. *)
Definition none_taken (declared : nat -> list (str * str)) (w : world) : Prop :=
  forall a e, (a < w_next w)%nat -> a_owner (w_attr w a) = Some e ->
    (exists element, In (element, a_name (w_attr w a)) (declared (a_doc (w_attr w a)))) -> In a (e_attrs (w_elem w e)).
(** Two states that no attribute call can tell apart. *)
Definition looks_same (w w' : world) : Prop :=
  w_elem w' = w_elem w /\ w_next w' = w_next w /\
  forall a, node_value (w_attr w' a) = node_value (w_attr w a) /\ a_owner (w_attr w' a) = a_owner (w_attr w a) /\
    a_name (w_attr w' a) = a_name (w_attr w a) /\ a_doc (w_attr w' a) = a_doc (w_attr w a).
