(** What DOM Core says about character data and about the text of a tree. *)
From Verif.Model Require Import Base Dom DomText.
From Verif.Spec Require Import DomSpec.

(** [count] characters from [offset], or as many as there are. *)
Definition is_substring (d : str) (offset count : Z) (s : str) : Prop :=
  exists a b, d = a ++ s ++ b /\ Z.of_nat (length a) = offset /\
  Z.of_nat (length s) = Z.min count (Z.of_nat (length d) - offset).
(** That part replaced by [arg]. *)
Definition is_replaced (d : str) (offset count : Z) (arg d' : str) : Prop :=
  exists a s b, d = a ++ s ++ b /\ Z.of_nat (length a) = offset /\
  Z.of_nat (length s) = Z.min count (Z.of_nat (length d) - offset) /\ d' = a ++ arg ++ b.
Definition inside (d : str) (offset : Z) : Prop := 0 <= offset <= Z.of_nat (length d).
(** Data short enough for an int length. *)
Definition int_sized (d : str) : Prop := Z.of_nat (length d) < 2147483648.

(** The text content: the data of the text and CDATA nodes in document order. *)
Inductive content (h : heap) : nat -> str -> Prop :=
  | content_text : forall i, n_kind (h i) = KText \/ n_kind (h i) = KCData -> content h i (n_data (h i))
  | content_node : forall i s, n_kind (h i) <> KText -> n_kind (h i) <> KCData ->
      contents h (kids h i) s -> content h i s
with contents (h : heap) : list nat -> str -> Prop :=
  | contents_nil : contents h [] []
  | contents_cons : forall c l s t, content h c s -> contents h l t -> contents h (c :: l) (s ++ t).

(** [n] is [top] or below it. *)
Definition at_or_below (h : heap) (top n : nat) : Prop := n = top \/ above h top n.
(** No empty text and no two adjacent texts. *)
Definition normal_list (h : heap) (l : list nat) : Prop :=
  (forall c, In c l -> n_kind (h c) = KText -> n_data (h c) <> []) /\
  (forall a x y b, l = a ++ x :: y :: b -> ~ (n_kind (h x) = KText /\ n_kind (h y) = KText)).
Definition normal_below (h : heap) (top : nat) : Prop :=
  forall n, at_or_below h top n -> normal_list h (kids h n).
(** What lies below a read-only node is read-only. *)
Definition frozen_down (h : heap) : Prop :=
  forall p c, In c (kids h p) -> n_ro (h p) = true -> n_ro (h c) = true.
(** A node not used yet. *)
Record unused (h : heap) (n : nat) : Prop := {
  un_parent : n_parent (h n) = None; un_kids : n_kids (h n) = []; un_changes : n_changes (h n) = 0 }.
(** A history of calls of all kinds: child list changes, character data changes, splitText
    on nodes in the tree, and normalize.  [evolves h h'] relates a state to each later
    one. *)
Inductive change (h : heap) : heap -> Prop :=
  | change_core : forall o f h', not_into_itself KDocument h o ->
      (exists u, dom_call f h o = Ok h' u) \/ (exists e, dom_call f h o = Ex e h') -> change h h'
  | change_edit : forall i s, change h (set_data h i s)
  | change_split : forall f this new off h' r, unused h new ->
      n_owner (h new) = n_owner (h this) -> n_kind (h new) = n_kind (h this) ->
      n_kind (h this) = KText \/ n_kind (h this) = KCData -> get_parent h this <> None -> int_sized (n_data (h this)) ->
      split_text f h this new off = Some (Ok h' r) -> change h h'
  | change_normalize : forall f this h' u, normalize f h this = Ok h' u -> change h h'.
Inductive evolves (h : heap) : heap -> Prop :=
  | ev_now : evolves h h
  | ev_step : forall h1 h2, evolves h h1 -> change h1 h2 -> evolves h h2.
Definition known (h : heap) : Prop := exists kinds docs names, evolves (fresh_heap kinds docs names) h.
