(** Event flow, DOM Level 2 Events, 1.2: first down from the root to the parent of the
    target, then the target, then up again if the event bubbles; at each node the listeners
    registered there when the event comes there; nothing more after a node at which
    propagation was stopped. *)
From Verif.Model Require Import Base Dom Events.

(** The ancestors of a node, outermost first. *)
Inductive lineage (h : heap) : nat -> list nat -> Prop :=
  | lineage_top : forall n, get_parent h n = None -> lineage h n []
  | lineage_step : forall n p l, get_parent h n = Some p -> lineage h p l -> lineage h n (l ++ [p]).
Definition stations (path : list nat) (target : nat) (bubbles : bool) : list (nat * phase) :=
  map (fun n => (n, CAPTURING)) path ++ [(target, AT_TARGET)] ++
  (if bubbles then map (fun n => (n, BUBBLING)) (rev path) else []).

(** The listeners of a target: for a type and a side, in order of registration. *)
Definition listing := nat -> str -> bool -> list nat.
Definition list_add (r : listing) (n : nat) (t : str) (lis : nat) (cap : bool) : listing :=
  fun m u c => if Nat.eqb m n && str_eqb u t && Bool.eqb c cap && negb (existsb (Nat.eqb lis) (r m u c)) then r m u c ++ [lis] else r m u c.
Definition list_remove (r : listing) (n : nat) (t : str) (lis : nat) (cap : bool) : listing :=
  fun m u c => if Nat.eqb m n && str_eqb u t && Bool.eqb c cap then filter (fun x => negb (Nat.eqb lis x)) (r m u c) else r m u c.
Definition list_act (r : listing) (a : action) : listing :=
  match a with
  | AddListener n t l c => list_add r n t l c
  | RemoveListener n t l c => list_remove r n t l c
  | _ => r
  end.
Definition is_stop (a : action) : bool := match a with StopPropagation => true | _ => false end.

Section Flow.
Context (script : list call -> call -> list action).
(** All the actions that a row of calls leads to. *)
Fixpoint actions (hist : list call) (cs : list call) : list action :=
  match cs with [] => [] | c :: r => script hist c ++ actions (hist ++ [c]) r end.
Fixpoint deliver (type : str) (r : listing) (hist : list call) (st : list (nat * phase)) : list call :=
  match st with
  | [] => []
  | (n, p) :: rest =>
      let cs := map (Call n p) (r n type (capturing p)) in
      let acts := actions hist cs in
      cs ++ (if existsb is_stop acts then [] else deliver type (fold_left list_act acts r) (hist ++ cs) rest)
  end.
(** No listener changes the list that is just being called, and removals hit the first
    listener of the list. *)
Definition leaves (a : action) (n : nat) (cap : bool) : Prop :=
  match a with AddListener m _ _ c | RemoveListener m _ _ c => (m, c) <> (n, cap) | _ => True end.
Definition calm : Prop := forall hist c a, In a (script hist c) -> leaves a (c_node c) (capturing (c_phase c)).
(** (no listener removes one) *)
Definition no_removal : Prop := forall hist c a, In a (script hist c) -> match a with RemoveListener _ _ _ _ => False | _ => True end.
Definition passes_target : Prop := forall hist c, c_phase c = AT_TARGET -> existsb is_stop (script hist c) = false.
End Flow.
(** Histories of registrations with the listing they should lead to; removals are of the
    first listener of a list, or of one that is not there. *)
Inductive fed : estate -> listing -> Prop :=
  | fed_none : fed no_listeners (fun _ _ _ => [])
  | fed_add : forall s r n t lis cap, fed s r -> fed (add_listener s n t lis cap) (list_add r n t lis cap)
  | fed_remove : forall s r n t lis cap, fed s r -> hd_error (r n t cap) = Some lis \/ ~ In lis (r n t cap) ->
      fed (remove_listener s n t lis cap) (list_remove r n t lis cap).
