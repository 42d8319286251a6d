(** include/DOM/Simple/EventTargetImpl.hpp and EventImpl.hpp.

    Listeners are numbers.  What a listener does in handleEvent is a list of calls into the
    event and into the targets, and may depend on all the calls of listeners so far.
    Simplifications: every node of the tree is an EventTargetImpl (the node classes of
    Simple/ do not derive from it, so a user has to combine them); listeners do not dispatch
    events themselves and do not throw; the tree stays as it is during a dispatch (the
    chain of ancestors is a copy anyway, 103-107). *)
From Verif.Model Require Import Base Dom.

(** std::less of the string: lexicographic. *)
Fixpoint str_ltb (a b : str) : bool :=
  match a, b with
  | [], [] => false
  | [], _ :: _ => true
  | _ :: _, [] => false
  | x :: a', y :: b' => if Z.ltb x y then true else if Z.ltb y x then false else str_ltb a' b'
  end.
(** An element of a std::multimap, 156-157, with a name for the iterators that point at it. *)
Record entry := Entry { e_id : nat; e_type : str; e_listener : nat }.
Fixpoint drop_while {A} (p : A -> bool) (l : list A) : list A :=
  match l with [] => [] | x :: r => if p x then drop_while p r else l end.
Fixpoint take_while {A} (p : A -> bool) (l : list A) : list A :=
  match l with [] => [] | x :: r => if p x then x :: take_while p r else [] end.
Definition before_type (t : str) (e : entry) : bool := str_ltb (e_type e) t.
Definition not_after_type (t : str) (e : entry) : bool := negb (str_ltb t (e_type e)).
(** equal_range and what insert does: a new element goes behind those with the same key. *)
Definition lower (t : str) (l : list entry) : list entry := drop_while (before_type t) l.
Definition upper (t : str) (l : list entry) : list entry := drop_while (not_after_type t) l.
Definition equal_range (t : str) (l : list entry) : list entry := take_while (not_after_type t) (lower t l).
Definition insert_entry (e : entry) (l : list entry) : list entry :=
  take_while (not_after_type (e_type e)) l ++ e :: upper (e_type e) l.

Inductive phase := CAPTURING | AT_TARGET | BUBBLING.
Definition capturing (p : phase) : bool := match p with CAPTURING => true | _ => false end.
Record call := Call { c_node : nat; c_phase : phase; c_listener : nat }.
Inductive action :=
  | StopPropagation
  | PreventDefault
  | AddListener (node : nat) (type : str) (listener : nat) (capture : bool)
  | RemoveListener (node : nat) (type : str) (listener : nat) (capture : bool).

(** The multimaps of all targets, the flags of the event, and the listener calls so far. *)
Record estate := EState {
  s_regs : nat -> bool -> list entry; s_fresh : nat; s_stopped : bool; s_prevented : bool; s_trace : list call }.
Definition put_reg (r : nat -> bool -> list entry) (n : nat) (cap : bool) (l : list entry) : nat -> bool -> list entry :=
  fun m c => if Nat.eqb m n && Bool.eqb c cap then l else r m c.

(** addEventListener, 52-72. *)
Definition add_listener (s : estate) (n : nat) (t : str) (lis : nat) (cap : bool) : estate :=
  let l := s_regs s n cap in
  if existsb (fun e => Nat.eqb (e_listener e) lis) (equal_range t l) then s
  else EState (put_reg (s_regs s) n cap (insert_entry (Entry (s_fresh s) t lis) l)) (S (s_fresh s)) (s_stopped s) (s_prevented s) (s_trace s).
(** removeEventListener, 74-94: the loop returns after the first element. *)
Definition remove_listener (s : estate) (n : nat) (t : str) (lis : nat) (cap : bool) : estate :=
  let l := s_regs s n cap in
  match equal_range t l with
  | e :: _ => if Nat.eqb (e_listener e) lis
              then EState (put_reg (s_regs s) n cap (filter (fun x => negb (Nat.eqb (e_id x) (e_id e))) l)) (s_fresh s) (s_stopped s) (s_prevented s) (s_trace s)
              else s
  | [] => s
  end.
(** stopPropagation and preventDefault, EventImpl.hpp:94-103. *)
Definition act (cancelable : bool) (s : estate) (a : action) : estate :=
  match a with
  | StopPropagation => if cancelable then EState (s_regs s) (s_fresh s) true (s_prevented s) (s_trace s) else s
  | PreventDefault => EState (s_regs s) (s_fresh s) (s_stopped s) true (s_trace s)
  | AddListener n t l c => add_listener s n t l c
  | RemoveListener n t l c => remove_listener s n t l c
  end.

(** initEvent, EventImpl.hpp:105-110. *)
Record event := Event { ev_type : str; ev_bubbles : bool; ev_cancelable : bool }.
(** How a piece of dispatchEvent ends; [Undef] is use of an invalid iterator. *)
Inductive disp (A : Type) := Fin (a : A) | Undef | NoFuel.
Arguments Fin {A} a. Arguments Undef {A}. Arguments NoFuel {A}.

Section Dispatch.
Context (script : list call -> call -> list action) (ev : event).
(** One call of handleEvent. *)
Definition handle (s : estate) (c : call) : estate :=
  fold_left (act (ev_cancelable ev)) (script (s_trace s) c)
    (EState (s_regs s) (s_fresh s) (s_stopped s) (s_prevented s) (s_trace s ++ [c])).

(** An iterator: an element or end(). *)
Definition iter_of (l : list entry) : option nat := match l with [] => None | e :: _ => Some (e_id e) end.
Definition oeqb (a b : option nat) : bool := match a, b with Some x, Some y => Nat.eqb x y | None, None => true | _, _ => false end.
Definition alive (l : list entry) (i : option nat) : bool :=
  match i with None => true | Some x => existsb (fun e => Nat.eqb (e_id e) x) l end.
(** The list from an element on. *)
Definition from_entry (l : list entry) (x : nat) : list entry := drop_while (fun e => negb (Nat.eqb (e_id e) x)) l.
(** A loop over a range, 115-118, 128-131 and 140-143. *)
Fixpoint loop (fuel : nat) (s : estate) (n : nat) (p : phase) (cur fin : option nat) : disp estate :=
  match fuel with
  | O => NoFuel
  | S f =>
      let l := s_regs s n (capturing p) in
      if negb (alive l cur && alive l fin) then Undef
      else if oeqb cur fin then Fin s
      else match cur with
           | None => Undef
           | Some x =>
               match from_entry l x with
               | [] => Undef
               | e :: _ =>
                   let s1 := handle s (Call n p (e_listener e)) in
                   match from_entry (s_regs s1 n (capturing p)) x with
                   | [] => Undef
                   | _ :: r => loop f s1 n p (iter_of r) fin
                   end
               end
           end
  end.
Definition visit (fuel : nat) (s : estate) (n : nat) (p : phase) : disp estate :=
  let l := s_regs s n (capturing p) in
  loop fuel s n p (iter_of (lower (ev_type ev) l)) (iter_of (upper (ev_type ev) l)).
(** The loops over the ancestors, 111-124 and 136-149: the result says whether it went to
    the end. *)
Fixpoint visit_all (fuel : nat) (s : estate) (p : phase) (l : list nat) : disp (estate * bool) :=
  match l with
  | [] => Fin (s, true)
  | n :: r =>
      match visit fuel s n p with
      | Fin s1 => if s_stopped s1 then Fin (s1, false) else visit_all fuel s1 p r
      | Undef => Undef
      | NoFuel => NoFuel
      end
  end.
(** 103-107: the ancestors, outermost first. *)
Fixpoint chain (fuel : nat) (h : heap) (n : nat) (acc : list nat) : option (list nat) :=
  match fuel with
  | O => None
  | S f => match get_parent h n with None => Some acc | Some p => chain f h p (p :: acc) end
  end.
(** dispatchEvent, 96-153. *)
Definition dispatch (fuel : nat) (h : heap) (s : estate) (target : nat) : disp (estate * bool) :=
  match chain fuel h target [] with
  | None => NoFuel
  | Some path =>
      match visit_all fuel s CAPTURING path with
      | Fin (s1, false) => Fin (s1, false)
      | Fin (s1, true) =>
          match visit fuel s1 target AT_TARGET with
          | Fin s2 => if ev_bubbles ev then visit_all fuel s2 BUBBLING (rev path) else Fin (s2, true)
          | Undef => Undef
          | NoFuel => NoFuel
          end
      | Undef => Undef
      | NoFuel => NoFuel
      end
  end.
End Dispatch.
(** New targets and a new event. *)
Definition no_listeners : estate := EState (fun _ _ => []) 0 false false [].
