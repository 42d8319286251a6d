(** DOM events as objects with handles: include/DOM/Simple/EventImpl.hpp, MutationEventImpl.hpp and
    DocumentEventImpl.hpp, and the handles of include/DOM/Events/Event.hpp, MutationEvent.hpp over
    include/DOM/Proxy.hpp.  What listeners are called is in Events.v.  The handle DocumentEvent is left
    out: its Impl(), DocumentEvent.hpp:59, calls itself. *)
From Coq Require Import String.
From Verif.Model Require Import Base XSort.
From Coq Require Import List ZArith. Import ListNotations. Open Scope Z_scope.

(** EventImpl.hpp:141-152 and MutationEventImpl.hpp:91-96.  None is a member that no constructor
    sets.  The target, the phase and the time are left out.  The count is not bounded here: there
    are never as many handles as an unsigned long counts. *)
Record object := Object {
  o_type : str; o_bubbles : option bool; o_cancelable : option bool; o_stopped : bool; o_prevented : bool;
  o_prev : str; o_next : str; o_attr : str; o_change : option Z;
  o_count : Z; o_freed : bool }.
(** EventImpl(), 47-51, and MutationEventImpl(), 37-40. *)
Definition new_object : object := Object [] None None false false [] [] [] None 0 false.
(** The variables of type Event of a program, and the events made so far. *)
Record estate := EState { e_vars : nat -> option nat; e_objects : list object }.
Definition at_start : estate := EState (fun _ => None) [].
Definition put_var (f : nat -> option nat) (v : nat) (x : option nat) : nat -> option nat := fun w => if Nat.eqb w v then x else f w.
Fixpoint put_object (l : list object) (i : nat) (o : object) : list object :=
  match l, i with
  | [], _ => []
  | _ :: r, O => o :: r
  | x :: r, S i => x :: put_object r i o
  end.
(** A call of a member function: through null or of a freed event it is undefined. *)
Definition on_object (s : estate) (i : nat) (g : object -> outcome object) : outcome estate :=
  match nth_error (e_objects s) i with
  | None => UB
  | Some o => if o_freed o then UB else obind (g o) (fun o => Val (EState (e_vars s) (put_object (e_objects s) i o)))
  end.
Definition on_handle (s : estate) (v : nat) (g : object -> outcome object) : outcome estate :=
  match e_vars s v with None => UB | Some i => on_object s i g end.
Definition counted (o : object) (n : Z) (freed : bool) : object :=
  Object (o_type o) (o_bubbles o) (o_cancelable o) (o_stopped o) (o_prevented o) (o_prev o) (o_next o) (o_attr o) (o_change o) n freed.
(** addRef and releaseRef, 112-122. *)
Definition add_ref (s : estate) (i : nat) : outcome estate := on_object s i (fun o => Val (counted o (o_count o + 1) false)).
Definition release_ref (s : estate) (i : nat) : outcome estate :=
  on_object s i (fun o => Val (counted o (o_count o - 1) (o_count o - 1 =? 0))).
(** Proxy::setImpl, Proxy.hpp:54-66: first the old one is released. *)
Definition set_impl (s : estate) (v : nat) (impl : option nat) : outcome estate :=
  obind match e_vars s v with
        | None => Val s
        | Some i => obind (release_ref s i) (fun s => Val (EState (put_var (e_vars s) v None) (e_objects s)))
        end (fun s =>
  match impl with
  | None => Val s
  | Some j => obind (add_ref s j) (fun s => Val (EState (put_var (e_vars s) v (Some j)) (e_objects s)))
  end).

(** DocumentEventImpl::createEvent, DocumentEventImpl.hpp:47-54. *)
Definition mutation_name : str := ascii_str "MutationEvent".
(** What a program does with events: v = createEvent(kind), where the event is held by a temporary
    until it is in [v]; v = w; the end of v; initEvent, 105-110; initMutationEvent,
    MutationEventImpl.hpp:72-89; stopPropagation and preventDefault, 94-103. *)
Inductive op :=
  | Create (v : nat) (kind : str) | Assign (v w : nat) | Drop (v : nat)
  | Init (v : nat) (type : str) (bubbles cancelable : bool)
  | InitMutation (v : nat) (type : str) (bubbles cancelable : bool) (prev next attr : str) (change : Z)
  | Stop (v : nat) | Prevent (v : nat).
Definition step (s : estate) (o : op) : outcome estate :=
  match o with
  | Create v kind =>
      if str_eqb kind mutation_name then
        let i := length (e_objects s) in
        obind (add_ref (EState (e_vars s) (e_objects s ++ [new_object])) i) (fun s =>
        obind (set_impl s v (Some i)) (fun s => release_ref s i))
      else set_impl s v None
  | Assign v w => set_impl s v (e_vars s w)
  | Drop v => set_impl s v None
  | Init v t b c => on_handle s v (fun o =>
      Val (Object t (Some b) (Some c) (o_stopped o) (o_prevented o) (o_prev o) (o_next o) (o_attr o) (o_change o) (o_count o) (o_freed o)))
  | InitMutation v t b c p n a ch => on_handle s v (fun o =>
      Val (Object t (Some b) (Some c) (o_stopped o) (o_prevented o) p n a (Some ch) (o_count o) (o_freed o)))
  | Stop v => on_handle s v (fun o =>
      match o_cancelable o with
      | None => UB
      | Some c => Val (Object (o_type o) (o_bubbles o) (o_cancelable o) (if c then true else o_stopped o) (o_prevented o) (o_prev o) (o_next o) (o_attr o) (o_change o) (o_count o) (o_freed o))
      end)
  | Prevent v => on_handle s v (fun o =>
      Val (Object (o_type o) (o_bubbles o) (o_cancelable o) (o_stopped o) true (o_prev o) (o_next o) (o_attr o) (o_change o) (o_count o) (o_freed o)))
  end.
Fixpoint run (s : estate) (l : list op) : outcome estate :=
  match l with [] => Val s | o :: r => obind (step s o) (fun s => run s r) end.

(** The event that a handle asks, and its getters, 58-92 and MutationEventImpl.hpp:47-70; a member
    that was not set has no value. *)
Definition asked (s : estate) (v : nat) : outcome object :=
  match e_vars s v with
  | None => UB
  | Some i => match nth_error (e_objects s) i with Some o => if o_freed o then UB else Val o | None => UB end
  end.
Definition was_set {A} (x : option A) : outcome A := match x with Some a => Val a | None => UB end.
Definition get_type (s : estate) (v : nat) : outcome str := obind (asked s v) (fun o => Val (o_type o)).
Definition get_bubbles (s : estate) (v : nat) : outcome bool := obind (asked s v) (fun o => was_set (o_bubbles o)).
Definition get_cancelable (s : estate) (v : nat) : outcome bool := obind (asked s v) (fun o => was_set (o_cancelable o)).
Definition get_mutation (s : estate) (v : nat) : outcome (str * str * str) := obind (asked s v) (fun o => Val (o_prev o, o_next o, o_attr o)).
Definition get_change (s : estate) (v : nat) : outcome Z := obind (asked s v) (fun o => was_set (o_change o)).
(** stopped_ and defaultsPrevented_, which the dispatcher, a friend, reads: EventTargetImpl.hpp. *)
Definition get_flags (s : estate) (v : nat) : outcome (bool * bool) := obind (asked s v) (fun o => Val (o_stopped o, o_prevented o)).
