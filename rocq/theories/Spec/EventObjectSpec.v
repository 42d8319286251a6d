(** What the handles of a program with DOM events refer to, told from what the program did alone.
    Histories have the latest first. *)
From Verif.Model Require Import Base EventObject.
From Coq Require Import List Bool ZArith. Import ListNotations. Open Scope Z_scope.

(** How many events were made. *)
Fixpoint made (h : list op) : nat :=
  match h with
  | [] => 0
  | Create _ kind :: r => if str_eqb kind mutation_name then S (made r) else made r
  | _ :: r => made r
  end%nat.
(** Which of them, in the order they were made, a handle refers to. *)
Fixpoint refers (h : list op) (v : nat) : option nat :=
  match h with
  | [] => None
  | Create w kind :: r => if Nat.eqb v w then if str_eqb kind mutation_name then Some (made r) else None else refers r v
  | Assign w u :: r => if Nat.eqb v w then refers r u else refers r v
  | Drop w :: r => if Nat.eqb v w then None else refers r v
  | _ :: r => refers r v
  end.
(** What an event was last initialised with, by whatever handle. *)
Definition is_event (o : option nat) (i : nat) : bool := match o with Some j => Nat.eqb j i | None => false end.
Fixpoint initialised (h : list op) (i : nat) : option (str * bool * bool) :=
  match h with
  | [] => None
  | Init v t b c :: r | InitMutation v t b c _ _ _ _ :: r => if is_event (refers r v) i then Some (t, b, c) else initialised r i
  | _ :: r => initialised r i
  end.
Fixpoint mutation (h : list op) (i : nat) : option (str * str * str * Z) :=
  match h with
  | [] => None
  | InitMutation v _ _ _ p n a ch :: r => if is_event (refers r v) i then Some (p, n, a, ch) else mutation r i
  | _ :: r => mutation r i
  end.
(** Stopped: asked to stop when it was last initialised as one that can be cancelled.  Nothing starts
    it again. *)
Fixpoint stopped (h : list op) (i : nat) : bool :=
  match h with
  | [] => false
  | Stop v :: r => orb (is_event (refers r v) i && match initialised r i with Some (_, _, true) => true | _ => false end) (stopped r i)
  | _ :: r => stopped r i
  end.
Fixpoint prevented (h : list op) (i : nat) : bool :=
  match h with
  | [] => false
  | Prevent v :: r => orb (is_event (refers r v) i) (prevented r i)
  | _ :: r => prevented r i
  end.
(** A handle that is used refers to an event; its propagation is stopped only when it was
    initialised; and the only handle of an event is not assigned to itself. *)
Definition only (h : list op) (v : nat) : Prop := exists i, refers h v = Some i /\ forall w, refers h w = Some i -> w = v.
Definition fair (h : list op) (o : op) : Prop :=
  match o with
  | Create _ _ | Drop _ => True
  | Assign v w => v = w -> ~ only h v
  | Init v _ _ _ | InitMutation v _ _ _ _ _ _ _ | Prevent v => refers h v <> None
  | Stop v => exists i, refers h v = Some i /\ initialised h i <> None
  end.
Fixpoint all_fair (h l : list op) : Prop :=
  match l with [] => True | o :: r => fair h o /\ all_fair (o :: h) r end.
