(** Scoped dictionaries: what namespace contexts should be. *)
From Coq Require Import List ZArith Bool.
Import ListNotations.
Open Scope Z_scope.

Definition name := list Z.
Definition name_eqb (a b : name) : bool := if list_eq_dec Z.eq_dec a b then true else false.

(** A dictionary, and a stack of them; entering a scope copies the current one. *)
Definition env := name -> option name.
Definition no_env : env := fun _ => None.
Definition bind (p u : name) (e : env) : env := fun q => if name_eqb p q then Some u else e q.

Section Scopes.
  Variable reserved : name -> bool.   (** prefixes that cannot be declared *)

  Inductive scope_op := Enter | Leave | Declare (p u : name).

  (** Each scope with the prefixes declared in it; the innermost first. *)
  Definition scopes := list (env * list name).
  Definition current (s : scopes) : env := match s with [] => no_env | (e, _) :: _ => e end.

  (** Later declarations replace earlier ones. *)
  Definition scope_step (o : scope_op) (s : scopes) : option scopes :=
    match o, s with
    | Enter, _ => Some ((current s, []) :: s)
    | Leave, [] => None
    | Leave, _ :: r => Some r
    | Declare p u, _ =>
        if reserved p then Some s
        else match s with
             | [] => None
             | (e, here) :: r => Some ((bind p u e, p :: here) :: r)
             end
    end.
  (** The first declaration of a prefix in a scope counts. *)
  Definition scope_step_first (o : scope_op) (s : scopes) : option scopes :=
    match o, s with
    | Declare p u, (e, here) :: r =>
        if existsb (name_eqb p) here then Some s else scope_step o s
    | _, _ => scope_step o s
    end.
  Fixpoint scope_run (step : scope_op -> scopes -> option scopes) (ops : list scope_op)
    (s : scopes) : option scopes :=
    match ops with
    | [] => Some s
    | o :: r => match step o s with Some s' => scope_run step r s' | None => None end
    end.

  (** No prefix is declared twice in the same scope. *)
  Fixpoint declared_once (ops : list scope_op) (here : list (list name)) : Prop :=
    match ops with
    | [] => True
    | Enter :: r => declared_once r ([] :: here)
    | Leave :: r => match here with [] => True | _ :: h => declared_once r h end
    | Declare p u :: r =>
        match here with
        | [] => declared_once r []
        | h :: hs =>
            (reserved p = true \/ ~ In p h)
            /\ declared_once r ((if reserved p then h else p :: h) :: hs)
        end
    end.

  (** No prefix is declared while another declaration of it is in scope. *)
  Fixpoint declared_fresh (ops : list scope_op) (open : list (list name)) : Prop :=
    match ops with
    | [] => True
    | Enter :: r => declared_fresh r ([] :: open)
    | Leave :: r => match open with [] => True | _ :: h => declared_fresh r h end
    | Declare p u :: r =>
        match open with
        | [] => declared_fresh r []
        | h :: hs =>
            (reserved p = true \/ ~ In p (concat open))
            /\ declared_fresh r ((if reserved p then h else p :: h) :: hs)
        end
    end.
End Scopes.

(** Sequences that leave every scope they enter, and no other. *)
Inductive nested : list scope_op -> Prop :=
  | nested_nil : nested []
  | nested_decl p u r : nested r -> nested (Declare p u :: r)
  | nested_scope a r : nested a -> nested r -> nested (Enter :: a ++ Leave :: r).

(** The outermost scope is never left. *)
Fixpoint keeps_base (ops : list scope_op) (depth : nat) : Prop :=
  match ops with
  | [] => True
  | Enter :: r => keeps_base r (S depth)
  | Leave :: r => match depth with O => False | S d => keeps_base r d end
  | Declare _ _ :: r => keeps_base r depth
  end.

(** Element events: mappings announced before a start tag hold in that element;
    of two for the same prefix the later one counts. *)
Inductive elem_ev := Announce (p u : name) | Open | Close.
Section Elements.
  Variable reserved : name -> bool.
  Fixpoint announce (pending : list (name * name)) (e : env) : env :=
    match pending with
    | [] => e
    | (p, u) :: r => announce r (if reserved p then e else bind p u e)
    end.
  (** Pending mappings in order, and the dictionaries of the open elements. *)
  Fixpoint elem_run (evs : list elem_ev) (pending : list (name * name)) (s : list env)
    : option (list (name * name) * list env) :=
    match evs with
    | [] => Some (pending, s)
    | Announce p u :: r => elem_run r (pending ++ [(p, u)]) s
    | Open :: r => elem_run r [] (announce pending (hd no_env s) :: s)
    | Close :: r => match s with [] => None | _ :: s' => elem_run r pending s' end
    end.
End Elements.
