(** What the DOM says about attributes: every element has a partial map from names to
    attributes, every attribute is in the map of at most one element, and every attribute
    has a value.  This is the DOM Level 1 part (names without namespaces). *)
From Verif.Model Require Import Base Chars AttrMap.

Record view := View {
  v_next : nat;                        (* attributes below this exist *)
  v_doc : nat -> nat; v_name : nat -> str; v_value : nat -> str; v_fixed : nat -> bool;
  v_owner : nat -> option nat;         (* the element the attribute belongs to *)
  v_at : nat -> str -> option nat;     (* the map of each element *)
  v_closed : nat -> bool }.            (* the element is read-only *)

Definition name_ok (s : str) : bool := negb (Nat.eqb (length s) 0) && forallb is_name_char s.
(** A new attribute. *)
Definition make (v : view) (doc : nat) (name value : str) : view :=
  let n := v_next v in
  View (S n) (fun a => if Nat.eqb a n then doc else v_doc v a) (fun a => if Nat.eqb a n then name else v_name v a)
    (fun a => if Nat.eqb a n then value else v_value v a) (fun a => if Nat.eqb a n then false else v_fixed v a)
    (fun a => if Nat.eqb a n then None else v_owner v a) (v_at v) (v_closed v).
(** The element's map takes the attribute, in place of the one with that name. *)
Definition attach (v : view) (e a : nat) : view :=
  View (v_next v) (v_doc v) (v_name v) (v_value v) (v_fixed v)
    (fun x => if Nat.eqb x a then Some e
              else match v_at v e (v_name v a) with Some old => if Nat.eqb x old then None else v_owner v x | None => v_owner v x end)
    (fun x n => if Nat.eqb x e && str_eqb n (v_name v a) then Some a else v_at v x n) (v_closed v).
Definition detach (v : view) (e a : nat) : view :=
  View (v_next v) (v_doc v) (v_name v) (v_value v) (v_fixed v)
    (fun x => if Nat.eqb x a then None else v_owner v x)
    (fun x n => if Nat.eqb x e && str_eqb n (v_name v a) then None else v_at v x n) (v_closed v).
Definition assign (v : view) (a : nat) (s : str) : view :=
  View (v_next v) (v_doc v) (v_name v) (fun x => if Nat.eqb x a then s else v_value v x) (v_fixed v) (v_owner v) (v_at v) (v_closed v).
Definition close (v : view) (e : nat) : view :=
  View (v_next v) (v_doc v) (v_name v) (v_value v)
    (fun a => match v_owner v a with Some o => if Nat.eqb o e then true else v_fixed v a | None => v_fixed v a end)
    (v_owner v) (v_at v) (fun x => if Nat.eqb x e then true else v_closed v x).

Section Calls.
Context (docs : nat -> nat) (dflt : nat -> list default_attr).
(** The value declared as default for a name on an element. *)
Definition declared (e : nat) (n : str) : option str :=
  match find (fun t => str_eqb (t_name t) n) (dflt e) with Some t => Some (t_value t) | None => None end.
Definition drop (v : view) (e a : nat) : view :=
  let n := v_name v a in
  match declared e n with
  | None => detach v e a
  | Some d => attach (make (detach v e a) (docs e) n d) e (v_next v)
  end.
Definition value_at (v : view) (e : nat) (n : str) : str := match v_at v e n with Some a => v_value v a | None => [] end.
Definition call_spec (v : view) (c : acall) : view * reply :=
  match c with
  | ACreate d n => if name_ok n then (make v d n [], RAttr (Some (v_next v))) else (v, RThrow A_INVALID_CHARACTER)
  | AGet e n => (v, RStr (value_at v e n))
  | AHas e n => (v, RBool (match v_at v e n with Some _ => true | None => false end))
  | AGetNode e n => (v, RAttr (v_at v e n))
  | ASet e n s =>
      if negb (name_ok n) then (v, RThrow A_INVALID_CHARACTER)
      else if v_closed v e then (v, RThrow A_NO_MODIFICATION)
      else (attach (make v (docs e) n s) e (v_next v), RNone)
  | ASetNode e a =>
      match v_owner v a with
      | Some o => if Nat.eqb o e then (v, RAttr (Some a))
                  else if v_closed v e then (v, RThrow A_NO_MODIFICATION) else (v, RThrow A_INUSE)
      | None => if v_closed v e then (v, RThrow A_NO_MODIFICATION)
                else (attach v e a, RAttr (v_at v e (v_name v a)))
      end
  | ARemove e n =>
      if v_closed v e then (v, RThrow A_NO_MODIFICATION)
      else match v_at v e n with None => (v, RThrow A_NOT_FOUND) | Some a => (drop v e a, RNone) end
  | ARemoveNode e a =>
      if v_closed v e then (v, RThrow A_NO_MODIFICATION) else (drop v e a, RAttr (Some a))
  | AFreeze e => (close v e, RNone)
  | AValue a => (v, RStr (v_value v a))
  | ASetValue a s => if v_fixed v a then (v, RThrow A_NO_MODIFICATION) else (assign v a s, RNone)
  | AAppendText a s => if v_fixed v a then (v, RThrow A_NO_MODIFICATION) else (assign v a (v_value v a ++ s), RNone)
  | _ => (v, RNone)
  end.
Fixpoint calls_spec (v : view) (cs : list acall) : view * list reply :=
  match cs with
  | [] => (v, [])
  | c :: r => let '(v1, x) := call_spec v c in let '(v2, xs) := calls_spec v1 r in (v2, x :: xs)
  end.
(** The calls of DOM Level 1 on attributes that exist.  Two restrictions, without which the
    code does something else (see the refutations): an attribute node is set on an element
    of its own document, and only an attribute of the element is removed from it. *)
Definition suits (v : view) (c : acall) : Prop :=
  match c with
  | ACreate _ _ | AGet _ _ | AHas _ _ | AGetNode _ _ | ASet _ _ _ | ARemove _ _ | AFreeze _ => True
  | ASetNode e a => (a < v_next v)%nat /\ v_doc v a = docs e
  | ARemoveNode e a => (a < v_next v)%nat /\ v_owner v a = Some e
  | AValue a | ASetValue a _ | AAppendText a _ => (a < v_next v)%nat
  | _ => False
  end.
Fixpoint history (v : view) (cs : list acall) : Prop :=
  match cs with [] => True | c :: r => suits v c /\ history (fst (call_spec v c)) r end.
End Calls.
Definition first_view : view :=
  View 0 (fun _ => 0%nat) (fun _ => []) (fun _ => []) (fun _ => false) (fun _ => None) (fun _ _ => None) (fun _ => false).

(** Calls in general: only attributes that exist are passed. *)
Definition passed (c : acall) : list nat :=
  match c with
  | ASetNode _ a | ASetNodeNS _ a | ARemoveNode _ a | AValue a | ASetValue a _ | AAppendText a _ | AEditText a _ _ | ASetPrefix a _ => [a]
  | _ => []
  end.
Inductive attr_reach : world -> Prop :=
  | ar_first : forall docs dflt, attr_reach (first_world docs dflt)
  | ar_call : forall w c, attr_reach w -> Forall (fun a => (a < w_next w)%nat) (passed c) -> attr_reach (fst (attr_call w c)).
(** Calls of DOM Level 2: only attributes with a namespace or a local name. *)
Definition level2 (c : acall) : bool :=
  match c with
  | ACreate _ _ | AGet _ _ | AHas _ _ | AGetNode _ _ | ASet _ _ _ | ASetNode _ _ | ARemove _ _ | ARemoveNode _ _ | ADefaults _ => false
  | _ => true
  end.
Inductive reach2 : world -> Prop :=
  | r2_first : forall docs, reach2 (first_world docs (fun _ => []))
  | r2_call : forall w c, reach2 w -> level2 c = true -> Forall (fun a => (a < w_next w)%nat) (passed c) -> reach2 (fst (attr_call w c)).
