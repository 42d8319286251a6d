(** include/DOM/Traversal/TreeWalkerImpl.hpp over the node structure of Model/Dom.v.  The
    node filter is a function of the node: a filter that changes its mind, changes the
    document or throws is not modelled.  The recursion of the code runs on fuel: [None] is
    no answer yet. *)
From Verif.Model Require Import Base Dom.

(** NodeFilter::Result, Traversal/NodeFilter.hpp:30-35. *)
Inductive verdict := Accept | Reject | Skip.
Definition is_accept v := match v with Accept => true | _ => false end.
Definition is_skip v := match v with Skip => true | _ => false end.
(** Node_base::Type, Node.hpp:33-44. *)
Definition node_type (k : nkind) : Z :=
  match k with
  | KElement => 1 | KAttr => 2 | KText => 3 | KCData => 4 | KEntityRef => 5 | KEntity => 6
  | KPI => 7 | KComment => 8 | KDocument => 9 | KDocType => 10 | KFragment => 11 | KNotation => 12
  end.
(** The members, 290-294. *)
Record walker := Walker {
  tw_root : nat; tw_cur : nat; tw_show : Z; tw_filter : option (nat -> verdict); tw_expand : bool }.
Definition set_cur (w : walker) (n : nat) : walker := Walker (tw_root w) n (tw_show w) (tw_filter w) (tw_expand w).

Section Moves.
Context (h : heap) (w : walker).
(** acceptNode, 273-286. *)
Definition accept_node (n : nat) : verdict :=
  if Z.testbit (tw_show w) (node_type (n_kind (h n)) - 1)
  then match tw_filter w with Some f => f n | None => Accept end
  else Skip.
Definition has_kids (n : nat) : bool := match n_kids (h n) with [] => false | _ => true end.
Definition closed_ref (n : nat) : bool := negb (tw_expand w) && has_kind h n KEntityRef.

(** getParentNodeImpl, 152-166. *)
Fixpoint parent_impl (fuel : nat) (n : nat) : option (option nat) :=
  match fuel with
  | O => None
  | S f =>
      if Nat.eqb n (tw_root w) then Some None
      else match get_parent h n with
           | None => Some None
           | Some p => if Nat.eqb p (tw_root w) then Some None
                       else if is_accept (accept_node p) then Some (Some p) else parent_impl f p
           end
  end.
(** getNextSiblingImpl, 168-200, and getFirstChildImpl, 236-252. *)
Fixpoint next_impl (fuel : nat) (n : nat) : option (option nat) :=
  match fuel with
  | O => None
  | S f =>
      if Nat.eqb n (tw_root w) then Some None
      else match n_next (h n) with
           | None =>
               match get_parent h n with
               | None => Some None
               | Some p => if Nat.eqb p (tw_root w) then Some None
                           else if is_skip (accept_node p) then next_impl f p else Some None
               end
           | Some x =>
               match accept_node x with
               | Accept => Some (Some x)
               | Skip =>
                   match first_impl f x with
                   | None => None
                   | Some None => if has_kids x then Some None else next_impl f x
                   | Some (Some c) => Some (Some c)
                   end
               | Reject => next_impl f x
               end
           end
  end
with first_impl (fuel : nat) (n : nat) : option (option nat) :=
  match fuel with
  | O => None
  | S f =>
      if closed_ref n then Some None
      else match first_child h n with
           | None => Some None
           | Some x =>
               match accept_node x with
               | Accept => Some (Some x)
               | Skip => if has_kids x then first_impl f x else next_impl f x
               | Reject => next_impl f x
               end
           end
  end.
(** getPreviousSiblingImpl, 202-234, and getLastChildImpl, 254-270. *)
Fixpoint prev_impl (fuel : nat) (n : nat) : option (option nat) :=
  match fuel with
  | O => None
  | S f =>
      if Nat.eqb n (tw_root w) then Some None
      else match n_prev (h n) with
           | None =>
               match get_parent h n with
               | None => Some None
               | Some p => if Nat.eqb p (tw_root w) then Some None
                           else if is_skip (accept_node p) then prev_impl f p else Some None
               end
           | Some x =>
               match accept_node x with
               | Accept => Some (Some x)
               | Skip =>
                   match last_impl f x with
                   | None => None
                   | Some None => if has_kids x then Some None else prev_impl f x
                   | Some (Some c) => Some (Some c)
                   end
               | Reject => prev_impl f x
               end
           end
  end
with last_impl (fuel : nat) (n : nat) : option (option nat) :=
  match fuel with
  | O => None
  | S f =>
      if closed_ref n then Some None
      else match last_child h n with
           | None => Some None
           | Some x =>
               match accept_node x with
               | Accept => Some (Some x)
               | Skip => if has_kids x then last_impl f x else prev_impl f x
               | Reject => prev_impl f x
               end
           end
  end.
(** The loop of nextNode, 132-140. *)
Fixpoint up_impl (fuel : nat) (n : nat) : option (option nat) :=
  match fuel with
  | O => None
  | S f =>
      match parent_impl f n with
      | None => None
      | Some None => Some None
      | Some (Some p) =>
          match next_impl f p with
          | None => None
          | Some (Some x) => Some (Some x)
          | Some None => up_impl f p
          end
      end
  end.
(** nextNode without the assignment, 116-143. *)
Definition next_node_impl (fuel : nat) : option (option nat) :=
  match first_impl fuel (tw_cur w) with
  | None => None
  | Some (Some x) => Some (Some x)
  | Some None =>
      match next_impl fuel (tw_cur w) with
      | None => None
      | Some (Some x) => Some (Some x)
      | Some None => up_impl fuel (tw_cur w)
      end
  end.
(** previousNode without the assignment, 98-114: in the else branch the parent of the null
    node is asked for (getParentNodeImpl of null is null). *)
Definition previous_node_impl (fuel : nat) : option (option nat) :=
  match prev_impl fuel (tw_cur w) with
  | None => None
  | Some (Some x) =>
      match last_impl fuel x with
      | None => None
      | Some (Some c) => Some (Some c)
      | Some None => Some (Some x)
      end
  | Some None => Some None
  end.
End Moves.
(** The calls: 58-143.  nextSibling calls getPreviousSiblingImpl (92). *)
Inductive tw_call := TwParent | TwFirst | TwLast | TwPrevSibling | TwNextSibling | TwPrevNode | TwNextNode.
Definition tw_move (h : heap) (fuel : nat) (w : walker) (c : tw_call) : option (option nat) :=
  match c with
  | TwParent => parent_impl h w fuel (tw_cur w)
  | TwFirst => first_impl h w fuel (tw_cur w)
  | TwLast => last_impl h w fuel (tw_cur w)
  | TwPrevSibling => prev_impl h w fuel (tw_cur w)
  | TwNextSibling => prev_impl h w fuel (tw_cur w)
  | TwPrevNode => previous_node_impl h w fuel
  | TwNextNode => next_node_impl h w fuel
  end.
Definition tw_do (h : heap) (fuel : nat) (w : walker) (c : tw_call) : option (walker * option nat) :=
  match tw_move h fuel w c with
  | None => None
  | Some None => Some (w, None)
  | Some (Some n) => Some (set_cur w n, Some n)
  end.
Fixpoint tw_run (h : heap) (fuel : nat) (w : walker) (cs : list tw_call) : option (walker * list (option nat)) :=
  match cs with
  | [] => Some (w, [])
  | c :: r =>
      match tw_do h fuel w c with
      | None => None
      | Some (w1, x) => match tw_run h fuel w1 r with Some (w2, xs) => Some (w2, x :: xs) | None => None end
      end
  end.
