(** normalize with attributes: include/DOM/Simple/NodeImpl.hpp:98-129. *)
From Verif.Model Require Import Base Dom DomText.
From Coq Require Import List. Import ListNotations.

(** The loop over the attributes, 125-128.  An attribute has no attributes, nor has what is below
    it. *)
Fixpoint normalize_each (fuel : nat) (h : heap) (attrs : list nat) : res unit :=
  match attrs with
  | [] => Ok h tt
  | a :: r => rbind (normalize fuel h a) (fun h _ => normalize_each fuel h r)
  end.
(** normalize, where [attrs] gives the attributes of each node. *)
Fixpoint normalize_all (attrs : nat -> list nat) (fuel : nat) (h : heap) (this : nat) : res unit :=
  match fuel with
  | O => Div
  | S f => rbind (all_loop attrs f h this (first_child h this)) (fun h _ => normalize_each f h (attrs this))
  end
with all_loop (attrs : nat -> list nat) (fuel : nat) (h : heap) (this : nat) (child : option nat) : res unit :=
  match fuel with
  | O => Div
  | S f =>
      match child with
      | None => Ok h tt
      | Some c =>
          let next := n_next (h c) in
          if has_kind h c KText then
            rbind (merge_texts f h this c next) (fun h next =>
            rbind (match n_data (h c) with
                   | [] => rbind (vremove h this (Some c)) (fun h _ => Ok h tt)
                   | _ => Ok h tt
                   end) (fun h _ => all_loop attrs f h this next))
          else rbind (normalize_all attrs f h c) (fun h _ => all_loop attrs f h this next)
      end
  end.
