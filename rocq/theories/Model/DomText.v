(** Character data, splitText and normalize of include/DOM/Simple, on the heap of
    Model/Dom.v. *)
From Verif.Model Require Import Base Dom.

(** static_cast<int> of a size. *)
Definition as_int (z : Z) : Z :=
  let m := z mod 4294967296 in if m <? 2147483648 then m else m - 4294967296.
Definition set_data (h : heap) (i : nat) (s : str) : heap := upd h i (set_data_f s).
Definition read_only {A} (h : heap) (i : nat) (k : res A) : res A :=
  if n_ro (h i) then Ex NO_MODIFICATION h else k.

(** The tests of CharacterDataImpl.hpp:46, 63, 73, 85. *)
Definition bad_offset (d : str) (offset : Z) : bool :=
  (offset <? 0) || (as_int (Z.of_nat (length d)) <? offset).
(** std::string::substr, insert, replace at an offset that is not past the end: they
    clamp the count. *)
Definition std_substr (d : str) (offset count : Z) : str :=
  firstn (Z.to_nat count) (skipn (Z.to_nat offset) d).
Definition std_replace (d : str) (offset count : Z) (arg : str) : str :=
  firstn (Z.to_nat offset) d ++ arg ++ skipn (Z.to_nat count) (skipn (Z.to_nat offset) d).

(** CharacterDataImpl.hpp:44-52. *)
Definition substring_data (h : heap) (i : nat) (offset count : Z) : res str :=
  if bad_offset (n_data (h i)) offset then Ex INDEX_SIZE h
  else if count <? 0 then Ex INDEX_SIZE h
  else Ok h (std_substr (n_data (h i)) offset count).
(** CharacterDataImpl.hpp:54-58. *)
Definition append_data (h : heap) (i : nat) (arg : str) : res unit :=
  read_only h i (Ok (set_data h i (n_data (h i) ++ arg)) tt).
(** CharacterDataImpl.hpp:60-68. *)
Definition insert_data (h : heap) (i : nat) (offset : Z) (arg : str) : res unit :=
  read_only h i
    (if bad_offset (n_data (h i)) offset then Ex INDEX_SIZE h
     else Ok (set_data h i (std_replace (n_data (h i)) offset 0 arg)) tt).
(** CharacterDataImpl.hpp:82-92. *)
Definition replace_data (h : heap) (i : nat) (offset count : Z) (arg : str) : res unit :=
  read_only h i
    (if bad_offset (n_data (h i)) offset then Ex INDEX_SIZE h
     else if count <? 0 then Ex INDEX_SIZE h
     else Ok (set_data h i (std_replace (n_data (h i)) offset count arg)) tt).
(** CharacterDataImpl.hpp:70-80. *)
Definition delete_data (h : heap) (i : nat) (offset count : Z) : res unit :=
  read_only h i
    (if bad_offset (n_data (h i)) offset then Ex INDEX_SIZE h
     else if count <? 0 then Ex INDEX_SIZE h
     else Ok (set_data h i (std_replace (n_data (h i)) offset count [])) tt).
(** setData and setNodeValue, CharacterDataImpl.hpp:33-37, 101-106. *)
Definition set_node_value (h : heap) (i : nat) (arg : str) : res unit :=
  read_only h i (Ok (set_data h i arg) tt).

(** splitText: TextImpl.hpp:31-43, CDATASectionImpl.hpp:31-40.  [new] is the address of
    the node that the call creates; it is not put into the document's set of orphans.
    (Here it is in the set while insertBefore runs, which does not read the set; adoption
    takes it out, and so does the failure case.)
    None: a CDATA section without a parent dereferences a null pointer. *)
Definition split_node (h : heap) (this : nat) (second : str) (o : bool) : node :=
  Node (n_kind (h this)) None None None [] (n_owner (h this)) false o None None 0 second [] None [].
Definition split_text (fuel : nat) (h : heap) (this new : nat) (offset : Z) : option (res nat) :=
  let len := as_int (Z.of_nat (length (n_data (h this)))) in
  if n_ro (h this) then Some (Ex NO_MODIFICATION h)
  else match substring_data h this offset (len - offset) with
  | Ok h second =>
      match delete_data h this offset (len - offset) with
      | Ok h _ =>
          match get_parent h this with
          | Some p =>
              let h1 := upd h new (fun _ => split_node h this second true) in
              match vinsert fuel h1 p new (n_next (h1 this)) with
              | Ok h2 _ => Some (Ok h2 new)
              | Ex e h2 => Some (Ex e (upd h2 new (set_orphan_f false)))
              | Div => Some Div
              end
          | None =>
              let h1 := upd h new (fun _ => split_node h this second false) in
              if has_kind h1 this KCData then None else Some (Ok h1 new)
          end
      | Ex e h => Some (Ex e h)
      | Div => Some Div
      end
  | Ex e h => Some (Ex e h)
  | Div => Some Div
  end.

(** The inner loop of normalize, NodeImpl.hpp:108-114. *)
Fixpoint merge_texts (fuel : nat) (h : heap) (this t : nat) (next : option nat) : res (option nat) :=
  match fuel with
  | O => Div
  | S f =>
      match next with
      | Some x =>
          if has_kind h x KText then
            rbind (append_data h t (n_data (h x))) (fun h _ =>
            rbind (vremove h this (Some x)) (fun h _ => merge_texts f h this t (n_next (h t))))
          else Ok h next
      | None => Ok h None
      end
  end.
(** normalize, NodeImpl.hpp:98-123.  The normalization of attributes (125-128) is left
    out: attributes are not in the child lists. *)
Fixpoint normalize (fuel : nat) (h : heap) (this : nat) : res unit :=
  match fuel with
  | O => Div
  | S f => norm_loop f h this (first_child h this)
  end
with norm_loop (fuel : nat) (h : heap) (this : nat) (child : option nat) : res unit :=
  match fuel with
  | O => Div
  | S f =>
      match child with
      | None => Ok h tt
      | Some c =>
          let next := n_next (h c) in
          if has_kind h c KText then
            rbind (merge_texts f h this c next) (fun h next =>
            rbind (match n_data (h c) with
                   | [] => rbind (vremove h this (Some c)) (fun h _ => Ok h tt)
                   | _ => Ok h tt
                   end) (fun h _ => norm_loop f h this next))
          else rbind (normalize f h c) (fun h _ => norm_loop f h this next)
      end
  end.
