(** xsl:sort: include/XSLT/impl/xslt_sort.hpp. *)
From Coq Require Import String Ascii SpecFloat.
From Verif.Model Require Import Base Containers XNode XNodeSet XNumber Template.
From Coq Require Import List.
Import ListNotations.
Open Scope Z_scope.

Definition ascii_str (s : string) : str := map (fun c => Z.of_nat (nat_of_ascii c)) (list_ascii_of_string s).
(** Sort: select_ as a text and as a number of a node, for the position and the size that the
    context has; and the values of datatype_, order_ and caseorder_. *)
Record sort_element := SortElement { se_text : xnode -> Z -> Z -> str; se_number : xnode -> Z -> Z -> spec_float; se_data_type : str; se_order : str; se_case_order : str }.
(** sort_fn_, after set_context. *)
Inductive sort_fn := NumberAscending | NumberDescending | StringAscending | StringDescending.
(** validate, 82-91. *)
Definition is_allowed (a b v : str) : bool := str_eqb v a || str_eqb v b.
(** set_context, 38-64; [None] is the exception. *)
Definition set_context (s : sort_element) : option sort_fn :=
  if negb (is_allowed (ascii_str "text") (ascii_str "number") (se_data_type s)) then None
  else if negb (is_allowed (ascii_str "ascending") (ascii_str "descending") (se_order s)) then None
  else if negb (is_allowed (ascii_str "upper-first") (ascii_str "lower-first") (se_case_order s)) then None
  else Some (if str_eqb (se_data_type s) (ascii_str "number")
             then if str_eqb (se_order s) (ascii_str "ascending") then NumberAscending else NumberDescending
             else if str_eqb (se_order s) (ascii_str "ascending") then StringAscending else StringDescending).
(** nanAscending and nanDescending, 102-109. *)
Definition nan_ascending (nan1 nan2 : bool) : bool := negb nan2.
Definition nan_descending (nan1 nan2 : bool) : bool := negb nan1.
(** numberSort, 110-132, and stringSort, 141-153; [sub] is sub_sort_. *)
Definition number_sort (v1 v2 : spec_float) (sub : option bool) (nan_compare : bool -> bool -> bool) (compare : spec_float -> spec_float -> bool) : bool :=
  match sub with
  | Some b => if (is_nan v1 && is_nan v2) || SFeqb v1 v2 then b else if is_nan v1 || is_nan v2 then nan_compare (is_nan v1) (is_nan v2) else compare v1 v2
  | None => if is_nan v1 || is_nan v2 then nan_compare (is_nan v1) (is_nan v2) else compare v1 v2
  end.
Definition string_sort (v1 v2 : str) (sub : option bool) (compare : str -> str -> bool) : bool :=
  match sub with
  | Some b => if str_eqb v1 v2 then b else compare v1 v2
  | None => compare v1 v2
  end.
(** operator(), 66-69, with the functions of 94-101 and 133-140, and grabAsString and
    grabAsNumber, 155-164, which set the position to 1.  A sort without elements does not
    exist. *)
Fixpoint sort_less (ks : list (sort_element * sort_fn)) (last : Z) (x y : xnode) : bool :=
  match ks with
  | [] => false
  | (s, f) :: r =>
      let sub := match r with [] => None | _ => Some (sort_less r last x y) end in
      match f with
      | NumberAscending => number_sort (se_number s x 1 last) (se_number s y 1 last) sub nan_ascending (fun a b => SFltb a b)
      | NumberDescending => number_sort (se_number s x 1 last) (se_number s y 1 last) sub nan_descending (fun a b => SFltb b a)
      | StringAscending => string_sort (se_text s x 1 last) (se_text s y 1 last) sub (fun a b => str_ltb a b)
      | StringDescending => string_sort (se_text s x 1 last) (se_text s y 1 last) sub (fun a b => str_ltb b a)
      end
  end.
(** set_context, with that of sub_sort_. *)
Fixpoint set_contexts (l : list sort_element) : option (list (sort_element * sort_fn)) :=
  match l with
  | [] => Some []
  | s :: r => match set_context s, set_contexts r with Some f, Some ks => Some ((s, f) :: ks) | _, _ => None end
  end.
(** Sortable::sort, 195-208; [last] is that of the context.  std::stable_sort gives one result
    only, as the ordering is a strict weak one (see Proof/XSortProof.v). *)
Definition sort_nodes (ss : sorter) (f : forest) (l : list sort_element) (last : Z) (s : nodeset) : option nodeset :=
  match l with
  | [] => Some (if is_forward s then s else to_document_order ss f s)
  | _ => match set_contexts l with
         | Some ks => Some (Set_ (sort_by (sort_less ks last) (s_nodes s)) (s_forward s) (s_sorted s))
         | None => None
         end
  end.
