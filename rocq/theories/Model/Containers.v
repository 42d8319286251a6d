(** std::map and std::multimap keyed by strings, as sorted association lists in
    iteration order. *)
From Verif.Model Require Import Base.

(** operator< of std::basic_string: lexicographic on character codes. *)
Fixpoint str_ltb (a b : str) : bool :=
  match a, b with
  | [], [] => false
  | [], _ => true
  | _, [] => false
  | x :: a', y :: b' => if x <? y then true else if y <? x then false else str_ltb a' b'
  end.

(** multimap::insert: after the entries with an equal key (C++11, 23.2.4). *)
Fixpoint mm_insert {V} (k : str) (v : V) (m : list (str * V)) : list (str * V) :=
  match m with
  | [] => [(k, v)]
  | (k', v') :: r => if str_ltb k k' then (k, v) :: m else (k', v') :: mm_insert k v r
  end.
(** find: the standard lets multimap::find return any entry with the key; the
    model returns the first, as libstdc++ and libc++ do. *)
Fixpoint mm_find {V} (k : str) (m : list (str * V)) : option V :=
  match m with
  | [] => None
  | (k', v) :: r => if str_eqb k' k then Some v else mm_find k r
  end.
(** map::operator[] = v. *)
Fixpoint map_set {V} (k : str) (v : V) (m : list (str * V)) : list (str * V) :=
  match m with
  | [] => [(k, v)]
  | (k', v') :: r =>
      if str_eqb k' k then (k', v) :: r
      else if str_ltb k k' then (k, v) :: m
      else (k', v') :: map_set k v r
  end.
