(** Filters above a reader, and what is told through them. *)
From Verif.Model Require Import Base FilterChain.
From Coq Require Import List Bool.
Import ListNotations.

(** [above h a fs b r]: the filters [fs], the first of which is [a], have each the next as parent,
    and the last has the reader [r] at [b]; without filters, [a] is [b]. *)
Inductive above (h : heap) : nat -> list nat -> nat -> reader -> Prop :=
  | A_reader : forall b r, h b = FilterChain.Base r -> above h b [] b r
  | A_filter : forall a p s fs b r, h a = Filter (Some p) s -> above h p fs b r -> above h a (a :: fs) b r.

(** What is to be told of a document. *)
Definition whole (d : document) : list event :=
  LocatorSet :: DocStart :: map (fun p => Said (fst p) (snd p)) (d_events d) ++ (if d_broken d then [Fatal] else []) ++ [DocEnd].
(** Whether the handler for an event throws: DefaultHandler does at fatal errors. *)
Definition upset (throws : nat -> event -> bool) (s : kind -> handler) (e : event) : bool :=
  match s (kind_of e) with User u => throws u e | Default => match e with Fatal => true | _ => false end | AFilter _ => false end.
(** The events up to the first at which a handler throws, which is the last. *)
Fixpoint until (p : event -> bool) (l : list event) : list event :=
  match l with [] => [] | e :: l => e :: if p e then [] else until p l end.
(** The way of an event: through filters, then to the handler that was set, if one was. *)
Definition goes (path : list nat) (s : kind -> handler) (e : event) : list heard :=
  map (fun f => Passed f e) path ++ match s (kind_of e) with User u => [Heard u e] | _ => [] end.
(** The handlers of a filter are those of the program, or none were set. *)
Definition plain (s : kind -> handler) : Prop := forall k, match s k with AFilter _ => False | _ => True end.

(** A reader that is not parsing and can parse. *)
Definition ready (r : reader) : Prop := r_parsing r = false /\ r_library r = Fresh.
Definition all_ready (h : heap) : Prop := forall a r, h a = FilterChain.Base r -> ready r.
(** The same but for handlers. *)
Definition same_features (r r' : reader) : Prop :=
  r_namespaces r' = r_namespaces r /\ r_prefixes r' = r_prefixes r /\ r_external r' = r_external r.

(** A program: it makes filters and readers, and calls them. *)
Inductive call :=
  | NewReader (a : nat) | NewFilter (a : nat) (parent : option nat) | SetParent (a p : nat) | SetHandler (a : nat) (k : kind) (x : handler)
  | SetFeature (a : nat) (name : str) (v : bool) | Parse (a : nat) (d : document).
Inductive calls (throws : nat -> event -> bool) : heap -> call -> heap -> Prop :=
  | C_reader : forall h a, calls throws h (NewReader a) (put h a (FilterChain.Base new_reader))
  | C_filter : forall h a p, calls throws h (NewFilter a p) (put h a (new_filter p))
  | C_parent : forall h a p, calls throws h (SetParent a p) (set_parent h a p)
  | C_handler : forall h a k x, calls throws h (SetHandler a k x) (set_slot h a k x)
  | C_feature : forall h a n v f h', set_feature f h a n v = Val (inl h') -> calls throws h (SetFeature a n v) h'
  | C_refused : forall h a n v f x, set_feature f h a n v = Val (inr x) -> calls throws h (SetFeature a n v) h
  | C_parse : forall h a d f h' l, parse throws f h a d = Val (h', l, false) -> calls throws h (Parse a d) h'.
Inductive history (throws : nat -> event -> bool) : heap -> list call -> heap -> Prop :=
  | H_none : forall h, history throws h [] h
  | H_call : forall h c h' l h'', calls throws h c h' -> history throws h' l h'' -> history throws h (c :: l) h''.

(** What was asked of a DOM parser last. *)
Fixpoint last_wish (name : str) (dflt : bool) (l : list (str * bool)) : bool :=
  match l with [] => dflt | (n, v) :: l => last_wish name (if str_eqb n name then v else dflt) l end.

(** What setting a feature makes of a reader: turning namespaces off turns prefixes on, and turning
    prefixes on turns namespaces on; all else stays. *)
Definition set_as (n : str) (v : bool) (r r' : reader) : Prop :=
  r_slots r' = r_slots r /\ r_parsing r' = r_parsing r /\ r_library r' = r_library r /\
  ((n = namespaces_name /\ r_namespaces r' = v /\ r_prefixes r' = (r_prefixes r || negb v) /\ r_external r' = r_external r) \/
   (n = prefixes_name /\ r_prefixes r' = v /\ r_namespaces r' = (r_namespaces r || v) /\ r_external r' = r_external r) \/
   ((n = general_name \/ n = parameter_name) /\ r_external r' = v /\ r_namespaces r' = r_namespaces r /\ r_prefixes r' = r_prefixes r)).
