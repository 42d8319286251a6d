(** Keys: include/XSLT/impl/xslt_key.hpp, and the key() function, xslt_functions.hpp:77-137. *)
From Verif.Model Require Import Base XNode XAxis XNodeSet Template.

(** Key, xslt_key.hpp:10-82: its patterns and its use expression, and what they give for a
    node.  Both are taken to depend on the node only, a pattern not to throw, and neither to
    call key().  The result of the use expression: a node set, a string, a number or a boolean
    with its string, or an exception. *)
Inductive used := UseNodes (l : list xnode) | UseOther (s : str) | UseThrows.
Record key := Key { k_matches : list (xnode -> bool); k_use : xnode -> used }.
(** NodeMap and DocumentNodeMap, 44-46: documents by their number. *)
Definition node_map := list (str * nodeset).
Definition key_cache := list (nat * node_map).
Definition node_string (f : forest) (x : xnode) : option str := string_value (f_tree f (fst x)) (snd x).

(** The loop over the nodes of the use expression, 63-67; false when nodeStringValue throws. *)
Fixpoint add_ids (f : forest) (x : xnode) (ids : list xnode) (m : node_map) : node_map * bool :=
  match ids with
  | [] => (m, true)
  | i :: r =>
      match node_string f i with
      | None => (m, false)
      | Some v => add_ids f x r (update str_eqb v (fun o => push_node x match o with Some s => s | None => new_set true end) m)
      end
  end.
(** The loops of populate, 57-70.  asNodeSet of a value that is no node set is an empty set,
    xpath_value.hpp:77. *)
Definition matched (k : key) (x : xnode) : bool := existsb (fun p => p x) (k_matches k).
Definition as_node_set (u : used) : option (list xnode) :=
  match u with UseNodes l => Some l | UseOther _ => Some [] | UseThrows => None end.
Fixpoint index (f : forest) (k : key) (l : list xnode) (m : node_map) : node_map * bool :=
  match l with
  | [] => (m, true)
  | x :: r =>
      if matched k x then
        match as_node_set (k_use k x) with
        | None => (m, false)
        | Some ids => match add_ids f x ids m with (m', true) => index f k r m' | (m', false) => (m', false) end
        end
      else index f k r m
  end.
(** populate, 51-71, of the document [d]; undefined if the walk is. *)
Definition populate (f : forest) (k : key) (d : nat) : outcome (node_map * bool) :=
  match enumerate (tree_size (f_tree f d)) (f_tree f d) 0 DescendantOrSelf [] with
  | Nodes l => Val (index f k (map (pair d) l) [])
  | XAxis.Crash => UB
  | XAxis.NoFuel => Base.NoFuel
  end.
(** 35-39. *)
Definition find_in (v : str) (m : node_map) : nodeset := match assoc str_eqb v m with Some s => s | None => new_set false end.
(** lookup, 27-40: the cache and the result, None for an exception.  The map of the document is
    made before it is filled, and stays if that throws. *)
Definition lookup_key (f : forest) (k : key) (c : key_cache) (current : xnode) (v : str) : outcome (key_cache * option nodeset) :=
  let d := f_doc f (fst current) in
  match assoc Nat.eqb d c with
  | Some m => Val (c, Some (find_in v m))
  | None =>
      match populate f k d with
      | Val (m, ok) => Val ((d, m) :: c, if ok then Some (find_in v m) else None)
      | UB => UB
      | Base.NoFuel => Base.NoFuel
      end
  end.

(** DeclaredKeys, 84-136: the keys by name, each with its cache. *)
Definition declared := list (str * list (key * key_cache)).
(** 111-112. *)
Fixpoint lookup_all (f : forest) (ks : list (key * key_cache)) (current : xnode) (v : str) (s : nodeset) : outcome (list (key * key_cache) * option nodeset) :=
  match ks with
  | [] => Val ([], Some s)
  | (k, c) :: r =>
      match lookup_key f k c current v with
      | Val (c', Some n) => match lookup_all f r current v (push_set n s) with Val (r', o) => Val ((k, c') :: r', o) | UB => UB | Base.NoFuel => Base.NoFuel end
      | Val (c', None) => Val ((k, c') :: r, None)
      | UB => UB
      | Base.NoFuel => Base.NoFuel
      end
  end.
(** lookup, 100-115. *)
Definition lookup_keys (ss : sorter) (f : forest) (ks : list (key * key_cache)) (current : xnode) (v : str) : outcome (list (key * key_cache) * option nodeset) :=
  match ks with
  | [(k, c)] => match lookup_key f k c current v with Val (c', o) => Val ([(k, c')], o) | UB => UB | Base.NoFuel => Base.NoFuel end
  | _ => match lookup_all f ks current v (new_set true) with
         | Val (ks', o) => Val (ks', option_map (to_document_order ss f) o)
         | UB => UB
         | Base.NoFuel => Base.NoFuel
         end
  end.
Definition lookup (ss : sorter) (f : forest) (D : declared) (name : str) (current : xnode) (v : str) : outcome (declared * option nodeset) :=
  match assoc str_eqb name D with
  | None => Val (D, None)
  | Some ks =>
      match lookup_keys ss f ks current v with
      | Val (ks', o) => Val (update str_eqb name (fun _ => ks') D, o)
      | UB => UB
      | Base.NoFuel => Base.NoFuel
      end
  end.
(** key(), xslt_functions.hpp:103-131.  The name is the expanded name, and the second argument
    a node set or something with a string. *)
Inductive key_arg := ArgNodes (l : list xnode) | ArgString (s : str).
Fixpoint lookup_nodes (ss : sorter) (f : forest) (D : declared) (name : str) (current : xnode) (l : list xnode) (s : nodeset) : outcome (declared * option nodeset) :=
  match l with
  | [] => Val (D, Some s)
  | x :: r =>
      match node_string f x with
      | None => Val (D, None)
      | Some v =>
          match lookup ss f D name current v with
          | Val (D', Some n) => lookup_nodes ss f D' name current r (push_set n s)
          | Val (D', None) => Val (D', None)
          | UB => UB
          | Base.NoFuel => Base.NoFuel
          end
      end
  end.
(** [context] is the context node of the expression: it is not used. *)
Definition key_function (ss : sorter) (f : forest) (D : declared) (name : str) (arg : key_arg) (context current : xnode) : outcome (declared * option nodeset) :=
  match arg with
  | ArgString v => lookup ss f D name current v
  | ArgNodes l => match lookup_nodes ss f D name current l (new_set true) with
                  | Val (D', o) => Val (D', option_map (to_document_order ss f) o)
                  | UB => UB
                  | Base.NoFuel => Base.NoFuel
                  end
  end.
(** The calls of a transformation, or of several with the same stylesheet. *)
Record key_call := Call { kc_name : str; kc_arg : key_arg; kc_context : xnode; kc_current : xnode }.
Fixpoint run_calls (ss : sorter) (f : forest) (D : declared) (cs : list key_call) : outcome (list (option (list xnode))) :=
  match cs with
  | [] => Val []
  | c :: r =>
      match key_function ss f D (kc_name c) (kc_arg c) (kc_context c) (kc_current c) with
      | Val (D', o) => match run_calls ss f D' r with Val l => Val (option_map s_nodes o :: l) | UB => UB | Base.NoFuel => Base.NoFuel end
      | UB => UB
      | Base.NoFuel => Base.NoFuel
      end
  end.
(** The keys of a stylesheet, before any call: DeclaredKeys::add, 95-98. *)
Definition declare_keys (l : list (str * key)) : declared :=
  fold_left (fun D nk => update str_eqb (fst nk) (fun o => or_empty o ++ [(snd nk, [])]) D) l [].
