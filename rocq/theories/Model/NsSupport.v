(** Namespace contexts: include/SAX/helpers/NamespaceSupport.hpp and
    include/SAX/filter/NamespaceTracker.hpp. *)
From Verif.Model Require Import Base Containers Text.

(** NamespaceConstants, NamespaceSupport.hpp:18-34. *)
Definition s_xml : str := [120; 109; 108].
Definition s_xmlns : str := [120; 109; 108; 110; 115].
(** "http://www.w3.org/XML/1998/namespace" *)
Definition xml_uri : str :=
  [104;116;116;112;58;47;47;119;119;119;46;119;51;46;111;114;103;47;88;77;76;47;49;57;57;56;47;
   110;97;109;101;115;112;97;99;101].

(** contexts_, NamespaceSupport.hpp:372-377: a vector of multimaps, here with the
    innermost context first. *)
Notation context := (list (str * str)) (only parsing).
Notation contexts := (list context) (only parsing).

(** reset, NamespaceSupport.hpp:99-104. *)
Definition ns_reset : contexts := [mm_insert s_xml xml_uri []].

(** pushContext, popContext, NamespaceSupport.hpp:123-144. *)
Definition push_context (st : contexts) : contexts := [] :: st.
Definition pop_context (st : contexts) : outcome contexts :=
  match st with [] => UB | _ :: r => Val r end.

(** declarePrefix, NamespaceSupport.hpp:176-183. *)
Definition declare_prefix (p u : str) (st : contexts) : outcome (bool * contexts) :=
  if str_eqb p s_xml || str_eqb p s_xmlns then Val (false, st)
  else match st with
       | [] => UB
       | c :: r => Val (true, mm_insert p u c :: r)
       end.

(** getURI, NamespaceSupport.hpp:244-254. *)
Fixpoint find_uri (st : contexts) (p : str) : option str :=
  match st with
  | [] => None
  | c :: r => match mm_find p c with Some u => Some u | None => find_uri r p end
  end.
Definition get_uri (st : contexts) (p : str) : str :=
  match find_uri st p with Some u => u | None => [] end.

(** getPrefix, NamespaceSupport.hpp:275-285. *)
Fixpoint ctx_prefix (u : str) (c : context) : option str :=
  match c with
  | [] => None
  | (p, u') :: r => if str_eqb u' u then Some p else ctx_prefix u r
  end.
Fixpoint find_prefix (st : contexts) (u : str) : option str :=
  match st with
  | [] => None
  | c :: r => match ctx_prefix u c with Some p => Some p | None => find_prefix r u end
  end.
Definition get_prefix (st : contexts) (u : str) : str :=
  match find_prefix st u with Some p => p | None => [] end.

(** getPrefixes(), getPrefixes(uri), getDeclaredPrefixes, NamespaceSupport.hpp:300-369. *)
Definition get_prefixes (st : contexts) : list str :=
  flat_map (fun c => filter (fun p => negb (str_eqb p [])) (map fst c)) st.
Definition get_prefixes_of (st : contexts) (u : str) : list str :=
  flat_map (fun c => map fst (filter (fun e : str * str => str_eqb (snd e) u) c)) st.
Definition get_declared_prefixes (st : contexts) : outcome (list str) :=
  match st with [] => UB | c :: _ => Val (map fst c) end.

(** processName, NamespaceSupport.hpp:220-230; None is the SAXException. *)
Definition process_name (st : contexts) (raw : str) (is_attribute : bool) : option qname :=
  parse_qname raw is_attribute (get_uri st).

(** A history of calls. *)
Inductive nsop := NPush | NPop | NDecl (p u : str).
Definition ns_step (o : nsop) (st : contexts) : outcome contexts :=
  match o with
  | NPush => Val (push_context st)
  | NPop => pop_context st
  | NDecl p u => obind (declare_prefix p u st) (fun r => Val (snd r))
  end.
Fixpoint ns_run (ops : list nsop) (st : contexts) : outcome contexts :=
  match ops with
  | [] => Val st
  | o :: r => obind (ns_step o st) (ns_run r)
  end.

(** NamespaceTracker.hpp:68-96: the contexts and the map buffer_. *)
Record tracker := Tracker { t_ns : contexts; t_buf : list (str * str) }.
Definition tracker0 : tracker := Tracker ns_reset [].
Inductive trackev := TMapping (p u : str) | TStart | TEnd.
Fixpoint declare_all (l : list (str * str)) (st : contexts) : outcome contexts :=
  match l with
  | [] => Val st
  | (p, u) :: r => obind (declare_prefix p u st) (fun b => declare_all r (snd b))
  end.
Definition track (e : trackev) (t : tracker) : outcome tracker :=
  match e with
  | TMapping p u => Val (Tracker (t_ns t) (map_set p u (t_buf t)))
  | TStart =>
      obind (declare_all (t_buf t) (push_context (t_ns t))) (fun st => Val (Tracker st []))
  | TEnd => obind (pop_context (t_ns t)) (fun st => Val (Tracker st (t_buf t)))
  end.
Fixpoint track_run (evs : list trackev) (t : tracker) : outcome tracker :=
  match evs with
  | [] => Val t
  | e :: r => obind (track e t) (track_run r)
  end.

(** inScopeNamespaces, NamespaceTracker.hpp:53-66. *)
Fixpoint collect (st : contexts) (ps : list str) (m : list (str * str)) : list (str * str) :=
  match ps with
  | [] => m
  | p :: r => collect st r
      match mm_find p m with Some _ => m | None => map_set p (get_uri st p) m end
  end.
Definition in_scope_namespaces (t : tracker) : list (str * str) :=
  map_set [] (get_uri (t_ns t) []) (collect (t_ns t) (get_prefixes (t_ns t)) []).
