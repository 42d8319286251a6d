(** C16-C17: namespace contexts. *)
From Verif.Model Require Import Base Containers Text NsSupport.
From Verif.Spec Require Import NsSpec.
From Verif.Proof Require Import NsProof.

Notation A := [97] (only parsing).
Notation U := [117] (only parsing).
Notation V := [118] (only parsing).

(** C16. Histories that do not declare a prefix twice in one context. *)
Theorem C16_scoped_partial : forall ops st,
  declared_once reserved (map op_of ops) [[s_xml]] ->
  ns_run ops ns_reset = Val st ->
  exists sp, scope_run (scope_step reserved) (map op_of ops) base_scopes = Some sp
             /\ forall p, get_uri st p = lookup sp p.
Proof. exact lookup_scoped. Qed.
Print Assumptions C16_scoped_partial.

(** A second declaration in the same context is accepted and has no effect. *)
Theorem C16_scoped_refuted : exists ops st sp p,
  ns_run ops ns_reset = Val st
  /\ scope_run (scope_step reserved) (map op_of ops) base_scopes = Some sp
  /\ get_uri st p <> lookup sp p.
Proof.
  exists [NPush; NDecl A U; NDecl A V]. do 2 eexists. exists A.
  split; [vm_compute; reflexivity|]. split; [reflexivity|]. vm_compute. discriminate.
Qed.
Print Assumptions C16_scoped_refuted.

(** For every history: the first declaration of each context counts, and the
    library leaves defined behaviour exactly when the specification has no answer. *)
Theorem C16_first_declaration : forall ops st,
  ns_run ops ns_reset = Val st ->
  exists sp, scope_run (scope_step_first reserved) (map op_of ops) base_scopes = Some sp
             /\ forall p, get_uri st p = lookup sp p.
Proof. exact lookup_first. Qed.
Print Assumptions C16_first_declaration.

(** Leaving a context restores the state in which it was entered. *)
Theorem C16_leaving_restores : forall ops st,
  nested (map op_of ops) -> ns_run (NPush :: ops ++ [NPop]) st = Val st.
Proof. exact leave_restores. Qed.
Print Assumptions C16_leaving_restores.

(** "xml" keeps its meaning as long as the base context is not popped. *)
Theorem C16_xml_bound : forall ops, keeps_base (map op_of ops) 0 ->
  exists st, ns_run ops ns_reset = Val st /\ get_uri st s_xml = xml_uri.
Proof. exact xml_bound. Qed.
Print Assumptions C16_xml_bound.

(** The tracking filter implements element scoping for every event sequence: of
    several mappings for a prefix on one element, the last counts. *)
Theorem C16_tracker_scoped : forall evs t, track_run evs tracker0 = Val t ->
  exists pend s, elem_run reserved (map ev_of evs) [] [base_env] = Some (pend, s)
    /\ forall p, find_uri (t_ns t) p = hd no_env s p.
Proof. exact tracker_scoped. Qed.
Print Assumptions C16_tracker_scoped.

(** Its map of in-scope namespaces is the current dictionary. *)
Theorem C16_in_scope_map : forall t q, mm_find q (in_scope_namespaces t) =
  match q with
  | [] => Some (get_uri (t_ns t) [])
  | _ => find_uri (t_ns t) q
  end.
Proof. exact in_scope_spec. Qed.
Print Assumptions C16_in_scope_map.

Example C16_case :
  let ops := [NPush; NDecl A U; NPush; NDecl A V; NPop] in
  declared_once reserved (map op_of ops) [[s_xml]] /\ keeps_base (map op_of ops) 0
  /\ exists st, ns_run ops ns_reset = Val st /\ get_uri st A = U.
Proof.
  cbn. repeat split; try tauto.
  eexists. split; reflexivity.
Qed.
Example C16_tracker_case :
  exists t, track_run [TMapping A U; TMapping A V; TStart] tracker0 = Val t
            /\ get_uri (t_ns t) A = V.
Proof. eexists. split; reflexivity. Qed.

(** C17. *)
Theorem C17_prefix_usable_partial : forall ops st u,
  declared_fresh reserved (map op_of ops) [[s_xml]] ->
  ns_run ops ns_reset = Val st ->
  (exists p, find_uri st p = Some u) -> get_uri st (get_prefix st u) = u.
Proof. exact prefix_usable. Qed.
Print Assumptions C17_prefix_usable_partial.

(** With an inner declaration hiding an outer one, a dead prefix is returned. *)
Theorem C17_prefix_usable_refuted : exists ops st u p,
  ns_run ops ns_reset = Val st /\ find_prefix st u = Some p /\ p <> [] /\ get_uri st p <> u.
Proof.
  exists [NPush; NDecl A U; NPush; NDecl A V]. eexists. exists U, A.
  split; [vm_compute; reflexivity|]. split; [reflexivity|]. split; [discriminate|].
  vm_compute. discriminate.
Qed.
Print Assumptions C17_prefix_usable_refuted.

(** The documentation says the empty prefix is never returned when another one
    is mapped; it is. *)
Theorem C17_nonempty_prefix_refuted : exists ops st u p,
  ns_run ops ns_reset = Val st /\ find_prefix st u = Some []
  /\ p <> [] /\ get_uri st p = u.
Proof.
  exists [NPush; NDecl [] U; NDecl A U]. eexists. exists U, A.
  split; [vm_compute; reflexivity|]. split; [reflexivity|]. split; [discriminate|]. reflexivity.
Qed.
Print Assumptions C17_nonempty_prefix_refuted.

(** The list of all prefixes in scope is complete and sound. *)
Theorem C17_prefixes : forall st p,
  In p (get_prefixes st) <-> p <> [] /\ find_uri st p <> None.
Proof. exact prefixes_iff. Qed.
Print Assumptions C17_prefixes.

Example C17_case :
  let ops := [NPush; NDecl A U; NPush; NDecl [98] V] in
  declared_fresh reserved (map op_of ops) [[s_xml]]
  /\ exists st, ns_run ops ns_reset = Val st /\ find_uri st A = Some U /\ get_prefix st U = A.
Proof.
  cbn. repeat split; try tauto.
  - right. intuition discriminate.
  - right. intuition discriminate.
  - eexists. split; [reflexivity|]. split; reflexivity.
Qed.
