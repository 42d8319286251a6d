(** C18-C19: xml:base and attribute lists. *)
From Verif.Model Require Import Base Uri Attrs NsSupport XmlBase.
From Verif.Spec Require Import XmlBaseSpec AttrsSpec.
From Verif.Proof Require Import XmlBaseProof AttrsProof.

(** C18. XMLBaseSupport, for every run of element events that is nested so far
    and in which every xml:base could be resolved. *)
Theorem C18_base_support_partial : forall loc evs x path,
  xb_run evs (set_location loc xbase0) = Val (Some x) ->
  open_elements (map xev_of evs) [] = Some path ->
  base_of try_resolve loc path = Some (current_base x).
Proof. exact base_tracked. Qed.
Print Assumptions C18_base_support_partial.

(** Leaving elements restores the base: the answer depends on the open elements
    alone, whatever came between. *)
Theorem C18_leaving_restores_partial : forall loc evs inner x,
  xb_run evs (set_location loc xbase0) = Val (Some x) ->
  open_elements (map xev_of evs) [] <> None ->
  (forall y path, xb_run (evs ++ inner) (set_location loc xbase0) = Val (Some y) ->
     open_elements (map xev_of evs) [] = Some path ->
     open_elements (map xev_of (evs ++ inner)) [] = Some path ->
     current_base y = current_base x).
Proof. exact base_restored. Qed.
Print Assumptions C18_leaving_restores_partial.

(** The filter asks its locator for the document location when the base is first
    requested.  Inside an element with xml:base the location then hides it, and it
    stays in force after the element. *)
Definition an_element : list attr := [Attr xml_uri s_base [] [] [47; 101; 47]].
Theorem C18_tracker_refuted : exists loc atts t,
  xt_start atts xtracker0 = Val (Some t)
  /\ base_of try_resolve loc [own_base atts] <> Some (fst (xt_query loc t))
  /\ fst (xt_query loc t) = loc.
Proof.
  (* location "/d/f", element xml:base="/e/"; before the location is known the
     library has the base "" and resolves against it *)
  exists [47; 100; 47; 102], an_element. eexists. split; [vm_compute; reflexivity|].
  split; [vm_compute; discriminate|reflexivity].
Qed.
Print Assumptions C18_tracker_refuted.

(** xml:base handling can also fail: a base without a path. *)
Theorem C18_always_defined_refuted : exists loc atts,
  xb_start atts (set_location loc xbase0) = UB.
Proof.
  (* "http://h", xml:base="x" *)
  exists [104;116;116;112;58;47;47;104], [Attr xml_uri s_base [] [] [120]]. reflexivity.
Qed.
Print Assumptions C18_always_defined_refuted.

Example C18_case :
  let evs := [XStart an_element; XStart [Attr xml_uri s_base [] [] [102; 47]]; XStart []; XEnd] in
  exists x, xb_run evs (set_location [47; 100; 47; 102] xbase0) = Val (Some x)
    /\ open_elements (map xev_of evs) [] = Some [Some [102; 47]; Some [47; 101; 47]]
    /\ current_base x = [47; 101; 47; 102; 47].
Proof. eexists. split; [vm_compute; reflexivity|]. split; reflexivity. Qed.

(** C19. Every look-up by name returns the position of the first match. *)
Theorem C19_index_first : forall l u n i, index_of l u n = Some i <->
  (exists a, nth_error l i = Some a /\ is_named u n a = true)
  /\ forall j b, (j < i)%nat -> nth_error l j = Some b -> is_named u n b = false.
Proof. intros l u n i. exact (find_pos_first (is_named u n) l i). Qed.
Print Assumptions C19_index_first.
Theorem C19_index_qname_first : forall l q i, index_of_q l q = Some i <->
  (exists a, nth_error l i = Some a /\ a_qname a = q)
  /\ forall j b, (j < i)%nat -> nth_error l j = Some b -> a_qname b <> q.
Proof. exact index_q_first. Qed.
Print Assumptions C19_index_qname_first.
Theorem C19_fields_by_name : forall l u n q,
  value_of l u n = match index_of l u n with Some i => at_field a_value l i | None => [] end
  /\ type_of l u n = match index_of l u n with Some i => at_field a_type l i | None => [] end
  /\ value_of_q l q = match index_of_q l q with Some i => at_field a_value l i | None => [] end
  /\ type_of_q l q = match index_of_q l q with Some i => at_field a_type l i | None => [] end.
Proof. intros. repeat split; apply first_field_pos. Qed.
Print Assumptions C19_fields_by_name.

(** Only positions outside the list are rejected; the list is then unchanged. *)
Theorem C19_rejection : forall o l,
  (at_apply o l = None <-> exists i, position o = Some i /\ (length l <= i)%nat)
  /\ (at_apply o l = None -> at_run [o] l = l).
Proof. intros o l. split; [apply apply_fails|]. intros H. cbn. rewrite H. reflexivity. Qed.
Print Assumptions C19_rejection.

(** Modification changes one position; removal closes the gap. *)
Theorem C19_modification : forall o i l l', modifies o = Some i -> at_apply o l = Some l' ->
  length l' = length l /\ (forall j, j <> i -> nth_error l' j = nth_error l j)
  /\ exists a, nth_error l i = Some a /\ nth_error l' i = Some (modified o a).
Proof.
  intros o i l l' M A. destruct (modify_stable o i l l' M A). repeat split; try assumption.
  exact (modify_sets o i l l' M A).
Qed.
Print Assumptions C19_modification.
Theorem C19_removal : forall i l l', at_apply (ARemove i) l = Some l' ->
  forall j, nth_error l' j = nth_error l (if Nat.ltb j i then j else S j).
Proof. exact remove_spec. Qed.
Print Assumptions C19_removal.

(** Any sequence of addOrReplaceAttribute calls on a list without duplicates acts
    as updates of a finite map, and creates no duplicates. *)
Theorem C19_replace_is_map : forall adds l, NoDup (keys l) ->
  NoDup (keys (at_run (map AAddOrReplace adds) l))
  /\ forall k, abs (at_run (map AAddOrReplace adds) l) k = puts adds (abs l) k.
Proof. exact replace_run. Qed.
Print Assumptions C19_replace_is_map.

(** Copying gives an equal list, unless a list is copied onto itself: that
    empties it. *)
Theorem C19_copy : forall l other, set_attributes false l other = other.
Proof. exact copy_other. Qed.
Print Assumptions C19_copy.
Theorem C19_copy_self_refuted : exists l, set_attributes true l l <> l.
Proof. exists an_element. discriminate. Qed.
Print Assumptions C19_copy_self_refuted.

Example C19_case :
  let a := Attr [1] [2] [3] [4] [5] in let b := Attr [1] [9] [3] [4] [6] in
  let l := at_run [AAdd a; AAdd b; AAddOrReplace (Attr [1] [2] [7] [8] [9]); ASetValue 5 [0]] [] in
  l = [Attr [1] [2] [3] [4] [9]; b] /\ NoDup (keys l) /\ index_of l [1] [9] = Some 1%nat
  /\ at_apply (ASetValue 5 [0]) l = None.
Proof.
  repeat split; try reflexivity. cbn. repeat constructor; cbn; intuition congruence.
Qed.
