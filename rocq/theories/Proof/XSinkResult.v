(** The calls that printable instructions make can be written. *)
From Coq Require Import String Lia ZArith.
From Verif.Model Require Import Base Containers Attrs Uri XSort XOutput.
From Verif.Model Require NsSupport Stream.
From Verif.Spec Require Import XmlRead XOutputSpec XSinkSpec XResultSpec.
From Verif.Proof Require Import ContainersProof AttrsProof XOutputText XOutputProof XOutputNames.
From Coq Require Import List Bool.
Import ListNotations.
Open Scope Z_scope.

Definition xmlns : str := ascii_str "xmlns".
Definition prefix_good (p : str) : Prop := (p = [] \/ ncname p) /\ p <> xmlns.
Definition binding (b : str * str) : Prop := prefix_good (fst b) /\ snd b <> [] /\ snd b <> NsSupport.xml_uri.
Definition own_att (a : attr) : Prop := exists p, a_qname a = make_name p (a_local a) /\ prefix_good p /\ ncname (a_local a) /\ a_local a <> xmlns /\ (a_uri a = [] -> p = []).
Definition any_att (a : attr) : Prop := own_att a \/ exists b, a = declaration b /\ binding b /\ fst b <> ascii_str "xml".
Definition target_ok (t : str) : Prop := is_name t /\ reserved t = false.

Lemma auto_name : forall k, ncname (auto_ns k).
Proof.
  intros k. split; [|apply auto_plain]. unfold auto_ns. split; [discriminate|]. rewrite forallb_app. apply andb_true_iff. split; [vm_compute; reflexivity|].
  induction (Nat.to_uint k); cbn [Stream.uint_digits forallb]; try reflexivity; rewrite IHu; reflexivity.
Qed.

Section Results.
  Context (brackets : bool) (cdata : list qualified).
  Definition chars_good (s : str) : Prop := ~ In 13 s /\ (brackets = false -> ~ In 93 s).
  Definition event_good (e : event) : Prop :=
    match e with
    | Start q u atts => (exists p l, q = make_name p l /\ prefix_good p /\ ncname l /\ (u = [] -> p = [])) /\ Forall any_att atts
    | End_ q _ => exists p l, q = make_name p l /\ prefix_good p /\ ncname l
    | EndCdata => True
    | Chars s => chars_good s
    | StartCdata => cdata <> []
    | Comment s => ~ In 13 s
    | Pi t d => target_ok t /\ ~ In 13 d
    | Escaping _ => False
    end.
  Definition spaces_good (n : namespaces) : Prop :=
    Forall (Forall binding) (n_prefixes n) /\ Forall (Forall (fun x : str * str => prefix_good (snd x) /\ fst x <> [])) (n_uris n).
  Record WI (o : output) : Prop := MkWI {
    w_text : o_text_mode o = false;
    w_cdata : o_cdata o = cdata;
    w_elements : Forall (fun q => prefix_good (q_prefix q) /\ ncname (q_local q) /\ (q_uri q = [] -> q_prefix q = [])) (o_elements o);
    w_atts : Forall any_att (o_atts o);
    w_open : o_pending_element o = true -> o_elements o <> [];
    w_pend : o_pending_element o = true \/ o_pending_attribute o <> None -> Forall own_att (o_atts o);
    w_index : forall i, o_pending_attribute o = Some i -> (i < length (o_atts o))%nat;
    w_buffer : ~ In 13 (o_buffer o);
    w_names : spaces_good (o_names o);
    w_events : Forall event_good (o_events o) }.

  Lemma emit_wi : forall e o, event_good e -> WI o -> WI (emit e o).
  Proof. intros e o G []. constructor; cbn; auto. apply Forall_app. split; [assumption|]. apply Forall_cons; [assumption|apply Forall_nil]. Qed.
  Lemma undefined_wi : forall o, WI o -> WI (undefined o).
  Proof. intros o []. constructor; auto. Qed.
  Lemma binding_att : forall b, binding b -> fst b <> ascii_str "xml" -> any_att (declaration b).
  Proof. intros b B N. right. exists b. auto. Qed.
  Lemma declarations_wi : forall o, WI o -> o_pending_attribute o = None ->
    WI (with_pending_element false (add_declarations o)) /\ o_pending_attribute (add_declarations o) = None.
  Proof.
    intros o [] P. unfold add_declarations. destruct (n_prefixes (o_names o)) as [|s ps] eqn:E.
    - split; [|exact P]. constructor; cbn; auto; try (intros; discriminate). intros [H|H]; [discriminate|congruence].
    - split; [|exact P]. constructor; cbn; auto; try (intros; discriminate); [|intros [H|H]; [discriminate|congruence]|intros i H; congruence].
      apply Forall_app. split; [assumption|]. destruct w_names0 as (B & _). rewrite E in B. inversion B; subst. apply Forall_forall. intros x I. apply in_map_iff in I. destruct I as (b & <- & I). apply filter_In in I. destruct I as (I & N). apply binding_att.
      + rewrite Forall_forall in H1. apply H1. exact I.
      + apply negb_true_iff in N. apply str_eqb_false in N. exact N.
  Qed.
  Lemma pop_good : forall n, spaces_good n -> spaces_good (pop_scope n).
  Proof. intros n (A & B). split; cbn [pop_scope n_prefixes n_uris]; [inversion A; cbn [tl]; auto|inversion B; cbn [tl]; auto]. Qed.
  Lemma push_good : forall n, spaces_good n -> spaces_good (push_scope n).
  Proof. intros n (A & B). split; cbn [push_scope n_prefixes n_uris]; apply Forall_cons; auto. Qed.
  Lemma names_wi : forall n o, spaces_good n -> WI o -> WI (with_names n o).
  Proof. intros n o G []. constructor; auto. Qed.

  Definition same_state (o o' : output) : Prop := o_buffering o' = o_buffering o /\ o_target o' = o_target o /\ o_buffer o' = o_buffer o /\ o_pending_attribute o' = o_pending_attribute o.
  Lemma flush_element_wi : forall o, WI o -> WI (flush_element o) /\ same_state o (flush_element o).
  Proof.
    intros o W. unfold flush_element. destruct (o_pending_element o) eqn:PE; cbn [negb orb]; [|split; [exact W|repeat split]]. destruct (o_pending_attribute o) eqn:PA; [split; [exact W|repeat split]|]. rewrite (w_text o W).
    assert (S : forall o1 b, WI o1 -> o_pending_attribute o1 = None -> WI (with_pending_element false (if b : bool then add_declarations o1 else o1)) /\ o_pending_attribute (if b then add_declarations o1 else o1) = None).
    { intros o1 [] W1 P1; [apply declarations_wi; assumption|]. split; [|exact P1]. destruct W1. constructor; cbn; auto; try (intros; discriminate). intros [H|H]; [discriminate|congruence]. }
    assert (PD : forall o1, same_state o1 (add_declarations o1) /\ o_declares (add_declarations o1) = o_declares o1 /\ o_elements (add_declarations o1) = o_elements o1 /\ o_names (add_declarations o1) = o_names o1 /\ (forall b, with_pending_element b (with_pending_element b (add_declarations o1)) = with_pending_element b (add_declarations o1))).
    { intros o1. unfold add_declarations. destruct (n_prefixes (o_names o1)); repeat split. }
    remember (o_declares o) as d eqn:D.
    destruct (S o d W PA) as (W1 & P1). remember (if d then add_declarations o else o) as o1 eqn:E1.
    assert (X1 : same_state o o1). { subst o1. destruct d; [apply PD|repeat split]. }
    remember (with_names (pop_scope (o_names o1)) o1) as o2 eqn:E2.
    assert (W2 : WI (with_pending_element false o2)). { subst o2. apply (names_wi (pop_scope (o_names o1)) (with_pending_element false o1)); [|exact W1]. apply pop_good. exact (w_names _ W1). }
    assert (P2 : o_pending_attribute o2 = None) by (subst o2; exact P1).
    destruct (S (with_pending_element false o2) (o_declares o2) W2 P2) as (W3 & P3).
    assert (C : with_pending_element false (if o_declares o2 then add_declarations (with_pending_element false o2) else with_pending_element false o2) = with_pending_element false (if o_declares o2 then add_declarations o2 else o2)).
    { destruct (o_declares o2); [|reflexivity]. unfold add_declarations. cbn [o_names with_pending_element]. destruct (n_prefixes (o_names o2)); reflexivity. }
    rewrite C in W3. remember (if o_declares o2 then add_declarations o2 else o2) as o3 eqn:E3.
    assert (X3 : same_state o2 o3 /\ o_pending_attribute o3 = None). { subst o3. destruct (o_declares o2); [split; [apply PD|]|split; [repeat split|exact P2]]. unfold add_declarations. destruct (n_prefixes (o_names o2)); exact P2. }
    destruct X3 as (X3 & P4). assert (X2 : same_state o1 o2) by (subst o2; repeat split).
    assert (X : same_state o o3). { unfold same_state in *. intuition congruence. }
    destruct (o_elements o3) as [|e es] eqn:EE.
    - exfalso. assert (E : o_elements o3 = o_elements o). { subst o3. transitivity (o_elements o2); [destruct (o_declares o2); [apply PD|reflexivity]|]. subst o2. cbn [with_names o_elements]. subst o1. destruct d; [apply PD|reflexivity]. }
      apply (w_open o W PE). congruence.
    - split; [|exact X]. apply (emit_wi (Start (q_name e) (q_uri e) (o_atts o3)) (with_pending_element false o3)); [|exact W3]. pose proof (w_elements _ W3) as WE. cbn [with_pending_element o_elements] in WE. rewrite EE in WE. inversion WE as [|x l (A1 & A2 & A3) A4]; subst x l.
      split; [|exact (w_atts _ W3)]. exists (q_prefix e), (q_local e). split; [reflexivity|]. split; [exact A1|]. split; [exact A2|exact A3].
  Qed.
  Lemma flush_clears : forall o, WI o -> o_pending_attribute o = None -> o_pending_element (flush_element o) = false.
  Proof.
    intros o W P. unfold flush_element. destruct (o_pending_element o) eqn:PE; cbn [negb orb]; [|exact PE]. rewrite P, (w_text o W).
    remember (with_names _ _) as o2. assert (E : o_elements (if o_declares o2 then add_declarations o2 else o2) = o_elements o).
    { transitivity (o_elements o2); [destruct (o_declares o2); [|reflexivity]; unfold add_declarations; destruct (n_prefixes (o_names o2)); reflexivity|]. subst o2. cbn [with_names o_elements]. destruct (o_declares o); [|reflexivity]. unfold add_declarations; destruct (n_prefixes (o_names o)); reflexivity. }
    rewrite E. destruct (o_elements o) eqn:EE; [destruct (w_open o W PE EE)|reflexivity].
  Qed.
  Lemma flush_current_wi : forall o, WI o -> WI (flush_current o) /\ same_state o (flush_current o) /\ (o_pending_attribute o = None -> o_pending_element (flush_current o) = false).
  Proof.
    intros o W. unfold flush_current.
    assert (W1 : WI (if o_pending_text o then with_pending_text false (if is_cdata o then emit EndCdata o else o) else o) /\ same_state o (if o_pending_text o then with_pending_text false (if is_cdata o then emit EndCdata o else o) else o)).
    { destruct (o_pending_text o); [|split; [exact W|repeat split]]. destruct (is_cdata o); [|split; [destruct W; constructor; auto|repeat split]]. split; [|repeat split]. assert (WI (emit EndCdata o)) by (apply emit_wi; [exact Logic.I|exact W]). destruct H; constructor; auto. }
    destruct W1 as (W1 & S1). remember (if o_pending_text o then _ else o) as o1. destruct (flush_element_wi o1 W1) as (W2 & S2). split; [exact W2|]. split; [unfold same_state in *; intuition congruence|]. intros P. apply flush_clears; [exact W1|]. unfold same_state in S1. intuition congruence.
  Qed.
  Lemma map_set_forall : forall (P : str * str -> Prop) k v m, P (k, v) -> Forall P m -> Forall P (map_set k v m).
  Proof.
    intros P k v m H F. induction F as [|(k', v') m X F IH]; cbn [map_set]; [apply Forall_cons; auto|]. destruct (str_eqb k' k) eqn:E; [apply str_eqb_true in E; subst k'; apply Forall_cons; auto|]. destruct (str_ltb k k'); repeat (apply Forall_cons; auto).
  Qed.
  Lemma declare_good : forall g u b n, g = [] \/ ncname g -> u <> [] -> u <> NsSupport.xml_uri -> spaces_good n -> spaces_good (declare_namespace g u b n).
  Proof.
    intros g u b n G U X S. unfold declare_namespace. destruct (str_eqb (find_prefix n u) []); cbn [negb]; [|exact S].
    assert (D : forall p k, prefix_good p -> spaces_good (Namespaces (set_in_top p u (n_prefixes n)) (set_in_top u p (n_uris n)) k)).
    { intros p k P. destruct S as (A & B). split; cbn [n_prefixes n_uris]; unfold set_in_top.
      - inversion A; [apply Forall_nil|]. apply Forall_cons; [|assumption]. apply map_set_forall; [|assumption]. split; [exact P|split; assumption].
      - inversion B; [apply Forall_nil|]. apply Forall_cons; [|assumption]. apply map_set_forall; [|assumption]. split; [exact P|assumption]. }
    destruct (str_eqb g (ascii_str "xmlns")) eqn:E; [rewrite orb_true_r|rewrite orb_false_r; destruct (b && str_eqb g [])].
    - apply D. split; [right; apply auto_name|]. intros E2. discriminate E2.
    - apply D. split; [right; apply auto_name|]. intros E2. discriminate E2.
    - apply D. split; [exact G|]. apply str_eqb_false in E. exact E.
  Qed.
  Lemma find_good : forall n u, spaces_good n -> prefix_good (find_prefix n u) /\ (u = [] -> find_prefix n u = []).
  Proof.
    intros n u (_ & B). unfold find_prefix. destruct (search_stack (n_uris n) u) as [|c r] eqn:E.
    - split; [|reflexivity]. split; [left; reflexivity|]. intros X. discriminate X.
    - destruct (search_in _ _ _ E) as (j & s & N & I); [discriminate|]. apply nth_error_In in N. rewrite Forall_forall in B. apply B in N. rewrite Forall_forall in N. apply N in I. cbn [fst snd] in I. destruct I as (I1 & I2). split; [exact I1|]. intros H. destruct (I2 H).
  Qed.
  Lemma start_element_wi : forall p l u o, p = [] \/ ncname p -> ncname l -> u <> NsSupport.xml_uri -> WI o -> (o_buffering o = 0 -> o_pending_attribute o = None) -> WI (fst (start_element p l u o)) /\ o_buffering (fst (start_element p l u o)) = o_buffering o /\ o_pending_attribute (fst (start_element p l u o)) = o_pending_attribute o.
  Proof.
    intros p l u o P L U W CALM. unfold start_element. destruct (o_buffering o =? 0) eqn:B; cbn [negb fst]; [|auto]. apply Z.eqb_eq in B. specialize (CALM B). destruct (flush_current_wi o W) as (W1 & S1 & C). remember (flush_current o) as o1.
    assert (N : spaces_good (match u with [] => push_scope (o_names o1) | _ => declare_namespace p u false (push_scope (o_names o1)) end)).
    { pose proof (push_good _ (w_names _ W1)). destruct u; [assumption|]. apply declare_good; auto. discriminate. }
    remember (match u with [] => _ | _ => _ end) as n. split; [|cbn; unfold same_state in S1; intuition congruence].
    destruct W1. constructor; cbn; auto; try discriminate.
    - apply Forall_cons; [|assumption]. cbn [q_prefix q_local q_uri]. destruct (find_good n u N). auto.
    - intros i I. unfold same_state in S1. intuition congruence.
    - apply push_good. exact N.
  Qed.
  Lemma end_element_wi : forall l u o, ncname l -> WI o -> (o_buffering o = 0 -> o_pending_attribute o = None) -> o_buffering o = 0 -> WI (end_element l u o) /\ o_buffering (end_element l u o) = 0 /\ o_pending_attribute (end_element l u o) = None.
  Proof.
    intros l u o L W C B. unfold end_element. rewrite B. cbn [Z.eqb negb]. destruct (flush_current_wi o W) as (W1 & S1 & CL). specialize (CL (C B)). remember (flush_current o) as o1. rewrite (w_text _ W1).
    assert (P1 : o_pending_attribute o1 = None). { unfold same_state in S1. intuition congruence. } assert (B1 : o_buffering o1 = 0). { unfold same_state in S1. intuition congruence. }
    destruct (o_elements o1) as [|e es] eqn:E.
    - split; [|split; [exact B1|exact P1]]. apply names_wi; [apply pop_good; apply (w_names _ W1)|]. apply undefined_wi. exact W1.
    - split; [|split; [exact B1|exact P1]]. apply names_wi; [apply pop_good; apply (w_names _ W1)|].
      assert (W2 : WI (emit (End_ (make_name (find_prefix (o_names o1) u) l) u) o1)) by (apply emit_wi; [exists (find_prefix (o_names o1) u), l; split; [reflexivity|]; split; [apply (find_good _ u (w_names _ W1))|exact L]|exact W1]).
      destruct W2. constructor; cbn [with_elements emit o_text_mode o_cdata o_elements o_atts o_pending_element o_pending_attribute o_buffer o_names o_events] in *; auto.
      + rewrite E in w_elements0. inversion w_elements0; assumption.
      + congruence.
  Qed.
  Lemma own_same : forall a b, own_att b -> a_uri a = a_uri b -> a_local a = a_local b -> a_qname a = a_qname b -> own_att a.
  Proof. intros a b (p & H) U L Q. exists p. rewrite U, L, Q. exact H. Qed.
  Lemma push_wi : forall o, WI o -> WI (fst (push_buffering o)) /\ (0 <= o_buffering o -> o_buffering (fst (push_buffering o)) = o_buffering o + 1 /\ 1 <= o_buffering (fst (push_buffering o))) /\ o_pending_attribute (fst (push_buffering o)) = o_pending_attribute o.
  Proof. intros o W. unfold push_buffering. destruct (o_buffering o =? 0); cbn [negb fst]; (split; [destruct W; constructor; auto|split; [cbn; lia|reflexivity]]). Qed.
  Lemma start_attribute_wi : forall p l u o, p = [] \/ ncname p -> ncname l -> l <> xmlns -> u <> NsSupport.xml_uri -> WI o -> WI (start_attribute p l u o) /\ o_buffering (start_attribute p l u o) = o_buffering (fst (push_buffering o)).
  Proof.
    intros p l u o P L X U W. unfold start_attribute. destruct (push_wi o W) as (W1 & _). destruct (push_buffering o) as (o1, was) eqn:PB. cbn [fst] in *. destruct was; [auto|]. destruct (o_pending_element o1) eqn:PE; cbn [negb]; [|auto]. split; [|reflexivity].
    assert (N : spaces_good (match u with [] => o_names o1 | _ => declare_namespace p u true (o_names o1) end)). { pose proof (w_names _ W1). destruct u; [assumption|]. apply declare_good; auto. discriminate. }
    remember (match u with [] => _ | _ => _ end) as n. rewrite aput_replace.
    assert (F : Forall own_att (aput u l (make_name (find_prefix n u) l) [] (o_atts o1))).
    { apply Forall_forall. intros a I. apply aput_in in I. destruct I as [(b & I & I1 & I2 & I3)|(I1 & I2 & I3)].
      - apply (own_same a b); auto. pose proof (w_pend _ W1 (or_introl PE)) as F. rewrite Forall_forall in F. exact (F b I).
      - exists (find_prefix n u). destruct (find_good n u N) as (G1 & G2). rewrite I1, I2, I3. auto. }
    destruct W1. constructor; cbn; auto.
    - eapply Forall_impl; [|exact F]. intros a H. left. exact H.
    - intros i I. apply find_pos_first in I. destruct I as ((a & I & _) & _). apply nth_error_Some. congruence.
  Qed.
  Lemma update_own : forall i v atts, Forall own_att atts -> Forall own_att (update atts i (set_value v)).
  Proof.
    intros i v atts F. revert i. induction F as [|a atts H F IH]; intros i; destruct i; cbn [update]; try apply Forall_nil; apply Forall_cons; auto.
  Qed.
  Lemma end_attribute_wi : forall o, WI o -> WI (end_attribute o) /\ o_buffering (end_attribute o) = o_buffering o - 1 /\ (o_buffering o = 1 -> o_pending_attribute (end_attribute o) = None).
  Proof.
    intros o W. unfold end_attribute, pop_buffering. destruct (o_buffering o - 1 =? 0) eqn:B; cbn [negb]; [|split; [destruct W; constructor; auto|split; [reflexivity|apply Z.eqb_neq in B; lia]]]. cbn [with_buffering o_pending_attribute].
    destruct (o_pending_attribute o) as [i|] eqn:P; [|split; [destruct W; constructor; auto|split; [reflexivity|intros _; exact P]]].
    cbn [at_apply]. unfold checked. cbn [with_buffering o_atts o_buffer]. rewrite (proj2 (Nat.ltb_lt _ _) (w_index _ W i P)). split; [|split; reflexivity]. assert (F : Forall own_att (update (o_atts o) i (set_value (o_buffer o)))). { apply update_own. apply (w_pend _ W). right. congruence. }
    destruct W. constructor; cbn; auto; [|intros; discriminate]. eapply Forall_impl; [|exact F]. intros a H. left. exact H.
  Qed.
  Definition calm (o : output) : Prop := o_buffering o = 0 -> o_pending_attribute o = None.
  Definition moved (o o' : output) : Prop := WI o' /\ o_buffering o' = o_buffering o /\ calm o'.
  Lemma characters_wi : forall ch o, chars_good ch -> WI o -> calm o -> moved o (characters ch o).
  Proof.
    intros ch o G W C. unfold characters. destruct (o_buffering o =? 0) eqn:B; cbn [negb].
    - apply Z.eqb_eq in B. specialize (C B). destruct (flush_element_wi o W) as (W1 & S1). remember (flush_element o) as o1. assert (P : o_pending_attribute o1 = None) by (unfold same_state in S1; intuition congruence). rewrite P.
      assert (W2 : WI (if o_pending_text o1 then o1 else (fun o => if is_cdata o then emit StartCdata o else o) (with_pending_text true o1))).
      { destruct (o_pending_text o1); [exact W1|]. assert (W2 : WI (with_pending_text true o1)) by (destruct W1; constructor; auto). destruct (is_cdata (with_pending_text true o1)) eqn:CD; [|exact W2]. apply emit_wi; [|exact W2]. cbn [event_good]. intros E. unfold is_cdata in CD. rewrite (w_cdata _ W2), E in CD. cbn [existsb] in CD. destruct (o_elements (with_pending_text true o1)); discriminate. }
      assert (P2 : o_pending_attribute (if o_pending_text o1 then o1 else (fun o => if is_cdata o then emit StartCdata o else o) (with_pending_text true o1)) = None /\ o_buffering (if o_pending_text o1 then o1 else (fun o => if is_cdata o then emit StartCdata o else o) (with_pending_text true o1)) = o_buffering o1).
      { destruct (o_pending_text o1); [auto|]. destruct (is_cdata (with_pending_text true o1)); auto. }
      remember (if o_pending_text o1 then o1 else _) as o2. destruct P2 as (P2 & B2). split; [apply emit_wi; [exact G|exact W2]|]. split; [cbn; unfold same_state in S1; intuition congruence|]. intros _. exact P2.
    - apply Z.eqb_neq in B. destruct (o_buffering o =? 1); [|split; [exact W|split; [reflexivity|exact C]]]. split; [|split; [reflexivity|exact C]]. destruct W. constructor; auto. cbn. rewrite in_app_iff. destruct G. tauto.
  Qed.
  Lemma spaced_in : forall s r, spaced s r -> forall c, c <> 32 -> In c r -> In c s.
  Proof. intros s r H c N. induction H; cbn [In]; intros I; [destruct I| |]; intuition congruence. Qed.
  Lemma end_comment_wi : forall o, WI o -> WI (end_comment o) /\ o_buffering (end_comment o) = o_buffering o - 1 /\ o_pending_attribute (end_comment o) = o_pending_attribute o.
  Proof.
    intros o W. unfold end_comment, pop_buffering. assert (W1 : WI (with_buffering (o_buffering o - 1) o)) by (destruct W; constructor; auto). destruct (o_buffering o - 1 =? 0); cbn [negb]; [|split; [exact W1|split; reflexivity]]. cbn [with_buffering o_text_mode o_buffer]. rewrite (w_text _ W). destruct (comment_lemma (o_buffer o)) as (r & E & _ & S). rewrite E. split; [|split; reflexivity]. apply emit_wi; [|exact W1]. intros I. apply (w_buffer _ W). apply (spaced_in _ _ S); [discriminate|exact I].
  Qed.
  Lemma end_pi_wi : forall o, WI o -> o_buffering o = 1 -> target_ok (o_target o) -> WI (end_pi o) /\ o_buffering (end_pi o) = 0 /\ o_pending_attribute (end_pi o) = o_pending_attribute o.
  Proof.
    intros o W B T. unfold end_pi, pop_buffering. rewrite B. cbn [Z.sub Z.eqb negb Z.add Z.opp Z.pos_sub]. assert (W1 : WI (with_buffering 0 o)) by (destruct W; constructor; auto). cbn [with_buffering o_text_mode o_buffer o_target]. rewrite (w_text _ W). destruct (pi_lemma (o_buffer o)) as (r & E & _ & S). rewrite E. split; [|split; reflexivity]. apply (emit_wi (Pi (o_target o) r) (with_buffering 0 o)); [|exact W1]. split; [exact T|]. intros I. apply (w_buffer _ W). apply (spaced_in _ _ S); [discriminate|exact I].
  Qed.
  Lemma start_comment_wi : forall o, WI o -> 0 <= o_buffering o -> calm o -> WI (start_comment o) /\ o_buffering (start_comment o) = o_buffering o + 1 /\ (o_buffering o = 0 -> o_pending_attribute (start_comment o) = None).
  Proof.
    intros o W B C. unfold start_comment. destruct (push_wi o W) as (W1 & B1 & P1). specialize (B1 B). destruct (push_buffering o) as (o1, was) eqn:PB. cbn [fst] in *. destruct was; [split; [exact W1|split; [tauto|intros Z; specialize (C Z); congruence]]|]. destruct (flush_current_wi o1 W1) as (W2 & S2 & _). split; [exact W2|]. unfold same_state in S2. split; [lia|]. intros Z. specialize (C Z). intuition congruence.
  Qed.
  Lemma start_pi_wi : forall t o, WI o -> 0 <= o_buffering o -> calm o -> WI (start_pi t o) /\ o_buffering (start_pi t o) = o_buffering o + 1 /\ (o_buffering o = 0 -> o_pending_attribute (start_pi t o) = None /\ o_target (start_pi t o) = t).
  Proof.
    intros t o W B C. unfold start_pi. destruct (push_wi o W) as (W1 & B1 & P1). specialize (B1 B). destruct (push_buffering o) as (o1, was) eqn:PB. cbn [fst] in *. destruct was.
    - split; [exact W1|split; [tauto|]]. intros Z. unfold push_buffering in PB. rewrite Z in PB. cbn in PB. congruence.
    - destruct (flush_current_wi o1 W1) as (W2 & S2 & _). unfold same_state in S2. split; [destruct W2; constructor; auto|]. split; [cbn; lia|]. intros Z. specialize (C Z). cbn. intuition congruence.
  Qed.
  Lemma body_wi : forall body, Forall (fun i => printable brackets i -> forall o, 0 <= o_buffering o -> WI o -> calm o -> moved o (execute i o)) body ->
    fold_right (fun i b => printable brackets i /\ b) True body -> forall o, 0 <= o_buffering o -> WI o -> calm o -> moved o (executes body o).
  Proof.
    intros body F. induction F as [|i body H F IH]; cbn [fold_right]; intros P o B W C; [split; [exact W|split; [reflexivity|exact C]]|]. destruct P as (P1 & P2). destruct (H P1 o B W C) as (W1 & B1 & C1). change (executes (i :: body) o) with (executes body (execute i o)). destruct (IH P2 (execute i o)) as (W2 & B2 & C2); auto; [lia|]. split; [exact W2|]. split; [congruence|exact C2].
  Qed.
  Lemma quiet_fields : forall t P o o', quieted t P o o' -> o_buffering o' = o_buffering o /\ o_target o' = o_target o /\ o_pending_attribute o' = o_pending_attribute o.
  Proof. intros t P o o' (ex & es & -> & _). repeat split. Qed.
  Lemma execute_wi : forall i, printable brackets i -> forall o, 0 <= o_buffering o -> WI o -> calm o -> moved o (execute i o).
  Proof.
    intros i. induction i using instruction_ind'; cbn [printable]; intros P o B W C.
    - destruct P as (P1 & P2 & P3 & P4). cbn [execute]. destruct (start_element_wi p l u o P1 P2 P3 W C) as (W1 & B1 & A1). destruct (start_element p l u o) as (o1, st) eqn:SE. cbn [fst] in *.
      assert (X : o_buffering o = 0 \/ (st = false /\ o1 = o)). { unfold start_element in SE. destruct (o_buffering o =? 0) eqn:E; cbn [negb] in SE; [apply Z.eqb_eq in E; auto|]. injection SE as <- <-. auto. }
      destruct X as [Z|(-> & ->)]; [|split; [exact W|split; [reflexivity|exact C]]]. assert (C1 : calm o1) by (intros _; rewrite A1; exact (C Z)).
      destruct st; [|split; [exact W1|split; [exact B1|exact C1]]]. change (fold_left (fun o i => execute i o) b o1) with (executes b o1).
      destruct (body_wi b H P4 o1) as (W2 & B2 & C2); auto; [lia|]. destruct (end_element_wi l u (executes b o1) P2 W2 C2) as (W3 & B3 & A3); [congruence|]. split; [exact W3|]. split; [congruence|intros _; exact A3].
    - destruct P as (P1 & P2 & P3 & P4 & P5). cbn [execute]. change (fold_left (fun o i => execute i o) b (start_attribute p l u o)) with (executes b (start_attribute p l u o)).
      destruct (push_wi o W) as (_ & BP & _). specialize (BP B). destruct (start_attribute_wi p l u o P1 P2 P3 P4 W) as (W1 & B1). remember (start_attribute p l u o) as o1.
      destruct (body_wi b H P5 o1) as (W2 & B2 & C2); auto; [lia|intros Z; lia|]. destruct (end_attribute_wi _ W2) as (W3 & B3 & A3). split; [exact W3|]. split; [lia|]. intros Z. apply A3. lia.
    - destruct P.
    - destruct P as (-> & P). cbn [execute]. apply characters_wi; auto.
    - cbn [execute]. change (fold_left (fun o i => execute i o) b (start_comment o)) with (executes b (start_comment o)).
      destruct (start_comment_wi o W B C) as (W1 & B1 & A1). remember (start_comment o) as o1. destruct (body_wi b H P o1) as (W2 & B2 & C2); auto; [lia|intros Z; lia|]. destruct (end_comment_wi _ W2) as (W3 & B3 & A3). split; [exact W3|]. split; [lia|]. intros Z. rewrite A3. destruct (quiet_fields _ _ _ _ (quiet_body b o1 ltac:(lia))) as (_ & _ & Q). rewrite Q. apply A1. lia.
    - destruct P as (P1 & P2 & P3). cbn [execute]. change (fold_left (fun o i => execute i o) b (start_pi t o)) with (executes b (start_pi t o)).
      destruct (start_pi_wi t o W B C) as (W1 & B1 & A1). remember (start_pi t o) as o1. destruct (body_wi b H P3 o1) as (W2 & B2 & C2); auto; [lia|intros Z; lia|].
      destruct (quiet_fields _ _ _ _ (quiet_body b o1 ltac:(lia))) as (_ & QT & Q). destruct (Z.eq_dec (o_buffering o) 0) as [Z|Z].
      + destruct (A1 Z) as (A & T). destruct (end_pi_wi (executes b o1) W2) as (W3 & B3 & A3); [lia|rewrite QT, T; split; assumption|]. split; [exact W3|]. split; [lia|]. intros _. rewrite A3, Q. exact A.
      + unfold end_pi, pop_buffering. destruct (Z.eqb_spec (o_buffering (executes b o1) - 1) 0); [lia|]. cbn [negb]. split; [destruct W2; constructor; auto|]. split; [cbn; lia|]. intros X. cbn in X. lia.
  Qed.
  Lemma new_wi : forall d, WI (new_output false d cdata).
  Proof.
    intros d. constructor; cbn; auto; try discriminate.
    split; repeat (apply Forall_cons || apply Forall_nil).
  Qed.
  Lemma results_good : forall l d, Forall (printable brackets) l -> Forall event_good (o_events (executes l (new_output false d cdata))).
  Proof.
    intros l d P. assert (F : fold_right (fun i b => printable brackets i /\ b) True l). { induction P; cbn; auto. }
    destruct (body_wi l ltac:(apply Forall_forall; intros; apply execute_wi; assumption) F (new_output false d cdata)) as (W & _); [cbn; lia|apply new_wi|intros _; reflexivity|]. exact (w_events _ W).
  Qed.
End Results.
