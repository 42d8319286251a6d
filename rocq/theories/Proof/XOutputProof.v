(** What instructions put into the result. *)
From Coq Require Import String.
From Verif.Model Require Import Base Containers Attrs Uri XSort XOutput.
From Verif.Spec Require Import XOutputSpec.
From Verif.Proof Require Import Tac ContainersProof AttrsProof XOutputText.
From Coq Require Import List Lia.
Import ListNotations.
Open Scope Z_scope.

Fixpoint instruction_ind' (P : instruction -> Prop)
  (He : forall p l u b, Forall P b -> P (IElement p l u b)) (Ha : forall p l u b, Forall P b -> P (IAttribute p l u b)) (Hc : forall u l q v, P (ICopyAttribute u l q v))
  (Ht : forall d c, P (IText d c)) (Hm : forall b, Forall P b -> P (IComment b)) (Hp : forall t b, Forall P b -> P (IPi t b)) (i : instruction) : P i :=
  let all := fix all l : Forall P l := match l with [] => Forall_nil P | i :: l => Forall_cons i (instruction_ind' P He Ha Hc Ht Hm Hp i) (all l) end in
  match i with
  | IElement p l u b => He p l u b (all b)
  | IAttribute p l u b => Ha p l u b (all b)
  | ICopyAttribute u l q v => Hc u l q v
  | IText d c => Ht d c
  | IComment b => Hm b (all b)
  | IPi t b => Hp t b (all b)
  end.

(** * Inside an attribute, a comment or a processing instruction *)
Definition escaping (e : event) : Prop := match e with Escaping _ => True | _ => False end.
Definition text_of (i : instruction) : str := match i with IText _ ch => ch | _ => [] end.
Definition quiet (t : str) (ex : list attr) (es : list event) (o : output) : output :=
  Output (o_buffering o) (o_pending_element o) (o_pending_text o) (o_pending_attribute o) (o_text_mode o) (o_declares o) (o_cdata o) (o_elements o) (o_target o) (o_atts o ++ ex) (o_buffer o ++ t) (o_names o) (o_events o ++ es) (o_undefined o).
Definition quieted (t : str) (copies : Prop) (o o' : output) : Prop := exists ex es, o' = quiet t ex es o /\ Forall escaping es /\ (o_pending_element o = false -> ex = []) /\ (ex = [] \/ copies) /\ (o_text_mode o = true -> es = []).
Lemma quiet_nil : forall o, quiet [] [] [] o = o.
Proof. intros []; unfold quiet; cbn; rewrite !app_nil_r; reflexivity. Qed.
Lemma quieted_refl : forall P o, quieted [] P o o.
Proof. intros P o. exists [], []. rewrite quiet_nil. repeat split; auto. Qed.
Lemma quieted_trans : forall t1 t2 P Q o1 o2 o3, quieted t1 P o1 o2 -> quieted t2 Q o2 o3 -> quieted (t1 ++ t2) (P \/ Q) o1 o3.
Proof.
  intros t1 t2 P Q o1 o2 o3 (x1 & e1 & -> & F1 & P1 & C1 & T1) (x2 & e2 & -> & F2 & P2 & C2 & T2). exists (x1 ++ x2), (e1 ++ e2). split; [unfold quiet; cbn; rewrite !app_assoc; reflexivity|]. split; [apply Forall_app; auto|]. split; [|split].
  - intros H. rewrite (P1 H), (P2 H). reflexivity.
  - destruct C1 as [->|?]; [|auto]. destruct C2 as [->|?]; auto.
  - intros H. rewrite (T1 H), (T2 H). reflexivity.
Qed.
Lemma quieted_weak : forall t (P Q : Prop) o1 o2, (P -> Q) -> quieted t P o1 o2 -> quieted t Q o1 o2.
Proof. intros t P Q o1 o2 I (x1 & e1 & E & F1 & P1 & C1 & T1). exists x1, e1. repeat split; auto. destruct C1; auto. Qed.

Definition inconsistent (i : instruction) : Prop := forall r, ~ consistent r i.
Lemma inconsistent_body : forall (body : list instruction), (exists i, In i body /\ inconsistent i) -> forall r, ~ fold_right (fun i b => consistent r i /\ b) True body.
Proof. intros body (i & I & N) r H. induction body as [|j body IH]; [destruct I|]. destruct H as (H1 & H2). destruct I as [->|I]; [exact (N r H1)|exact (IH I H2)]. Qed.
Lemma quiet_step : forall i o, 1 <= o_buffering o -> quieted (if o_buffering o =? 1 then text_of i else []) (inconsistent i) o (execute i o).
Proof.
  assert (FOLD : forall body, Forall (fun i => forall o, 1 <= o_buffering o -> quieted (if o_buffering o =? 1 then text_of i else []) (inconsistent i) o (execute i o)) body ->
    forall o, 1 <= o_buffering o -> quieted (if o_buffering o =? 1 then direct_text body else []) (exists i, In i body /\ inconsistent i) o (fold_left (fun o i => execute i o) body o)).
  { intros body H. induction H as [|i body H F IH]; intros o L.
    - cbn [fold_left direct_text map concat]. destruct (o_buffering o =? 1); apply quieted_refl.
    - cbn [fold_left]. pose proof (H o L) as Q1. assert (EB : o_buffering (execute i o) = o_buffering o) by (destruct Q1 as (? & ? & -> & _); reflexivity).
      pose proof (IH (execute i o)) as Q2. rewrite EB in Q2. specialize (Q2 L). pose proof (quieted_trans _ _ _ _ _ _ _ Q1 Q2) as Q. eapply quieted_weak; [|destruct (o_buffering o =? 1); exact Q]. intros [N|(j & I & N)]; [exists i; cbn; auto|exists j; cbn; auto]. }
  assert (NEST : forall body o, Forall (fun i => forall o, 1 <= o_buffering o -> quieted (if o_buffering o =? 1 then text_of i else []) (inconsistent i) o (execute i o)) body -> 1 <= o_buffering o ->
    quieted [] (exists i, In i body /\ inconsistent i) o (with_buffering (o_buffering (fold_left (fun o i => execute i o) body (with_buffering (o_buffering o + 1) o)) - 1) (fold_left (fun o i => execute i o) body (with_buffering (o_buffering o + 1) o)))).
  { intros body o F L. pose proof (FOLD body F (with_buffering (o_buffering o + 1) o)) as Q. cbn [o_buffering with_buffering] in Q. replace (o_buffering o + 1 =? 1) with false in Q by (symmetry; apply Z.eqb_neq; lia). specialize (Q ltac:(lia)). destruct Q as (ex & es & -> & F1 & P1 & C1 & T1). exists ex, es. split; [|auto]. unfold quiet, with_buffering. cbn. replace (o_buffering o + 1 - 1) with (o_buffering o) by lia. reflexivity. }
  assert (STILL : forall body o, Forall (fun i => forall o, 1 <= o_buffering o -> quieted (if o_buffering o =? 1 then text_of i else []) (inconsistent i) o (execute i o)) body -> 1 <= o_buffering o ->
    o_buffering (fold_left (fun o i => execute i o) body (with_buffering (o_buffering o + 1) o)) = o_buffering o + 1).
  { intros body o F L. destruct (FOLD body F (with_buffering (o_buffering o + 1) o)) as (ex & es & -> & _); [cbn; lia|reflexivity]. }
  assert (PUSH : forall o, 1 <= o_buffering o -> push_buffering o = (with_buffering (o_buffering o + 1) o, true)).
  { intros o L. unfold push_buffering. replace (o_buffering o =? 0) with false by (symmetry; apply Z.eqb_neq; lia). reflexivity. }
  intros i. induction i using instruction_ind'; intros o L; cbn [text_of execute].
  - unfold start_element. replace (o_buffering o =? 0) with false by (symmetry; apply Z.eqb_neq; lia). cbn [negb]. destruct (o_buffering o =? 1); apply quieted_refl.
  - unfold start_attribute. rewrite (PUSH o L). unfold end_attribute, pop_buffering. rewrite (STILL b o H L). replace (o_buffering o + 1 - 1 =? 0) with false by (symmetry; apply Z.eqb_neq; lia). cbn [negb]. pose proof (NEST b o H L) as Q. rewrite (STILL b o H L) in Q. destruct (o_buffering o =? 1); (eapply quieted_weak; [|exact Q]); intros N r C; cbn [consistent] in C; exact (inconsistent_body b N r (proj2 (proj2 (proj2 C)))).
  - unfold add_attribute. exists (if o_pending_element o then [Attr u l q [] v] else []), []. split; [|split; [constructor|split; [intros ->; reflexivity|split; [right; intros r []|auto]]]]. destruct o as [? [] ? ? ? ? ? ? ? ? ? ? ? ?]; cbn; unfold quiet; cbn; destruct (_ =? 1); rewrite ?app_nil_r; reflexivity.
  - exists [], (if d && negb (o_text_mode o) then [Escaping true; Escaping false] else []). split; [|split; [destruct (d && _); repeat constructor|split; [auto|split; [auto|intros ->; rewrite andb_false_r; reflexivity]]]].
    destruct o as [n ? ? ? tm ? ? ? ? ? ? ? ? ?]; cbn [o_buffering] in *. destruct d, tm; unfold disable_output_escaping, characters, quiet, emit; cbn; replace (n =? 0) with false by (symmetry; apply Z.eqb_neq; lia); cbn; destruct (n =? 1); cbn; rewrite ?app_nil_r, <- ?app_assoc; reflexivity.
  - unfold start_comment. rewrite (PUSH o L). unfold end_comment, pop_buffering. rewrite (STILL b o H L). replace (o_buffering o + 1 - 1 =? 0) with false by (symmetry; apply Z.eqb_neq; lia). cbn [negb]. pose proof (NEST b o H L) as Q. rewrite (STILL b o H L) in Q. destruct (o_buffering o =? 1); (eapply quieted_weak; [|exact Q]); intros N r C; cbn [consistent] in C; exact (inconsistent_body b N r C).
  - unfold start_pi. rewrite (PUSH o L). unfold end_pi, pop_buffering. rewrite (STILL b o H L). replace (o_buffering o + 1 - 1 =? 0) with false by (symmetry; apply Z.eqb_neq; lia). cbn [negb]. pose proof (NEST b o H L) as Q. rewrite (STILL b o H L) in Q. destruct (o_buffering o =? 1); (eapply quieted_weak; [|exact Q]); intros N r C; cbn [consistent] in C; exact (inconsistent_body b N r C).
Qed.
Lemma quiet_body : forall body o, 1 <= o_buffering o -> quieted (if o_buffering o =? 1 then direct_text body else []) (exists i, In i body /\ inconsistent i) o (executes body o).
Proof.
  unfold executes. induction body as [|i body IH]; intros o L.
  - cbn [fold_left direct_text map concat]. destruct (o_buffering o =? 1); apply quieted_refl.
  - cbn [fold_left]. pose proof (quiet_step i o L) as Q1. assert (EB : o_buffering (execute i o) = o_buffering o) by (destruct Q1 as (? & ? & -> & _); reflexivity).
    pose proof (IH (execute i o)) as Q2. rewrite EB in Q2. specialize (Q2 L). pose proof (quieted_trans _ _ _ _ _ _ _ Q1 Q2) as Q. eapply quieted_weak; [|destruct (o_buffering o =? 1); exact Q]. intros [N|(j & I & N)]; [exists i; cbn; auto|exists j; cbn; auto].
Qed.

(** * Nesting and content *)
Definition base (o : output) : list (list (str * str)) * list (list (str * str)) :=
  if o_pending_element o then (tl (n_prefixes (o_names o)), tl (n_uris (o_names o))) else (n_prefixes (o_names o), n_uris (o_names o)).
Definition opened (o : output) : list qualified := if o_pending_element o then tl (o_elements o) else o_elements o.
Definition settled (o : output) : list event :=
  filter is_content (o_events o) ++ match o_pending_element o, o_elements o with true, e :: _ => [Start (q_name e) (q_uri e) []] | _, _ => [] end.
Record Inv (o : output) : Prop := MkInv {
  i_text : o_text_mode o = false;
  i_attribute : o_pending_attribute o = None;
  i_defined : o_undefined o = false;
  i_pending : o_pending_element o = true -> o_elements o <> [] /\ o_pending_text o = false;
  i_prefixes : length (n_prefixes (o_names o)) = (length (o_elements o) + if o_pending_element o then 2 else 1)%nat;
  i_uris : length (n_uris (o_names o)) = (length (o_elements o) + if o_pending_element o then 2 else 1)%nat;
  i_follow : fold_left follow (o_events o) (Some ([], false)) = Some (map (fun e => (q_name e, q_uri e)) (opened o), o_pending_text o && is_cdata o) }.
Record kept (o o' : output) : Prop := MkKept {
  k_elements : o_elements o' = o_elements o;
  k_base : base o' = base o;
  k_declares : o_declares o' = o_declares o;
  k_cdata : o_cdata o' = o_cdata o;
  k_buffering : o_buffering o' = o_buffering o;
  k_pending : o_pending_element o = false -> o_pending_element o' = false }.
Lemma kept_refl : forall o, kept o o.
Proof. intros o. constructor; auto. Qed.
Lemma kept_trans : forall a b c, kept a b -> kept b c -> kept a c.
Proof. intros a b c [] []. constructor; try congruence. auto. Qed.
Definition adds (l : list piece) (o o' : output) : Prop := forall pre, Forall2 shows pre (settled o) -> Forall2 shows (pre ++ l) (settled o').
Lemma adds_trans : forall l1 l2 a b c, adds l1 a b -> adds l2 b c -> adds (l1 ++ l2) a c.
Proof. intros l1 l2 a b c A B pre H. rewrite app_assoc. apply B, A, H. Qed.

Lemma follow_app : forall l e st, fold_left follow (l ++ [e]) st = follow (fold_left follow l st) e.
Proof. intros l e st. rewrite fold_left_app. reflexivity. Qed.
Definition given_declarations (o : output) (s1 s2 : list (str * str)) : list attr :=
  if o_declares o then map declaration (filter (fun pu => negb (str_eqb (fst pu) (ascii_str "xml"))) s1) ++ map declaration (filter (fun pu => negb (str_eqb (fst pu) (ascii_str "xml"))) s2) else [].
Lemma flush_pending : forall o, Inv o -> o_pending_element o = true -> exists e es s1 s2 ps, o_elements o = e :: es /\ n_prefixes (o_names o) = s1 :: s2 :: ps /\
  flush_element o = Output (o_buffering o) false (o_pending_text o) None false (o_declares o) (o_cdata o) (o_elements o) (o_target o) (o_atts o ++ given_declarations o s1 s2) (o_buffer o)
    (Namespaces (s2 :: ps) (tl (n_uris (o_names o))) (n_auto (o_names o))) (o_events o ++ [Start (q_name e) (q_uri e) (o_atts o ++ given_declarations o s1 s2)]) (o_undefined o).
Proof.
  intros o [T A D P L1 L2 F] H. destruct (P H) as (NE & PT). rewrite H in L1, L2. destruct o as [n pe pt pa tm d c els tg at_ bf [ps us au] ev un]. cbn in *. subst. destruct els as [|e es]; [destruct (NE eq_refl)|]. destruct ps as [|s1 [|s2 ps]]; cbn in L1; try lia. exists e, es, s1, s2, ps. split; [reflexivity|]. split; [reflexivity|].
  unfold given_declarations. destruct d; cbn; rewrite ?app_nil_r, <- ?app_assoc; reflexivity.
Qed.
Lemma flush_idle : forall o, o_pending_element o = false -> flush_element o = o.
Proof. intros o H. unfold flush_element. rewrite H. reflexivity. Qed.
Lemma flush_element_ok : forall o, Inv o -> Inv (flush_element o) /\ kept o (flush_element o) /\ o_pending_element (flush_element o) = false /\ o_pending_text (flush_element o) = o_pending_text o /\ adds [] o (flush_element o).
Proof.
  intros o IV. destruct (o_pending_element o) eqn:H.
  - destruct (flush_pending o IV H) as (e & es & s1 & s2 & ps & E1 & E2 & ->). destruct IV as [T A D P L1 L2 F]. destruct (P H) as (NE & PT). rewrite H in L1, L2. rewrite E1 in *. split; [|split; [|split; [|split]]]; auto.
    + constructor; cbn -[fold_left follow]; auto; try (intros X; discriminate).
      * rewrite E2 in L1. cbn in *. lia.
      * destruct (n_uris (o_names o)); cbn in *; lia.
      * rewrite follow_app, F. unfold opened. rewrite H. cbn -[fold_left]. rewrite E1. cbn. rewrite PT. reflexivity.
    + constructor; cbn; auto. unfold base. cbn. rewrite H, E2. reflexivity.
    + intros pre S. rewrite app_nil_r. unfold settled in *. cbn. rewrite filter_app. cbn. rewrite H, E1 in S. rewrite app_nil_r. apply Forall2_app_inv_r in S. destruct S as (a & b & S1 & S2 & ->). apply Forall2_app; [exact S1|]. inversion S2 as [|x y lx ly SH RE]; subst. inversion RE; subst. constructor; [|constructor]. inversion SH as [l u p at1 E3 E4| | | |]; subst. constructor.
  - rewrite flush_idle by exact H. split; [exact IV|]. split; [apply kept_refl|]. split; [exact H|]. split; [reflexivity|]. intros pre S. rewrite app_nil_r. exact S.
Qed.
Lemma flush_current_ok : forall o, Inv o -> Inv (flush_current o) /\ kept o (flush_current o) /\ o_pending_element (flush_current o) = false /\ o_pending_text (flush_current o) = false /\ adds [] o (flush_current o).
Proof.
  intros o IV. unfold flush_current. destruct (o_pending_text o) eqn:PT.
  - assert (H : o_pending_element o = false). { destruct (o_pending_element o) eqn:H; [|reflexivity]. destruct (i_pending o IV H). congruence. }
    set (o1 := with_pending_text false (if is_cdata o then emit EndCdata o else o)).
    assert (K : Inv o1 /\ kept o o1 /\ o_pending_element o1 = false /\ o_pending_text o1 = false /\ adds [] o o1).
    { destruct IV as [T A D P L1 L2 F]. rewrite PT in F. unfold o1. destruct (is_cdata o) eqn:C; (split; [|split; [|split; [|split]]]; auto).
      - constructor; cbn -[fold_left follow]; auto; try (intros X; congruence). rewrite follow_app, F. cbn. unfold opened. cbn. reflexivity.
      - constructor; auto.
      - intros pre S. rewrite app_nil_r. unfold settled in *. cbn. rewrite filter_app. cbn. rewrite app_nil_r. exact S.
      - constructor; cbn -[fold_left follow]; auto; try (intros X; congruence).
      - constructor; auto.
      - intros pre S. rewrite app_nil_r. exact S. }
    destruct K as (K1 & K2 & K3 & K4 & K5). rewrite flush_idle by exact K3. auto.
  - destruct (flush_element_ok o IV) as (A & B & C & D & E). rewrite PT in D. auto.
Qed.
Definition good_step (l : list piece) (o o' : output) : Prop := Inv o' /\ kept o o' /\ adds l o o'.
Lemma good_trans : forall l1 l2 a b c, good_step l1 a b -> good_step l2 b c -> good_step (l1 ++ l2) a c.
Proof. intros l1 l2 a b c (I1 & K1 & A1) (I2 & K2 & A2). split; [exact I2|]. split; [eapply kept_trans; eassumption|eapply adds_trans; eassumption]. Qed.
Lemma declare_lengths : forall g u b n, length (n_prefixes (declare_namespace g u b n)) = length (n_prefixes n) /\ length (n_uris (declare_namespace g u b n)) = length (n_uris n) /\
  tl (n_prefixes (declare_namespace g u b n)) = tl (n_prefixes n) /\ tl (n_uris (declare_namespace g u b n)) = tl (n_uris n).
Proof.
  intros g u b n. unfold declare_namespace. destruct (negb _); [auto|]. destruct ((b && _) || _); cbn [n_prefixes n_uris]; destruct (n_prefixes n), (n_uris n); cbn; auto.
Qed.
Lemma follow_escaping : forall es st, Forall escaping es -> fold_left follow es st = st.
Proof. induction es as [|e es IH]; intros st H; [reflexivity|]. inversion H; subst. cbn [fold_left]. rewrite <- (IH st) at 2 by assumption. f_equal. destruct e; try contradiction. destruct st as [[o []]|]; reflexivity. Qed.
Lemma content_escaping : forall es, Forall escaping es -> filter is_content es = [].
Proof. induction 1 as [|e es H F IH]; [reflexivity|]. destruct e; try contradiction. exact IH. Qed.
(** After the texts of a body have been collected. *)
Lemma buffered_ok : forall o body, Inv o -> o_buffering o = 0 -> forall o1, o1 = with_buffer [] (with_buffering 1 o) ->
  exists ex es, executes body o1 = quiet (direct_text body) ex es o1 /\ Forall escaping es /\ (o_pending_element o = false -> ex = []).
Proof.
  intros o body IV B o1 ->. destruct (quiet_body body (with_buffer [] (with_buffering 1 o))) as (ex & es & E & F & P & _); [cbn; lia|]. cbn in E. exists ex, es. auto.
Qed.
Lemma quiet_inv : forall t ex es o b, Inv o -> Forall escaping es -> good_step [] o (with_buffering (o_buffering o) (quiet t ex es (with_buffer [] (with_buffering b o)))).
Proof.
  intros t ex es o b [T A D P L1 L2 F] E. split; [|split].
  - constructor; cbn -[fold_left follow]; auto. rewrite fold_left_app, F, follow_escaping by exact E. reflexivity.
  - constructor; cbn; auto.
  - intros pre S. rewrite app_nil_r. unfold settled in *. cbn. rewrite filter_app, (content_escaping es E), app_nil_r. exact S.
Qed.
Lemma start_element_ok : forall p l u o, Inv o -> o_buffering o = 0 -> exists o1 q, start_element p l u o = (o1, true) /\ Inv o1 /\ o_buffering o1 = 0 /\ o_elements o1 = Qualified q l u :: o_elements o /\
  q = search_stack (snd (base o1)) u /\ (tl (fst (base o1)), tl (snd (base o1))) = base o /\ o_declares o1 = o_declares o /\ o_cdata o1 = o_cdata o /\ o_pending_element o1 = true /\ adds [PStart l u] o o1.
Proof.
  intros p l u o IV B. unfold start_element. rewrite B. cbn [Z.eqb negb]. destruct (flush_current_ok o IV) as (IV' & K & PE & PT & AD). set (o' := flush_current o) in *. set (n := match u with [] => push_scope (o_names o') | _ => declare_namespace p u false (push_scope (o_names o')) end).
  eexists. exists (find_prefix n u). split; [reflexivity|].
  assert (LN : length (n_prefixes n) = S (length (n_prefixes (o_names o'))) /\ length (n_uris n) = S (length (n_uris (o_names o'))) /\ tl (n_prefixes n) = n_prefixes (o_names o') /\ tl (n_uris n) = n_uris (o_names o')).
  { unfold n. destruct u as [|z u]; [cbn; auto|]. apply (declare_lengths p (z :: u) false (push_scope (o_names o'))). }
  destruct LN as (LN1 & LN2 & LN3 & LN4). destruct IV' as [T A D P L1 L2 F]. destruct K as [K1 K2 K3 K4 K5 K6]. rewrite PE in L1, L2. split; [|split; [|split; [|split; [|split; [|split; [|split; [|split]]]]]]]; try (cbn; congruence).
  - constructor; cbn -[fold_left follow]; auto.
    + split; [discriminate|exact PT].
    + rewrite LN1, L1. lia.
    + rewrite LN2, L2. lia.
    + rewrite F, PT. unfold opened. rewrite PE. cbn. reflexivity.
  - reflexivity.
  - unfold base at 1 2. cbn [o_pending_element with_names with_pending_element with_atts with_elements o_names n_prefixes n_uris push_scope tl fst snd]. rewrite LN3, LN4. unfold base in K2. rewrite PE in K2. exact K2.
  - intros pre S. apply AD in S. rewrite app_nil_r in S. unfold settled in *. cbn. rewrite PE, app_nil_r in S. apply Forall2_app; [exact S|]. constructor; [constructor|constructor].
Qed.
Lemma end_element_ok : forall q l u els o, Inv o -> o_buffering o = 0 -> o_elements o = Qualified q l u :: els -> q = search_stack (snd (base o)) u -> exists o1, o1 = end_element l u o /\
  Inv o1 /\ o_buffering o1 = 0 /\ o_elements o1 = els /\ base o1 = (tl (fst (base o)), tl (snd (base o))) /\ o_declares o1 = o_declares o /\ o_cdata o1 = o_cdata o /\ o_pending_element o1 = false /\ adds [PEnd l u] o o1.
Proof.
  intros q l u els o IV B EL Q. eexists. split; [reflexivity|]. unfold end_element. rewrite B. cbn [Z.eqb negb]. destruct (flush_current_ok o IV) as (IV' & K & PE & PT & AD). set (o' := flush_current o) in *. destruct IV' as [T A D P L1 L2 F]. destruct K as [K1 K2 K3 K4 K5 K6]. rewrite PE in L1, L2. rewrite T. rewrite K1, EL in *. unfold base in K2 at 1. rewrite PE in K2.
  assert (N : find_prefix (o_names o') u = q). { rewrite Q, <- K2. reflexivity. } rewrite N.
  split; [|split; [|split; [|split; [|split; [|split; [|split]]]]]]; try (cbn; congruence).
  - constructor; cbn -[fold_left follow]; auto.
    + intros X; congruence.
    + rewrite PE. destruct (n_prefixes (o_names o')); cbn in *; lia.
    + rewrite PE. destruct (n_uris (o_names o')); cbn in *; lia.
    + rewrite follow_app, F, PT. unfold opened. rewrite PE. cbn -[str_eqb]. rewrite PE, K1. cbn -[str_eqb]. unfold q_name. cbn -[str_eqb]. rewrite !(proj2 (str_eqb_true _ _) eq_refl). cbn. reflexivity.
  - unfold base at 1. cbn. rewrite PE, <- K2. reflexivity.
  - intros pre S. apply AD in S. rewrite app_nil_r in S. unfold settled in *. cbn. rewrite PE in *. rewrite app_nil_r in *. rewrite filter_app. apply Forall2_app; [exact S|]. constructor; [constructor|constructor].
Qed.
Lemma body_ok : forall body, Forall (fun i => forall o, Inv o -> o_buffering o = 0 -> good_step (denote i) o (execute i o)) body -> forall o, Inv o -> o_buffering o = 0 -> good_step (flat_map denote body) o (executes body o).
Proof.
  unfold executes. induction 1 as [|i body H F IH]; intros o IV B; cbn [flat_map fold_left].
  - split; [exact IV|]. split; [apply kept_refl|]. intros pre S. rewrite app_nil_r. exact S.
  - pose proof (H o IV B) as G. pose proof G as (G1 & G2 & G3). eapply good_trans; [exact G|]. apply IH; [exact G1|]. destruct G2 as [? ? ? ? ? ?]. congruence.
Qed.
Lemma flush_current_buffer : forall o b t, flush_current (with_buffer t (with_buffering b o)) = with_buffer t (with_buffering b (flush_current o)).
Proof.
  intros [n pe pt pa tm d c els tg at_ bf [ps us au] ev un] b t. unfold flush_current, flush_element, is_cdata. cbn. destruct pt; cbn.
  - destruct els as [|e els]; cbn; [|destruct (existsb _ _); cbn]; destruct pe, pa, tm, d; cbn; try reflexivity; destruct ps as [|? [|? ?]]; reflexivity.
  - destruct els as [|e els]; cbn; destruct pe, pa, tm, d; cbn; try reflexivity; destruct ps as [|? [|? ?]]; reflexivity.
Qed.
Lemma buffered_flush : forall o, Inv o -> o_buffering o = 0 -> exists o2, flush_current (with_buffer [] (with_buffering 1 o)) = with_buffer [] (with_buffering 1 o2) /\ Inv o2 /\ kept o o2 /\ (o_pending_element o2 = false /\ o_pending_text o2 = false) /\ adds [] o o2.
Proof. intros o IV B. exists (flush_current o). destruct (flush_current_ok o IV) as (I1 & K & PE & PT & AD). split; [apply flush_current_buffer|auto]. Qed.
Lemma execute_ok : forall i o, Inv o -> o_buffering o = 0 -> good_step (denote i) o (execute i o).
Proof.
  intros i. induction i using instruction_ind'; intros o IV B; cbn [denote execute].
  - destruct (start_element_ok p l u o IV B) as (o1 & q & -> & I1 & B1 & E1 & Q1 & S1 & D1 & C1 & P1 & A1).
    change (fold_left (fun (o0 : output) (i : instruction) => execute i o0) b o1) with (executes b o1). destruct (body_ok b H o1 I1 B1) as (I2 & [K1 K2 K3 K4 K5 K6] & A2). set (o2 := executes b o1) in *.
    destruct (end_element_ok q l u (o_elements o) o2 I2) as (o3 & -> & I3 & B3 & E3 & S3 & D3 & C3 & P3 & A3); [congruence|congruence|rewrite K2; exact Q1|].
    split; [exact I3|]. split; [constructor; try congruence|].
    change (PStart l u :: flat_map denote b ++ [PEnd l u]) with ([PStart l u] ++ flat_map denote b ++ [PEnd l u]). eapply adds_trans; [exact A1|]. eapply adds_trans; eassumption.
  - unfold start_attribute, push_buffering. rewrite B. cbn [Z.eqb negb]. change (0 + 1) with 1. set (o1 := with_buffer [] (with_buffering 1 o)).
    assert (GOAL : forall o2, Inv o2 -> kept o o2 -> adds [] o o2 -> forall i, (forall j, i = Some j -> (j < length (o_atts o2))%nat) -> o_pending_element o2 = o_pending_element o -> 
      good_step [] o (end_attribute (fold_left (fun (o0 : output) (i0 : instruction) => execute i0 o0) b (with_pending_attribute i (with_buffer [] (with_buffering 1 o2)))))).
    { intros o2 I2 K2 A2 i LI PP. destruct (quiet_body b (with_pending_attribute i (with_buffer [] (with_buffering 1 o2)))) as (ex & es & E & FE & _); [cbn; lia|]. unfold executes in E. rewrite E. unfold end_attribute, pop_buffering. cbn [o_buffering quiet with_pending_attribute with_buffer with_buffering Z.sub Z.add Z.opp Z.pos_sub Z.eqb negb o_pending_attribute].
      assert (G0 : o_buffering o2 = 0) by (destruct K2; congruence).
      destruct i as [j|].
      - cbn [at_apply o_atts quiet with_pending_attribute with_buffer with_buffering]. unfold checked. specialize (LI j eq_refl). assert (LL : Nat.ltb j (length (o_atts o2 ++ ex)) = true) by (apply Nat.ltb_lt; rewrite app_length; lia). rewrite LL.
        destruct I2 as [T A D P L1 L2 F]. destruct K2 as [K1 K2 K3 K4 K5 K6]. split; [|split].
        + constructor; cbn -[fold_left follow]; auto. rewrite fold_left_app, F, follow_escaping by exact FE. reflexivity.
        + constructor; cbn; try congruence; auto.
        + intros pre S. apply A2 in S. rewrite app_nil_r in *. unfold settled in *. cbn. rewrite filter_app, (content_escaping es FE), app_nil_r. exact S.
      - destruct I2 as [T A D P L1 L2 F]. destruct K2 as [K1 K2 K3 K4 K5 K6]. split; [|split].
        + constructor; cbn -[fold_left follow]; auto. rewrite fold_left_app, F, follow_escaping by exact FE. reflexivity.
        + constructor; cbn; try congruence; auto.
        + intros pre S. apply A2 in S. rewrite app_nil_r in *. unfold settled in *. cbn. rewrite filter_app, (content_escaping es FE), app_nil_r. exact S. }
    assert (SELF : adds [] o o) by (intros pre S; rewrite app_nil_r; exact S).
    destruct (o_pending_element o) eqn:PE; cbn [negb o1 o_pending_element with_buffer with_buffering].
    + rewrite PE. cbn [negb]. set (n := match u with [] => o_names (with_buffer [] (with_buffering 1 o)) | _ => declare_namespace p u true (o_names (with_buffer [] (with_buffering 1 o))) end).
      set (qn := make_name (find_prefix n u) l). cbn [at_apply]. match goal with |- context [with_atts ?a _] => set (at2 := a) end.
      assert (LN : length (n_prefixes n) = length (n_prefixes (o_names o)) /\ length (n_uris n) = length (n_uris (o_names o)) /\ tl (n_prefixes n) = tl (n_prefixes (o_names o)) /\ tl (n_uris n) = tl (n_uris (o_names o))).
      { unfold n. destruct u as [|z u]; [cbn; auto|]. apply (declare_lengths p (z :: u) true (o_names o)). }
      destruct LN as (LN1 & LN2 & LN3 & LN4). apply (GOAL (with_atts at2 (with_names n o))).
      * destruct IV as [T A D P L1 L2 F]. constructor; cbn -[fold_left follow]; auto; congruence.
      * constructor; cbn; auto. unfold base. cbn. rewrite PE, LN3, LN4. reflexivity.
      * exact SELF.
      * intros j J. apply find_pos_first in J. destruct J as ((a & NA & _) & _). cbn [o_atts with_atts]. apply nth_error_Some. congruence.
      * cbn. exact PE.
    + rewrite PE. cbn [negb]. assert (E : with_buffer [] (with_buffering 1 o) = with_pending_attribute None (with_buffer [] (with_buffering 1 o))). { destruct IV as [T A D P L1 L2 F]. destruct o; cbn in *. subst. reflexivity. }
      unfold o1. rewrite E. apply (GOAL o); auto; [apply kept_refl|intros j X; discriminate].
  - unfold add_attribute. destruct (o_pending_element o) eqn:PE; cbn [negb].
    + destruct IV as [T A D P L1 L2 F]. split; [|split].
      * constructor; cbn -[fold_left follow]; auto.
      * constructor; cbn; auto.
      * intros pre S. rewrite app_nil_r. exact S.
    + split; [exact IV|]. split; [apply kept_refl|]. intros pre S. rewrite app_nil_r. exact S.
  - assert (EMIT : forall b o, Inv o -> o_buffering o = 0 -> good_step [] o (disable_output_escaping b o)).
    { clear. intros b o IV B. unfold disable_output_escaping. destruct IV as [T A D P L1 L2 F]. rewrite T. split; [|split].
      - constructor; cbn -[fold_left follow]; auto. rewrite follow_app, F. cbn. unfold opened. cbn. destruct (o_pending_text o && is_cdata o) eqn:E; unfold is_cdata in *; cbn in *; rewrite E; reflexivity.
      - constructor; cbn; auto.
      - intros pre S. rewrite app_nil_r. unfold settled in *. cbn. rewrite filter_app. cbn. rewrite app_nil_r. exact S. }
    assert (CH : forall o, Inv o -> o_buffering o = 0 -> good_step [PText c] o (characters c o)).
    { clear - c. intros o IV B. unfold characters. rewrite B. cbn [Z.eqb negb]. destruct (flush_element_ok o IV) as (I1 & K & PE & PT & AD). set (o1 := flush_element o) in *. destruct I1 as [T A D P L1 L2 F]. rewrite A. destruct K as [K1 K2 K3 K4 K5 K6]. destruct (o_pending_text o1) eqn:PT1.
      - split; [|split].
        + constructor; cbn -[fold_left follow]; auto; [intros X; congruence|]. rewrite follow_app, F, PT1. unfold is_cdata, opened. cbn. destruct (match o_elements o1 with [] => false | _ => _ end); reflexivity.
        + constructor; cbn; auto. 
        + intros pre S. apply AD in S. rewrite app_nil_r in S. unfold settled in *. cbn. rewrite PE in *. rewrite app_nil_r in *. rewrite filter_app. apply Forall2_app; [exact S|]. cbn. constructor; constructor.
      - split; [|split].
        + destruct (is_cdata (with_pending_text true o1)) eqn:C; constructor; cbn -[fold_left follow]; auto; try (intros X; congruence); rewrite ?follow_app, F; unfold is_cdata, opened in *; cbn in *; rewrite C; reflexivity.
        + destruct (is_cdata (with_pending_text true o1)); constructor; cbn; auto.
        + intros pre S. apply AD in S. rewrite app_nil_r in S. unfold settled in *. destruct (is_cdata (with_pending_text true o1)); cbn; rewrite PE in *; rewrite app_nil_r in *; rewrite !filter_app; cbn; rewrite ?app_nil_r; (apply Forall2_app; [exact S|]); constructor; constructor. }
    destruct d.
    + pose proof (EMIT true o IV B) as G1. pose proof G1 as (I1 & K1 & _). pose proof (CH _ I1 (eq_trans (k_buffering _ _ K1) B)) as G2. pose proof G2 as (I2 & K2 & _). pose proof (EMIT false _ I2 (eq_trans (k_buffering _ _ K2) (eq_trans (k_buffering _ _ K1) B))) as G3. exact (good_trans _ _ _ _ _ G1 (good_trans _ _ _ _ _ G2 G3)).
    + exact (CH o IV B).
  - unfold start_comment, push_buffering. rewrite B. cbn [Z.eqb negb]. change (0 + 1) with 1. destruct (buffered_flush o IV B) as (o2 & E2 & I2 & K2 & P2 & A2). rewrite E2.
    destruct (quiet_body b (with_buffer [] (with_buffering 1 o2))) as (ex & es & E & FE & PX & _); [cbn; lia|]. unfold executes in E. cbn [o_buffering with_buffer with_buffering with_target] in E. change (1 =? 1) with true in E. cbv iota in E. rewrite E. unfold end_comment, pop_buffering. cbn [o_buffering quiet with_buffer with_buffering Z.sub Z.add Z.opp Z.pos_sub Z.eqb negb o_text_mode o_buffer app].
    destruct I2 as [T A D P L1 L2 F]. rewrite T. destruct (comment_lemma (direct_text b)) as (r & ER & OK & SP). rewrite ER. destruct K2 as [K1 K2 K3 K4 K5 K6]. split; [|split].
    + constructor; cbn -[fold_left follow]; auto; try (intros X; congruence). rewrite follow_app, fold_left_app, F, follow_escaping by exact FE. rewrite (proj2 P2). unfold opened. rewrite (proj1 P2). cbn. rewrite (proj1 P2). reflexivity.
    + constructor; cbn; try congruence; auto; intros _; exact (proj1 P2).
    + intros pre S. apply A2 in S. rewrite app_nil_r in S. unfold settled in *. cbn. rewrite (proj1 P2) in *. rewrite !filter_app, (content_escaping es FE), !app_nil_r in *. apply Forall2_app; [exact S|]. cbn. repeat constructor; assumption || apply OK.
  - unfold start_pi, push_buffering. rewrite B. cbn [Z.eqb negb]. change (0 + 1) with 1. destruct (buffered_flush o IV B) as (o2 & E2 & I2 & K2 & P2 & A2). rewrite E2.
    destruct (quiet_body b (with_target t (with_buffer [] (with_buffering 1 o2)))) as (ex & es & E & FE & PX & _); [cbn; lia|]. unfold executes in E. cbn [o_buffering with_buffer with_buffering with_target] in E. change (1 =? 1) with true in E. cbv iota in E. rewrite E. unfold end_pi, pop_buffering. cbn [o_buffering quiet with_target with_buffer with_buffering Z.sub Z.add Z.opp Z.pos_sub Z.eqb negb o_text_mode o_buffer app].
    destruct I2 as [T A D P L1 L2 F]. rewrite T. destruct (pi_lemma (direct_text b)) as (r & ER & OK & SP). rewrite ER. destruct K2 as [K1 K2 K3 K4 K5 K6]. split; [|split].
    + constructor; cbn -[fold_left follow]; auto; try (intros X; congruence). rewrite follow_app, fold_left_app, F, follow_escaping by exact FE. rewrite (proj2 P2). unfold opened. rewrite (proj1 P2). cbn. rewrite (proj1 P2). reflexivity.
    + constructor; cbn; try congruence; auto; intros _; exact (proj1 P2).
    + intros pre S. apply A2 in S. rewrite app_nil_r in S. unfold settled in *. cbn. rewrite (proj1 P2) in *. rewrite !filter_app, (content_escaping es FE), !app_nil_r in *. apply Forall2_app; [exact S|]. cbn. repeat constructor; assumption.
Qed.

Lemma new_inv : forall d c, Inv (new_output false d c).
Proof. intros d c. constructor; cbn; auto. discriminate. Qed.
Lemma executes_ok : forall l o, Inv o -> o_buffering o = 0 -> good_step (flat_map denote l) o (executes l o).
Proof. intros l. apply body_ok. apply Forall_forall. intros i _. exact (execute_ok i). Qed.
Lemma balanced_lemma : forall l d c, let o := executes l (new_output false d c) in balanced (o_events o) /\ o_undefined o = false /\ Forall2 shows (flat_map denote l) (filter is_content (o_events o)).
Proof.
  intros l d c o. destruct (executes_ok l (new_output false d c) (new_inv d c) eq_refl) as (I1 & K & AD). fold o in I1, K, AD. destruct K as [K1 K2 K3 K4 K5 K6]. specialize (K6 eq_refl). cbn in K1. split; [|split; [exact (i_defined o I1)|]].
  - unfold balanced. rewrite (i_follow o I1). unfold opened, is_cdata. rewrite K6, K1, andb_false_r. reflexivity.
  - specialize (AD [] ltac:(constructor)). unfold settled in AD. rewrite K6, app_nil_r in AD. exact AD.
Qed.
Lemma written_lemma : forall l d c e, In e (o_events (executes l (new_output false d c))) -> match e with Comment s => comment_ok s | Pi _ s => pi_ok s | _ => True end.
Proof.
  intros l d c e I. destruct (balanced_lemma l d c) as (_ & _ & F). assert (G : forall ps es, Forall2 shows ps es -> In e es -> match e with Comment s => comment_ok s | Pi _ s => pi_ok s | _ => True end).
  { clear. intros ps es F. induction F as [|p x ps es H F IH]; intros I; [destruct I|]. destruct I as [->|I]; [|exact (IH I)]. destruct H; auto. }
  destruct (is_content e) eqn:E; [|destruct e; auto; discriminate]. apply (G _ _ F). apply filter_In. auto.
Qed.
