(** The text method. *)
From Coq Require Import String.
From Verif.Model Require Import Base Containers Attrs Uri XSort XOutput.
From Verif.Spec Require Import XOutputSpec.
From Verif.Proof Require Import Tac ContainersProof AttrsProof XOutputText XOutputProof.
From Coq Require Import List Lia.
Import ListNotations.
Open Scope Z_scope.

Record TI (o : output) : Prop := MkTI {
  t_text : o_text_mode o = true;
  t_attribute : o_pending_attribute o = None;
  t_cdata : o_cdata o = [];
  t_defined : o_undefined o = false;
  t_buffering : o_buffering o = 0 }.
Definition adds_text (s : str) (o o' : output) : Prop := exists ts, o_events o' = o_events o ++ map Chars ts /\ concat ts = s.
Definition tstep (s : str) (o o' : output) : Prop := TI o' /\ adds_text s o o'.
Lemma tstep_trans : forall s1 s2 a b c, tstep s1 a b -> tstep s2 b c -> tstep (s1 ++ s2) a c.
Proof.
  intros s1 s2 a b c (_ & (t1 & E1 & C1)) (I2 & (t2 & E2 & C2)). split; [exact I2|]. exists (t1 ++ t2). split; [rewrite E2, E1, map_app, app_assoc; reflexivity|]. rewrite concat_app. congruence.
Qed.
Lemma tstep_none : forall o o', TI o' -> o_events o' = o_events o -> tstep [] o o'.
Proof. intros o o' T E. split; [exact T|]. exists []. rewrite E, app_nil_r. auto. Qed.
Lemma no_cdata : forall o, o_cdata o = [] -> is_cdata o = false.
Proof. intros o H. unfold is_cdata. rewrite H. destruct (o_elements o); reflexivity. Qed.
Lemma text_flush : forall o, o_text_mode o = true -> flush_element o = o.
Proof. intros o H. unfold flush_element. rewrite H. destruct (negb _ || _); reflexivity. Qed.
Lemma text_flush_current : forall o, o_text_mode o = true -> o_cdata o = [] -> flush_current o = if o_pending_text o then with_pending_text false o else o.
Proof. intros o H C. unfold flush_current. rewrite (no_cdata o C). destruct (o_pending_text o); apply text_flush; exact H. Qed.
Lemma text_body : forall body, Forall (fun i => forall o, TI o -> tstep (string_value i) o (execute i o)) body -> forall o, TI o -> tstep (concat (map string_value body)) o (executes body o).
Proof.
  unfold executes. induction 1 as [|i body H F IH]; intros o T; cbn [map concat fold_left]; [apply tstep_none; auto|]. pose proof (H o T) as G. pose proof G as (T1 & _). eapply tstep_trans; [exact G|]. apply IH. exact T1.
Qed.
Lemma text_step : forall i o, TI o -> tstep (string_value i) o (execute i o).
Proof.
  intros i. induction i using instruction_ind'; intros o T; cbn [string_value execute].
  - unfold start_element. rewrite (t_buffering o T). cbn [Z.eqb negb]. rewrite (text_flush_current o (t_text o T) (t_cdata o T)). set (o1 := if o_pending_text o then with_pending_text false o else o). assert (T1 : TI o1 /\ o_events o1 = o_events o) by (unfold o1; destruct T; destruct (o_pending_text o); split; auto; constructor; auto). destruct T1 as (T1 & E1).
    set (n := match u with [] => _ | _ => _ end). match goal with |- tstep _ _ (end_element _ _ (fold_left _ _ ?x)) => set (o2 := x) end. assert (T2 : TI o2) by (destruct T1; constructor; auto). assert (E2 : o_events o2 = o_events o) by exact E1. change (fold_left (fun (o0 : output) (i : instruction) => execute i o0) b o2) with (executes b o2). pose proof (text_body b H o2 T2) as (T3 & (ts & E3 & C3)). set (o3 := executes b o2) in *. clearbody o3.
    unfold end_element. rewrite (t_buffering o3 T3). cbn [Z.eqb negb]. rewrite (text_flush_current o3 (t_text o3 T3) (t_cdata o3 T3)). set (o4 := if o_pending_text o3 then with_pending_text false o3 else o3). assert (T4 : TI o4 /\ o_events o4 = o_events o3) by (unfold o4; destruct T3; destruct (o_pending_text o3); split; auto; constructor; auto). destruct T4 as (T4 & E4). rewrite (t_text o4 T4). split; [destruct T4; constructor; auto|]. exists ts. cbn [o_events with_names]. rewrite E4, E3, E2. auto.
  - change (fold_left (fun (o0 : output) (i : instruction) => execute i o0) b) with (executes b).
    assert (GOAL : forall o1, o_buffering o1 = 1 -> o_text_mode o1 = true -> o_cdata o1 = [] -> o_undefined o1 = false -> o_events o1 = o_events o -> (forall j, o_pending_attribute o1 = Some j -> (j < length (o_atts o1))%nat) -> tstep [] o (end_attribute (executes b o1))).
    { intros o1 B1 X1 C1 U1 E1 P1. destruct (quiet_body b o1) as (ex & es & E & _ & _ & _ & TM); [lia|]. rewrite (TM X1) in E. rewrite E. unfold end_attribute, pop_buffering. cbn [o_buffering quiet]. rewrite B1. cbn [Z.sub Z.add Z.opp Z.pos_sub Z.eqb negb o_pending_attribute with_buffering quiet]. destruct (o_pending_attribute o1) as [j|] eqn:PA.
      - cbn [at_apply o_atts with_buffering quiet]. unfold checked. rewrite (proj2 (Nat.ltb_lt _ _)) by (rewrite app_length; specialize (P1 j eq_refl); lia). apply tstep_none; [constructor; auto|]. cbn. rewrite app_nil_r. exact E1.
      - apply tstep_none; [constructor; auto|]. cbn. rewrite app_nil_r. exact E1. }
    unfold start_attribute, push_buffering. rewrite (t_buffering o T). cbn [Z.eqb negb]. change (0 + 1) with 1. destruct T as [T1 T2 T3 T4 T5]. cbn [o_pending_element with_buffer with_buffering]. destruct (o_pending_element o); cbn [negb].
    + apply GOAL; auto. intros j J. cbn [with_pending_attribute o_pending_attribute] in J. unfold index_of_q in J. apply find_pos_first in J. destruct J as ((a & NA & _) & _). cbn [o_atts with_atts with_pending_attribute]. apply nth_error_Some. congruence.
    + apply GOAL; auto. intros j J. cbn in J. congruence.
  - unfold add_attribute. destruct (o_pending_element o); cbn [negb]; apply tstep_none; auto. destruct T; constructor; auto.
  - unfold disable_output_escaping. assert (CH : forall o, TI o -> tstep c o (characters c o)).
    { clear. intros o T. unfold characters. rewrite (t_buffering o T). cbn [Z.eqb negb]. rewrite (text_flush o (t_text o T)), (t_attribute o T). rewrite no_cdata by (exact (t_cdata o T)). assert (G : forall o', TI o' -> o_events o' = o_events o -> tstep c o (emit (Chars c) o')). { intros o' T' E. split; [destruct T'; constructor; auto|]. exists [c]. cbn. rewrite E, app_nil_r. auto. } destruct (o_pending_text o); apply G; auto. destruct T; constructor; auto. }
    destruct d; [|apply CH; exact T]. rewrite (t_text o T). pose proof (CH o T) as G. pose proof G as (T1 & _). rewrite (t_text _ T1). exact G.
  - change (fold_left (fun (o0 : output) (i : instruction) => execute i o0) b) with (executes b). unfold start_comment, push_buffering. rewrite (t_buffering o T). cbn [Z.eqb negb]. change (0 + 1) with 1. rewrite flush_current_buffer, (text_flush_current o (t_text o T) (t_cdata o T)). set (o1 := if o_pending_text o then with_pending_text false o else o). assert (T1 : TI o1 /\ o_events o1 = o_events o) by (unfold o1; destruct T; destruct (o_pending_text o); split; auto; constructor; auto). destruct T1 as (T1 & E1).
    destruct (quiet_body b (with_buffer [] (with_buffering 1 o1))) as (ex & es & E & _ & _ & _ & TM); [cbn; lia|]. rewrite (TM (t_text o1 T1)) in E. rewrite E. unfold end_comment, pop_buffering. cbn [o_buffering quiet with_buffer with_buffering Z.sub Z.add Z.opp Z.pos_sub Z.eqb negb o_text_mode]. rewrite (t_text o1 T1). apply tstep_none; [destruct T1; constructor; auto|]. cbn. rewrite app_nil_r. exact E1.
  - change (fold_left (fun (o0 : output) (i : instruction) => execute i o0) b) with (executes b). unfold start_pi, push_buffering. rewrite (t_buffering o T). cbn [Z.eqb negb]. change (0 + 1) with 1. rewrite flush_current_buffer, (text_flush_current o (t_text o T) (t_cdata o T)). set (o1 := if o_pending_text o then with_pending_text false o else o). assert (T1 : TI o1 /\ o_events o1 = o_events o) by (unfold o1; destruct T; destruct (o_pending_text o); split; auto; constructor; auto). destruct T1 as (T1 & E1).
    destruct (quiet_body b (with_target t (with_buffer [] (with_buffering 1 o1)))) as (ex & es & E & _ & _ & _ & TM); [cbn; lia|]. rewrite (TM (t_text o1 T1)) in E. rewrite E. unfold end_pi, pop_buffering. cbn [o_buffering quiet with_target with_buffer with_buffering Z.sub Z.add Z.opp Z.pos_sub Z.eqb negb o_text_mode]. rewrite (t_text o1 T1). apply tstep_none; [destruct T1; constructor; auto|]. cbn. rewrite app_nil_r. exact E1.
Qed.
Lemma text_lemma : forall l d, exists ts, o_events (executes l (new_output true d [])) = Escaping true :: map Chars ts /\ concat ts = concat (map string_value l).
Proof.
  intros l d. destruct (text_body l (proj2 (Forall_forall _ l) (fun i _ => text_step i)) (new_output true d [])) as (_ & (ts & E & C)); [constructor; auto|]. exists ts. split; [exact E|exact C].
Qed.
