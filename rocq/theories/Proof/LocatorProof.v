(** Proofs about saved places. *)
From Verif.Model Require Import Base Locator.
From Verif.Spec Require Import LocatorSpec.
From Coq Require Import List ZArith Lia. Import ListNotations. Open Scope Z_scope.

Definition tells (h : list op) (s : lstate) : Prop :=
  l_live s = Place (live [] p_public h) (live [] p_system h) (live unknown p_line h) (live unknown p_column h) /\
  forall v, l_vars s v = Place (saved [] p_public set_public h v) (saved [] p_system set_system h v) (saved unknown p_line set_line h v) (saved unknown p_column set_column h v).
Lemma step_tells : forall h s o s', tells h s -> step s o = Val s' -> tells (o :: h) s'.
Proof.
  intros h s o s' (L & V) E.
  destruct o as [p|v|v|v|v w|v w|v x|v x|v n|v n]; cbn [step] in E; try discriminate; injection E as <-; (split; [try exact L; destruct p; reflexivity|]); intros u; cbn [l_vars l_live]; try apply V; unfold put_place;
    cbn [saved set_public set_system set_line set_column]; destruct (Nat.eqb_spec u v) as [->|N]; try apply V; rewrite ?L, ?V; reflexivity.
Qed.
Lemma run_tells : forall l h s s', tells h s -> run s l = Val s' -> tells (rev l ++ h) s'.
Proof.
  induction l as [|o l IH]; intros h s s' T E; cbn [run rev app] in *; [injection E as <-; exact T|]. destruct (step s o) as [s1| |] eqn:S; cbn [obind] in E; try discriminate. rewrite <- app_assoc. apply (IH (o :: h) s1 s'); [exact (step_tells h s o s1 T S)|exact E].
Qed.
Lemma tells_lemma : forall l s v, run at_start l = Val s -> l_vars s v =
  Place (saved [] p_public set_public (rev l) v) (saved [] p_system set_system (rev l) v) (saved unknown p_line set_line (rev l) v) (saved unknown p_column set_column (rev l) v).
Proof. intros l s v E. pose proof (run_tells l [] at_start s (conj eq_refl (fun _ => eq_refl)) E) as (_ & H). rewrite app_nil_r in H. apply H. Qed.
Lemma runs_lemma : forall l s, (exists s', run s l = Val s') <-> Forall (fun o => ~ is_assignment o) l.
Proof.
  induction l as [|o l IH]; intros s; cbn [run]; [split; [constructor|intros _; exists s; reflexivity]|]. split.
  - intros (s' & E). destruct o; cbn [step obind] in E; try discriminate; (constructor; [intros H; exact H|eapply IH; exists s'; exact E]).
  - intros F. inversion F as [|? ? N F']; subst. destruct o; cbn [step obind]; try (apply IH; exact F'). destruct N. exact I.
Qed.
