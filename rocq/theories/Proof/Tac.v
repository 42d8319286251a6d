(** Arithmetic set-up shared by the proofs. *)
From Coq Require Export List ZArith Bool Lia ZifyBool ZifyNat.
Export ListNotations.
Open Scope Z_scope.
Ltac Zify.zify_post_hook ::= Z.div_mod_to_equations.

(** All integers in [0, n), for finite sweeps. *)
Fixpoint zfrom (a : Z) (n : nat) : list Z :=
  match n with O => [] | S n' => a :: zfrom (a + 1) n' end.
Definition zrange (n : nat) : list Z := zfrom 0 n.
Lemma zfrom_in n : forall a x, a <= x < a + Z.of_nat n -> In x (zfrom a n).
Proof.
  induction n as [|n IH]; intros a x H; [lia|]. cbn [zfrom].
  destruct (Z.eq_dec x a) as [->|Hne]; [left; reflexivity|right].
  apply IH. lia.
Qed.
Lemma zrange_in n x : 0 <= x < Z.of_nat n -> In x (zrange n).
Proof. intros H. apply zfrom_in. lia. Qed.
Lemma sweep1 (n : nat) (P : Z -> bool) :
  forallb P (zrange n) = true -> forall x, 0 <= x < Z.of_nat n -> P x = true.
Proof.
  intros H x Hx. rewrite forallb_forall in H. apply H, zrange_in, Hx.
Qed.
Lemma sweep2 (n m : nat) (P : Z -> Z -> bool) :
  forallb (fun x => forallb (P x) (zrange m)) (zrange n) = true ->
  forall x y, 0 <= x < Z.of_nat n -> 0 <= y < Z.of_nat m -> P x y = true.
Proof.
  intros H x y Hx Hy. apply sweep1 with (x := x) in H; [|exact Hx].
  cbv beta in H. apply sweep1 with (x := y) in H; [|exact Hy]. exact H.
Qed.
Ltac bsplit := repeat match goal with
  | H : (_ && _)%bool = true |- _ => apply andb_true_iff in H; destruct H
  | H : (_ || _)%bool = false |- _ => apply orb_false_iff in H; destruct H
  | H : negb _ = true |- _ => apply negb_true_iff in H
  | H : negb _ = false |- _ => apply negb_false_iff in H
  end.
Lemma app_len_inj {A} (a : list A) : forall p x y,
  a ++ x = p ++ y -> length a = length p -> a = p /\ x = y.
Proof.
  induction a as [|h a IH]; intros [|k p] x y E L; cbn in *; try discriminate; [auto|].
  inversion E; subst. destruct (IH p x y) as (-> & ->); auto.
Qed.
