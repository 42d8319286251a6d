(** C73: byte streams inside input sources. *)
From Verif.Model Require Import Base StreamHandle.
From Verif.Spec Require Import StreamHandleSpec.
From Verif.Proof Require Import StreamHandleProof.

(** However handles are made, copied, assigned, released and destroyed: reading always reads
    the stream the handle holds, and streams are destroyed as the specification says; when no
    handles are left, no counter is.  Missing: assigning a handle to itself, see below. *)
Theorem C73_follows_partial : forall ops W answers,
  happens nobody ops W answers -> (forall v, ~ In (Assign v v) ops) ->
  exists m, run ops start = Val (m, answers) /\ m_deleted m = destroyed W /\
    (held_ W = [] -> forall c, m_counters m c = None).
Proof. exact follows_lemma. Qed.
Print Assumptions C73_follows_partial.

(** What the specification comes to: no stream is destroyed twice; only streams that were given
    are destroyed, and these just if no handle holds them any more; those lent never are. *)
Theorem C73_once : forall ops W answers, happens nobody ops W answers ->
  NoDup (destroyed W) /\
  (forall s, In s (destroyed W) -> In s (gifts W)) /\
  (forall s, In s (gifts W) -> In s (destroyed W) <-> forall v, ~ In (v, Given s) (held_ W)) /\
  (forall v s, In (v, Lent s) (held_ W) -> ~ In s (destroyed W)).
Proof. exact once_lemma. Qed.
Print Assumptions C73_once.

(** Two sources share a stream; the first then gets another one, and the second is destroyed. *)
Definition shared : list op := [MakeGiven 0 (Some 7%nat); Copy 1 0; AssignLent 0 8; Read 1; Read 0; Destroy 1; Destroy 0]%nat.
Example C73_case :
  happens nobody shared (World [] [7%nat] [7%nat]) [None; None; None; Some 7%nat; Some 8%nat; None; None]
  /\ obind (run shared start) (fun '(m, l) => Val (m_deleted m, l)) = Val ([7%nat], [None; None; None; Some 7%nat; Some 8%nat; None; None]).
Proof.
  split; [|vm_compute; reflexivity]. unfold shared.
  apply (H_next _ _ (World [(0%nat, Given 7)] [7%nat] [])).
  { apply (D_make_given nobody 0 (Some 7%nat) [(0%nat, Given 7)]).
    - intros t [].
    - split; [intros []|intros v []].
    - intros w u. cbn. split; [intros [[= <- <-]|[]]; auto|intros [[-> ->]|[_ []]]; auto].
    - split; [reflexivity|]. split; [reflexivity|]. left. split; [reflexivity|intros s v []]. }
  apply (H_next _ _ (World [(1%nat, Given 7); (0%nat, Given 7)] [7%nat] [])).
  { apply (D_copy (World [(0%nat, Given 7)] [7%nat] []) 1 0 (Given 7) [(1%nat, Given 7); (0%nat, Given 7)]).
    - intros t [[=]|[]].
    - left. reflexivity.
    - intros w u. cbn. split; [intros [[= <- <-]|[[= <- <-]|[]]]; auto|intros [[-> ->]|[_ [[= <- <-]|[]]]]; auto].
    - split; [reflexivity|]. split; [reflexivity|]. left. split; [reflexivity|]. intros s v [[= <- <-]|[]]. exists 1%nat. left. reflexivity. }
  apply (H_next _ _ (World [(0%nat, Lent 8); (1%nat, Given 7)] [7%nat] [])).
  { apply (D_assign_lent (World [(1%nat, Given 7); (0%nat, Given 7)] [7%nat] []) 0 8 [(0%nat, Lent 8); (1%nat, Given 7)]).
    - exists (Given 7). right. left. reflexivity.
    - intros [[=]|[]].
    - intros w u. cbn. split; [intros [[= <- <-]|[[= <- <-]|[]]]; auto|intros [[-> ->]|[N [[= <- <-]|[[= <- <-]|[]]]]]; auto; contradiction].
    - split; [reflexivity|]. split; [reflexivity|]. left. split; [reflexivity|]. intros s v [[= <- <-]|[[= <- <-]|[]]]; exists 1%nat; right; left; reflexivity. }
  eapply H_next; [eapply D_read; [right; left; reflexivity|right; reflexivity]|].
  eapply H_next; [eapply D_read; [left; reflexivity|left; reflexivity]|].
  apply (H_next _ _ (World [(0%nat, Lent 8)] [7%nat] [7%nat])).
  { apply (D_destroy (World [(0%nat, Lent 8); (1%nat, Given 7)] [7%nat] []) 1 [(0%nat, Lent 8)]).
    - exists (Given 7). right. left. reflexivity.
    - intros w u. cbn. split; [intros [[= <- <-]|[]]; auto|intros [N [[= <- <-]|[[= <- <-]|[]]]]; auto; contradiction].
    - split; [reflexivity|]. split; [reflexivity|]. right. exists 7%nat, 1%nat. split; [reflexivity|]. split; [right; left; reflexivity|].
      split; [intros w [[=]|[]]|]. intros r w N [[=]|[[= <- <-]|[]]]. contradiction. }
  apply (H_next _ _ (World [] [7%nat] [7%nat])); [|apply H_nil].
  apply (D_destroy (World [(0%nat, Lent 8)] [7%nat] [7%nat]) 0 []).
  - exists (Lent 8). left. reflexivity.
  - intros w u. cbn. split; [intros []|intros [N [[= <- <-]|[]]]; contradiction].
  - split; [reflexivity|]. split; [reflexivity|]. left. split; [reflexivity|]. intros s v [[=]|[]].
Qed.

(** A handle assigned to itself loses its stream, which is never destroyed; and the handle
    cannot be copied any more. *)
Lemma self_said : happens nobody [MakeGiven 0 (Some 7); Assign 0 0; Read 0; Destroy 0]%nat (World [] [7%nat] [7%nat]) [None; None; Some 7%nat; None].
Proof.
  apply (H_next _ _ (World [(0%nat, Given 7)] [7%nat] [])).
  { apply (D_make_given nobody 0 (Some 7%nat) [(0%nat, Given 7)]).
    - intros t [].
    - split; [intros []|intros v []].
    - intros w u. cbn. split; [intros [[= <- <-]|[]]; auto|intros [[-> ->]|[_ []]]; auto].
    - split; [reflexivity|]. split; [reflexivity|]. left. split; [reflexivity|intros s v []]. }
  apply (H_next _ _ (World [(0%nat, Given 7)] [7%nat] [])).
  { apply (D_assign (World [(0%nat, Given 7)] [7%nat] []) 0 0 (Given 7) [(0%nat, Given 7)]).
    - exists (Given 7). left. reflexivity.
    - left. reflexivity.
    - intros w u. cbn. split; [intros [[= <- <-]|[]]; auto|intros [[-> ->]|[N [[= <- <-]|[]]]]; auto].
    - split; [reflexivity|]. split; [reflexivity|]. left. split; [reflexivity|]. intros s v I. eauto. }
  eapply H_next; [eapply D_read; [left; reflexivity|right; reflexivity]|].
  apply (H_next _ _ (World [] [7%nat] [7%nat])); [|apply H_nil].
  apply (D_destroy (World [(0%nat, Given 7)] [7%nat] []) 0 []).
  - exists (Given 7). left. reflexivity.
  - intros w u. cbn. split; [intros []|intros [N [[= <- <-]|[]]]; contradiction].
  - split; [reflexivity|]. split; [reflexivity|]. right. exists 7%nat, 0%nat. split; [reflexivity|]. split; [left; reflexivity|].
    split; [intros w []|]. intros r w N [[= <- <-]|[]]. contradiction.
Qed.
Theorem C73_self_refuted :
  happens nobody [MakeGiven 0 (Some 7); Assign 0 0; Read 0; Destroy 0]%nat (World [] [7%nat] [7%nat]) [None; None; Some 7%nat; None]
  /\ obind (run [MakeGiven 0 (Some 7); Assign 0 0; Read 0; Destroy 0]%nat start) (fun '(m, l) => Val (m_deleted m, l))
     = Val ([], [None; None; None; None])
  /\ run [MakeGiven 0 (Some 7); Assign 0 0; Copy 1 0]%nat start = UB.
Proof. split; [exact self_said|]. split; reflexivity. Qed.
Print Assumptions C73_self_refuted.

(** A source whose own stream is lent to it (setByteStream of what getByteStream gave) destroys
    it first. *)
Theorem C73_own_refuted : run [MakeGiven 0 (Some 7); AssignLent 0 7; Read 0]%nat start = UB.
Proof. reflexivity. Qed.
Print Assumptions C73_own_refuted.
