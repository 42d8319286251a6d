From Verif.Model Require Import Base Handles.
From Verif.Spec Require Import HandlesSpec.
From Verif.Proof Require Import Tac HandlesProof.

(** Whatever a program does with handles - construct, copy, assign, destroy them, give a
    document type to a document - no deleted object is ever touched, every object a handle
    refers to is there, and an object is deleted exactly when what keeps it (its document,
    or itself) has been referred to and no handle refers to it any more.  Partial: a handle
    may not be assigned to itself, and no handle may be taken on the entities or notations
    of a document type which has no document yet (see the refutations). *)
Theorem C33_handles_partial : forall kinds docs hosts, sound_objs kinds docs hosts ->
  forall ops, allowed (fresh_objs kinds docs hosts) ops ->
  exists s, hrun (fresh_objs kinds docs hosts) ops = Fine s /\ handles_ok s.
Proof. exact handles_lemma. Qed.
Print Assumptions C33_handles_partial.

(** A document 0, an element 1 of it, a list of its elements 2, a document type 3 with its
    map of entities 4, an event 5. *)
Definition kinds (i : nat) : okind := nth i [ODocument; ONode; OTagList; ODocType; OTypeMap; OShared] OStatic.
Definition docs (i : nat) : nat := 0%nat.
Definition hosts (i : nat) : nat := 3%nat.
Definition begin : hstate := fresh_objs kinds docs hosts.
Example C33_cast : sound_objs kinds docs hosts.
Proof.
  split; [reflexivity|]. intros i K. reflexivity.
Qed.
Definition alive_after (ops : list hop) (i : nat) : option bool :=
  match hrun begin ops with Fine s => Some (alive s i) | Dangling => None end.
Definition session : list hop :=
  [HRaw 0 3; HRaw 1 0; HAdopt 3 0; HRaw 2 1; HRaw 3 2; HCopy 4 2; HRaw 5 5; HEmpty 6; HAssign 6 5;
   HDestroy 5; HDestroy 1; HDestroy 0; HAssign 2 6; HDestroy 3].
(** A decision procedure for [allowed], to show it of examples. *)
Definition kind_eqb (a b : okind) : bool :=
  match a, b with
  | ODocument, ODocument | OShared, OShared | ONode, ONode | ODocType, ODocType | OTypeMap, OTypeMap | OTagList, OTagList | OStatic, OStatic => true
  | _, _ => false
  end.
Definition none (o : option nat) : bool := match o with None => true | Some _ => false end.
Definition op_check (s : hstate) (o : hop) : bool :=
  match o with
  | HRaw v i => negb (declared s v) && alive s i && match o_owner (h_objs s i) with Some d => alive s d | None => true end &&
      negb (kind_eqb (o_kind (h_objs s i)) OTypeMap && none (o_owner (h_objs s (o_host (h_objs s i)))))
  | HEmpty v => negb (declared s v)
  | HCopy v u => negb (declared s v) && declared s u
  | HAssign v u => declared s v && declared s u && negb (Nat.eqb v u)
  | HDestroy v => declared s v
  | HAdopt t d => kind_eqb (o_kind (h_objs s t)) ODocType && none (o_owner (h_objs s t)) && kind_eqb (o_kind (h_objs s d)) ODocument && alive s t && alive s d
  end.
Fixpoint check (s : hstate) (ops : list hop) : bool :=
  match ops with [] => true | o :: r => op_check s o && match hstep s o with Fine s1 => check s1 r | Dangling => true end end.
Lemma kind_eqb_eq : forall a b, kind_eqb a b = true -> a = b. Proof. intros [] []; (reflexivity || discriminate). Qed.
Lemma none_eq : forall o, none o = true -> o = None. Proof. intros []; (reflexivity || discriminate). Qed.
Lemma op_check_ok : forall s o, op_check s o = true -> hop_ok s o.
Proof.
  intros s o C. destruct o as [v i|v|v u|v u|v|t d]; cbn [op_check hop_ok] in *; bsplit; repeat split; auto.
  - intros d E. rewrite E in *. assumption.
  - intros K E. rewrite K, E in *. discriminate.
  - apply Nat.eqb_neq. assumption.
  - apply kind_eqb_eq. assumption.
  - apply none_eq. assumption.
  - apply kind_eqb_eq. assumption.
Qed.
Lemma check_ok : forall ops s, check s ops = true -> allowed s ops.
Proof.
  induction ops as [|o r IH]; intros s C; cbn [check allowed] in *; auto. bsplit. split; [apply op_check_ok; assumption|].
  intros s1 E. rewrite E in *. auto.
Qed.
Definition result (ops : list hop) : hstate := match hrun begin ops with Fine s => s | Dangling => begin end.
Lemma result_ok : forall ops, match hrun begin ops with Fine _ => true | Dangling => false end = true -> hrun begin ops = Fine (result ops).
Proof. intros ops. unfold result. destruct (hrun begin ops); [reflexivity|discriminate]. Qed.
Example C33_session : allowed begin session /\ alive_after session 1 = Some true /\ alive_after session 2 = Some false /\
  alive_after (session ++ [HDestroy 4]) 0 = Some false /\ alive_after (session ++ [HDestroy 4]) 1 = Some false /\
  alive_after (session ++ [HDestroy 4]) 3 = Some false /\ alive_after (session ++ [HDestroy 4]) 5 = Some true.
Proof.
  split; [apply check_ok; vm_compute; reflexivity|]. repeat split; vm_compute; reflexivity.
Qed.

(** A handle that is the last one cannot be assigned to itself: whatever went before, setImpl
    first gives up the object, which deletes it, and then takes hold of it again
    (Proxy.hpp:20-24, 54-66). *)
Theorem C33_self_assignment : forall kinds docs hosts, sound_objs kinds docs hosts ->
  forall ops s, allowed (fresh_objs kinds docs hosts) ops -> hrun (fresh_objs kinds docs hosts) ops = Fine s ->
  forall v i c, In (v, Some i) (h_vars s) -> keeper s i = Some c ->
  (forall u j, In (u, Some j) (h_vars s) -> holds s j c -> u = v) -> hstep s (HAssign v v) = Dangling.
Proof. exact self_reached. Qed.
Print Assumptions C33_self_assignment.
Theorem C33_self_refuted : exists ops, hrun begin ops = Dangling /\ ops = [HRaw 0 0; HAssign 0 0].
Proof. eexists. split; [|reflexivity]. vm_compute. reflexivity. Qed.
Print Assumptions C33_self_refuted.
(** A handle on the entities of a document type is not counted before there is a document and
    is when it goes: the document is deleted while a handle still refers to it. *)
Theorem C33_type_map_refuted : exists ops s, hrun begin ops = Fine s /\ In (2%nat, Some 0%nat) (h_vars s) /\ alive s 0 = false /\
  hstep s (HCopy 3 2) = Dangling /\ ops = [HRaw 0 3; HRaw 1 4; HRaw 2 0; HAdopt 3 0; HDestroy 1; HDestroy 0].
Proof.
  exists [HRaw 0 3; HRaw 1 4; HRaw 2 0; HAdopt 3 0; HDestroy 1; HDestroy 0], (result [HRaw 0 3; HRaw 1 4; HRaw 2 0; HAdopt 3 0; HDestroy 1; HDestroy 0]).
  split; [apply result_ok; vm_compute; reflexivity|]. split; [vm_compute; auto|]. split; [vm_compute; reflexivity|]. split; [vm_compute; reflexivity|reflexivity].
Qed.
Print Assumptions C33_type_map_refuted.
(** Nor does such a handle keep the document type: with the last handle on that, the map is gone. *)
Theorem C33_type_map_gone_refuted : exists ops s, hrun begin ops = Fine s /\ In (1%nat, Some 4%nat) (h_vars s) /\ alive s 4 = false /\
  ops = [HRaw 0 3; HRaw 1 4; HDestroy 0].
Proof.
  exists [HRaw 0 3; HRaw 1 4; HDestroy 0], (result [HRaw 0 3; HRaw 1 4; HDestroy 0]).
  split; [apply result_ok; vm_compute; reflexivity|]. split; [vm_compute; auto|]. split; [vm_compute; reflexivity|reflexivity].
Qed.
Print Assumptions C33_type_map_gone_refuted.
