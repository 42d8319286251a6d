(** What handles are for: an object is there as long as something refers to it or to its
    family, and goes when nothing does any more. *)
From Verif.Model Require Import Base Handles.

(** What keeps an object alive: a node lives as long as its document. *)
Definition keeper (s : hstate) (i : nat) : option nat :=
  match o_kind (h_objs s i) with
  | ODocument | OShared | OTagList => Some i
  | ONode => o_owner (h_objs s i)
  | ODocType => match o_owner (h_objs s i) with Some d => Some d | None => Some i end
  | OTypeMap => match o_owner (h_objs s (o_host (h_objs s i))) with Some d => Some d | None => Some (o_host (h_objs s i)) end
  | OStatic => None
  end.
(** A handle on [i] holds [c]: its keeper, and for a list of elements also the document. *)
Definition holds (s : hstate) (i c : nat) : Prop :=
  keeper s i = Some c \/ (o_kind (h_objs s i) = OTagList /\ o_owner (h_objs s i) = Some c).
Definition held (s : hstate) (c : nat) : Prop := exists v i, In (v, Some i) (h_vars s) /\ holds s i c.
(** The state after any history: what is referred to is there, what is not is deleted. *)
Definition handles_ok (s : hstate) : Prop :=
  (forall v i, In (v, Some i) (h_vars s) -> alive s i = true) /\
  (forall i c, keeper s i = Some c -> (alive s i = false <-> o_used (h_objs s c) = true /\ ~ held s c)).
(** What a program may do: variables are declared once and before use, a pointer put into
    a new handle is that of an object that is there, a document type is given to a document
    once. *)
Definition hop_ok (s : hstate) (o : hop) : Prop :=
  match o with
  | HRaw v i => declared s v = false /\ alive s i = true /\ (forall d, o_owner (h_objs s i) = Some d -> alive s d = true) /\
      (o_kind (h_objs s i) = OTypeMap -> o_owner (h_objs s (o_host (h_objs s i))) <> None)
  | HEmpty v => declared s v = false
  | HCopy v u => declared s v = false /\ declared s u = true
  | HAssign v u => declared s v = true /\ declared s u = true /\ v <> u
  | HDestroy v => declared s v = true
  | HAdopt t d => o_kind (h_objs s t) = ODocType /\ o_owner (h_objs s t) = None /\ o_kind (h_objs s d) = ODocument /\
      alive s t = true /\ alive s d = true
  end.
(** The documents of nodes and lists are documents, the hosts of maps document types. *)
Definition sound_objs (kinds : nat -> okind) (docs hosts : nat -> nat) : Prop :=
  (forall i, kinds i = ONode \/ kinds i = OTagList -> kinds (docs i) = ODocument) /\
  (forall i, kinds i = OTypeMap -> kinds (hosts i) = ODocType).
Fixpoint allowed (s : hstate) (ops : list hop) : Prop :=
  match ops with
  | [] => True
  | o :: r => hop_ok s o /\ forall s1, hstep s o = Fine s1 -> allowed s1 r
  end.
