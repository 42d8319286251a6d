(** What handles to byte streams are: each holds nothing, a stream that was lent to it, or a
    stream that was given to it, and maybe to others.  A stream that was given is destroyed
    when the last handle that holds it lets go of it. *)
From Verif.Model Require Import Base StreamHandle.

Inductive target := Nothing | Lent (s : nat) | Given (s : nat).
Definition held := list (nat * target).
(** [v] holds [t], and the others what they held. *)
Definition now (v : nat) (t : target) (hs hs' : held) : Prop :=
  forall w u, In (w, u) hs' <-> (w = v /\ u = t) \/ (w <> v /\ In (w, u) hs).
Definition no_longer (v : nat) (hs hs' : held) : Prop :=
  forall w u, In (w, u) hs' <-> w <> v /\ In (w, u) hs.
Definition unknown (v : nat) (hs : held) : Prop := forall t, ~ In (v, t) hs.
Definition known (v : nat) (hs : held) : Prop := exists t, In (v, t) hs.
Definition given (o : option nat) : target := match o with Some s => Given s | None => Nothing end.

(** The world: what is held, the streams that were ever given, and those destroyed, last
    first. *)
Record world := World { held_ : held; gifts : list nat; destroyed : list nat }.
(** A unique_ptr has its stream to itself; streams that are lent are not given as well. *)
Definition fresh_gift (o : option nat) (W : world) : Prop :=
  match o with Some s => ~ In s (gifts W) /\ (forall v, ~ In (v, Lent s) (held_ W)) | None => True end.
Definition lends (s : nat) (W : world) : Prop := ~ In s (gifts W).
Definition more (o : option nat) (l : list nat) : list nat := match o with Some s => s :: l | None => l end.
(** The handles change from [hs] to [hs']: what no handle holds any more is destroyed. *)
Definition lets_go (hs hs' : held) (before after : list nat) : Prop :=
  (after = before /\ forall s v, In (v, Given s) hs -> exists w, In (w, Given s) hs') \/
  exists s v, after = s :: before /\ In (v, Given s) hs /\ (forall w, ~ In (w, Given s) hs') /\
    forall r w, r <> s -> In (w, Given r) hs -> exists w', In (w', Given r) hs'.
Definition changes (W : world) (hs : held) (o : option nat) (W' : world) : Prop :=
  held_ W' = hs /\ gifts W' = more o (gifts W) /\ lets_go (held_ W) hs (destroyed W) (destroyed W').

Inductive does : world -> op -> world -> option nat -> Prop :=
| D_make W v hs W' : unknown v (held_ W) -> now v Nothing (held_ W) hs -> changes W hs None W' -> does W (Make v) W' None
| D_make_lent W v s hs W' : unknown v (held_ W) -> lends s W -> now v (Lent s) (held_ W) hs -> changes W hs None W' ->
    does W (MakeLent v s) W' None
| D_make_given W v o hs W' : unknown v (held_ W) -> fresh_gift o W -> now v (given o) (held_ W) hs -> changes W hs o W' ->
    does W (MakeGiven v o) W' None
| D_copy W v w t hs W' : unknown v (held_ W) -> In (w, t) (held_ W) -> now v t (held_ W) hs -> changes W hs None W' ->
    does W (Copy v w) W' None
| D_destroy W v hs W' : known v (held_ W) -> no_longer v (held_ W) hs -> changes W hs None W' -> does W (Destroy v) W' None
| D_assign W v w t hs W' : known v (held_ W) -> In (w, t) (held_ W) -> now v t (held_ W) hs -> changes W hs None W' ->
    does W (Assign v w) W' None
| D_assign_lent W v s hs W' : known v (held_ W) -> lends s W -> now v (Lent s) (held_ W) hs -> changes W hs None W' ->
    does W (AssignLent v s) W' None
| D_assign_given W v o hs W' : known v (held_ W) -> fresh_gift o W -> now v (given o) (held_ W) hs -> changes W hs o W' ->
    does W (AssignGiven v o) W' None
| D_release W v hs W' : known v (held_ W) -> now v Nothing (held_ W) hs -> changes W hs None W' -> does W (Release v) W' None
| D_read_nothing W v : In (v, Nothing) (held_ W) -> does W (Read v) W None
| D_read W v t s : In (v, t) (held_ W) -> t = Lent s \/ t = Given s -> does W (Read v) W (Some s).

Inductive happens : world -> list op -> world -> list (option nat) -> Prop :=
| H_nil W : happens W [] W []
| H_next W o W' a ops W'' l : does W o W' a -> happens W' ops W'' l -> happens W (o :: ops) W'' (a :: l).
Definition nobody : world := World [] [] [].
