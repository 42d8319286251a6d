(** The logical view of a TreeWalker (DOM Level 2 Traversal, 1.2.1): a skipped node is
    replaced by its children, a rejected node is left out with all below it, and the
    children of an entity reference are left out unless entity references are expanded. *)
From Verif.Model Require Import Base Dom TreeWalker.
From Verif.Spec Require Import DomSpec.

Section View.
Context (h : heap) (w : walker).
Definition says_of (n : nat) : verdict := accept_node h w n.
Definition inner (n : nat) : list nat :=
  if tw_expand w then kids h n else match n_kind (h n) with KEntityRef => [] | _ => kids h n end.
(** Visible children of a list of siblings. *)
Inductive shown : list nat -> list nat -> Prop :=
  | shown_nil : shown [] []
  | shown_accept : forall k ks l, says_of k = Accept -> shown ks l -> shown (k :: ks) (k :: l)
  | shown_skip : forall k ks m l, says_of k = Skip -> shown (inner k) m -> shown ks l -> shown (k :: ks) (m ++ l)
  | shown_reject : forall k ks l, says_of k = Reject -> shown ks l -> shown (k :: ks) l.
(** All visible nodes, in document order. *)
Inductive visible : list nat -> list nat -> Prop :=
  | visible_nil : visible [] []
  | visible_accept : forall k ks m l, says_of k = Accept -> visible (inner k) m -> visible ks l -> visible (k :: ks) (k :: m ++ l)
  | visible_skip : forall k ks m l, says_of k = Skip -> visible (inner k) m -> visible ks l -> visible (k :: ks) (m ++ l)
  | visible_reject : forall k ks l, says_of k = Reject -> visible ks l -> visible (k :: ks) l.
(** The closest accepted ancestor that is below the root. *)
Inductive closest : nat -> option nat -> Prop :=
  | closest_root : closest (tw_root w) None
  | closest_top : forall n, In n (kids h (tw_root w)) -> closest n None
  | closest_here : forall n p, n <> tw_root w -> In n (kids h p) -> p <> tw_root w -> says_of p = Accept -> closest n (Some p)
  | closest_up : forall n p r, n <> tw_root w -> In n (kids h p) -> p <> tw_root w -> says_of p <> Accept -> closest p r -> closest n r.
(** The nodes the walker can stand on: the root and the visible nodes. *)
Definition stands (n : nat) : Prop := n = tw_root w \/ exists l, visible (inner (tw_root w)) l /\ In n l.
(** No skipped entity reference hides children. *)
Definition refs_open : Prop := forall n, says_of n = Skip -> inner n = kids h n.
End View.
(** What to show (DOM Level 2 Traversal, the SHOW_ constants of NodeFilter). *)
Definition show_constant (k : nkind) : Z :=
  match k with
  | KElement => 1 | KAttr => 2 | KText => 4 | KCData => 8 | KEntityRef => 16 | KEntity => 32
  | KPI => 64 | KComment => 128 | KDocument => 256 | KDocType => 512 | KFragment => 1024 | KNotation => 2048
  end.
Definition answers (g : nat -> option (option nat)) (r : option nat) : Prop := exists f0, forall f, (f0 <= f)%nat -> g f = Some r.
