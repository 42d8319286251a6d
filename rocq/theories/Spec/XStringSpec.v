(** XPath 1.0, section 4.2. *)
From Verif.Model Require Import Base.

(** substring-before and -after: value is x, split and y, and no split comes earlier. *)
Definition splits (value split x y : str) : Prop :=
  value = x ++ split ++ y /\ forall x' y', value = x' ++ split ++ y' -> (length x <= length x')%nat.
(** The characters of s whose positions, from n on, are P. *)
Inductive picked (P : Z -> Prop) : Z -> str -> str -> Prop :=
| picked_none : forall n, picked P n [] []
| picked_this : forall n c s t, P n -> picked P (n + 1) s t -> picked P n (c :: s) (c :: t)
| picked_not : forall n c s t, ~ P n -> picked P (n + 1) s t -> picked P n (c :: s) t.
(** translate: what replaces a character. *)
Inductive becomes (from to : str) (c : Z) : str -> Prop :=
| stays : ~ In c from -> becomes from to c [c]
| replaced : forall r d, nth_error from r = Some c -> (forall q, (q < r)%nat -> nth_error from q <> Some c) -> nth_error to r = Some d -> becomes from to c [d]
| removed : forall r, nth_error from r = Some c -> (forall q, (q < r)%nat -> nth_error from q <> Some c) -> nth_error to r = None -> becomes from to c [].
Inductive translation (from to : str) : str -> str -> Prop :=
| translation_none : translation from to [] []
| translation_more : forall c s t u, becomes from to c t -> translation from to s u -> translation from to (c :: s) (t ++ u).
