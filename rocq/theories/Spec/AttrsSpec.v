(** Finite maps from (URI, local name) to values, as functions. *)
From Coq Require Import List ZArith.
Import ListNotations.

Definition key := (list Z * list Z)%type.
Definition key_eq (a b : key) : {a = b} + {a <> b}.
Proof. repeat decide equality. Defined.
Definition fmap := key -> option (list Z).
Definition fempty : fmap := fun _ => None.
Definition fput (k : key) (v : list Z) (m : fmap) : fmap :=
  fun k' => if key_eq k k' then Some v else m k'.
