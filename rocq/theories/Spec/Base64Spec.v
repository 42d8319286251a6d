(** RFC 4648 section 4, written with arithmetic on groups of three bytes. *)
From Coq Require Import String Ascii List ZArith.
Import ListNotations.
Open Scope Z_scope.

Definition alphabet : list Z :=
  map (fun a => Z.of_nat (nat_of_ascii a))
      (list_ascii_of_string
         "ABCDEFGHIJKLMNOPQRSTUVWXYZabcdefghijklmnopqrstuvwxyz0123456789+/"%string).

(** The character for the six bit value [v]. *)
Definition digit (v : Z) : Z := nth (Z.to_nat v) alphabet 0.

Definition eq_sign : Z := 61.

Fixpoint rfc_encode (s : list Z) : list Z :=
  match s with
  | [] => []
  | [a] => [digit (a / 4); digit (a mod 4 * 16); eq_sign; eq_sign]
  | [a; b] => [digit (a / 4); digit (a mod 4 * 16 + b / 16);
               digit (b mod 16 * 4); eq_sign]
  | a :: b :: c :: r =>
      digit (a / 4) :: digit (a mod 4 * 16 + b / 16)
      :: digit (b mod 16 * 4 + c / 64) :: digit (c mod 64) :: rfc_encode r
  end.

(** A byte string: every element is 0..255. *)
Definition bytes (s : list Z) : Prop := Forall (fun x => 0 <= x < 256) s.

(** A whole number of three byte groups, or a last byte other than zero. *)
Definition ends_cleanly (s : list Z) : Prop :=
  (Nat.modulo (List.length s) 3 = 0)%nat \/ last s 1 <> 0.
