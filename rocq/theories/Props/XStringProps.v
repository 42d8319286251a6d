From Coq Require Import String.
From Verif.Model Require Import Base XNumber XString.
From Verif.Spec Require Import XNumberSpec XStringSpec.
From Verif.Proof Require Import XNumberProof XIntProof XStringProof.
From Verif.Props Require Import FilterProps.
From Coq Require Import List.
Import ListNotations.
Open Scope Z_scope.

(** * starts-with, contains, substring-before, substring-after *)
Theorem C41_starts_with : forall value start, exists b, starts_with value start = Val b /\ (b = true <-> exists y, value = start ++ y).
Proof. exact starts_with_ok. Qed.
Print Assumptions C41_starts_with.
Theorem C41_contains : forall value what, contains value what = true <-> exists x y, value = x ++ what ++ y.
Proof. exact contains_ok. Qed.
Print Assumptions C41_contains.
Theorem C41_substring_before : forall value split, (forall x y, splits value split x y -> substring_before value split = x) /\ ((forall x y, value <> x ++ split ++ y) -> substring_before value split = []).
Proof. exact before_ok. Qed.
Print Assumptions C41_substring_before.
Theorem C41_substring_after : forall value split, (forall x y, splits value split x y -> substring_after value split = y) /\ ((forall x y, value <> x ++ split ++ y) -> substring_after value split = []).
Proof. exact after_ok. Qed.
Print Assumptions C41_substring_after.
Example C41_some_split : splits (lit "1999/04/01") (lit "/") (lit "1999") (lit "04/01") /\ substring_before (lit "1999/04/01") (lit "/") = lit "1999" /\ substring_after (lit "1999/04/01") (lit "/") = lit "04/01".
Proof.
  split; [|vm_compute; split; reflexivity]. split; [reflexivity|]. intros x y E. do 4 (destruct x as [|? x]; [vm_compute in E; discriminate|injection E as _ E]). cbn. lia.
Qed.
(** concat and string-length. *)
Theorem C41_concat : forall l, concat_strings l = concat l.
Proof.
  assert (G : forall l s, fold_left (fun s a : list Z => s ++ a) l s = s ++ concat l) by (induction l as [|a l IH]; intros s; cbn [fold_left concat]; [rewrite app_nil_r; reflexivity|rewrite IH, app_assoc; reflexivity]). intros l. exact (G l []).
Qed.
Print Assumptions C41_concat.
Theorem C41_string_length : forall s, Z.of_nat (length s) <= 2 ^ 53 -> is_integer (string_length s) (Z.of_nat (length s)).
Proof. intros s H. apply of_Z_int. lia. Qed.
Print Assumptions C41_string_length.

(** * translate *)
(** Each character is replaced as it should.  Partial: after a character that is removed, all the
    others must be in the second argument. *)
Theorem C41_translate_partial : forall a b from to, (forall c, In c a -> In c from -> ~ becomes from to c []) -> (forall c, In c b -> In c from) ->
  exists u, translate (a ++ b) from to = Val u /\ translation from to (a ++ b) u.
Proof. exact translate_ok. Qed.
Print Assumptions C41_translate_partial.
(** [translation] leaves no choice. *)
Theorem C41_one_translation : forall from to s t u, translation from to s t -> translation from to s u -> t = u.
Proof. exact translation_unique. Qed.
Print Assumptions C41_one_translation.
(** The example of the recommendation, and one with a removal at the end. *)
Example C41_some_translate : translate (lit "bar") (lit "abc") (lit "ABC") = Val (lit "BAr") /\ (forall c, In c (lit "bar") -> In c (lit "abc") -> ~ becomes (lit "abc") (lit "ABC") c []) /\
  translate (lit "xa-a") (lit "a-") (lit "b") = Val (lit "xbb") /\ (forall c, In c (lit "a-a") -> In c (lit "a-")).
Proof.
  split; [reflexivity|]. split.
  - intros c _ _ B. inversion B as [| |r A P N]. assert (R : (r < 3)%nat) by (apply nth_error_Some with (l := lit "abc"); congruence). apply nth_error_None in N. cbn in N. lia.
  - split; [reflexivity|]. intros c H. cbn in *. intuition.
Qed.
(** The other example of the recommendation: translate("--aaa--","abc-","ABC") is "AAA".  It is
    when nothing has to be copied; but after a removal a character that stays is replaced by one
    from earlier in the string. *)
Theorem C41_translate_refuted : translate (lit "-b") (lit "-") [] = Val (lit "-") /\ translation (lit "-") [] (lit "-b") (lit "b") /\
  translate (lit "--aaa--") (lit "abc-") (lit "ABC") = Val (lit "AAA").
Proof.
  split; [reflexivity|]. split; [|reflexivity]. apply (translation_more (lit "-") [] 45 [98] [] [98]).
  - apply (removed (lit "-") [] 45 O); [reflexivity|lia|reflexivity].
  - apply (translation_more (lit "-") [] 98 [] [98] []); [|constructor]. apply stays. cbn. lia.
Qed.
Print Assumptions C41_translate_refuted.

(** * substring *)
(** The characters at the positions from round(a) up to, not including, round(a) + round(b).
    Partial: finite numbers that round as they should, to less than 2^52, and a start that is not
    past the end plus one. *)
Theorem C41_substring_partial : forall value a b ka kb, fits value ->
  double a -> finite a -> ~ unlucky a -> rounds_to a ka -> Z.abs ka <= 2 ^ 52 ->
  double b -> finite b -> ~ unlucky b -> rounds_to b kb -> Z.abs kb < 2 ^ 52 ->
  kb < 0 \/ ka - 1 <= Z.of_nat (length value) ->
  exists t, substring value a (Some b) = Text t /\ picked (fun p => ka <= p < ka + kb) 1 value t.
Proof. intros value a b ka kb FV DA FA UA RA BA DB FB UB RB BB D. exact (substring_three value a b ka kb FV (rounds_whole a ka DA FA UA RA) (rounds_whole b kb DB FB UB RB) BA BB D). Qed.
Print Assumptions C41_substring_partial.
(** Without a length, or with an infinite one. *)
Theorem C41_substring_rest_partial : forall value a b ka, fits value ->
  double a -> finite a -> ~ unlucky a -> rounds_to a ka -> Z.abs ka <= 2 ^ 52 ->
  b = None \/ b = Some (S754_infinity false) -> ka - 1 <= Z.of_nat (length value) ->
  exists t, substring value a b = Text t /\ picked (fun p => ka <= p) 1 value t.
Proof. intros value a b ka FV DA FA UA RA BA B D. exact (substring_two value a b ka FV (rounds_whole a ka DA FA UA RA) B BA D). Qed.
Print Assumptions C41_substring_rest_partial.
(** substring("12345", 1.5, 2.6) is "234". *)
Example C41_some_substring : let a := S754_finite false 6755399441055744 (-52) in let b := S754_finite false 5854679515581645 (-51) in
  fits (lit "12345") /\ double a /\ finite a /\ rounds_to a 2 /\ ~ unlucky a /\ double b /\ rounds_to b 3 /\ substring (lit "12345") a (Some b) = Text (lit "234").
Proof.
  cbv zeta. split; [reflexivity|]. split; [reflexivity|]. split; [exact Logic.I|]. split; [vm_compute; intuition congruence|]. split; [|vm_compute; intuition congruence]. intros [E|(k & (_ & E) & _)]; [discriminate|]. change (6755399441055744 = k * 4503599627370496) in E. lia.
Qed.
(** NaN gives nothing. *)
Theorem C41_substring_nan : forall value a b, substring value S754_nan b = Text [] /\ substring value a (Some S754_nan) = Text [].
Proof.
  intros [|c value] a b; split; try reflexivity; cbn [substring]; change (round_number S754_nan) with S754_nan.
  change (fsub S754_nan one) with S754_nan. destruct (round_number _); reflexivity.
Qed.
Print Assumptions C41_substring_nan.

(** A start past the end plus one throws std::out_of_range; the result should be empty. *)
Theorem C41_substring_throws_refuted : forall value a b ka kb, fits value -> value <> [] ->
  double a -> finite a -> ~ unlucky a -> rounds_to a ka -> Z.abs ka <= 2147483647 ->
  double b -> finite b -> ~ unlucky b -> rounds_to b kb -> 0 <= kb < 2 ^ 52 ->
  Z.of_nat (length value) < ka - 1 -> substring value a (Some b) = Throws /\ picked (fun p => ka <= p < ka + kb) 1 value [].
Proof.
  intros value a b ka kb FV NE DA FA UA RA BA DB FB UB RB BB D. split; [exact (substring_throws value a b ka kb FV (rounds_whole a ka DA FA UA RA) (rounds_whole b kb DB FB UB RB) BA BB NE D)|].
  pose proof (picked_range ka (ka + kb) value 1) as P. rewrite skipn_all2, firstn_nil in P by lia. exact P.
Qed.
Print Assumptions C41_substring_throws_refuted.
Example C41_some_throw : substring (lit "abc") (of_Z 5) (Some (of_Z 1)) = Throws /\ substring (lit "abc") (of_Z 5) None = Throws.
Proof. split; reflexivity. Qed.
(** An infinite start is converted to int, undefined behaviour. *)
Theorem C41_substring_undefined_refuted : substring (lit "abc") (S754_infinity false) None = Undefined /\ substring (lit "abc") (S754_infinity false) (Some one) = Undefined.
Proof. split; reflexivity. Qed.
Print Assumptions C41_substring_undefined_refuted.
(** From minus infinity on is the whole string; the code gives nothing. *)
Theorem C41_substring_minus_infinity_refuted : substring (lit "abc") (S754_infinity true) None = Text [].
Proof. reflexivity. Qed.
Print Assumptions C41_substring_minus_infinity_refuted.
