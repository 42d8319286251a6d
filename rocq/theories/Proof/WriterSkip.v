(** Where the writer puts the reference to a skipped entity. *)
From Coq Require Import List ZArith.
From Verif.Model Require Import Base Text Sax Writer.
Import ListNotations.
Open Scope Z_scope.

Fixpoint after (indent : nat) (enc : str) (evs : list sax) (st : wstate) : wstate :=
  match evs with [] => st | e :: r => after indent enc r (snd (w_event indent enc e st)) end.
Lemma w_run_app : forall indent enc a b st, w_run indent enc (a ++ b) st = w_run indent enc a st ++ w_run indent enc b (after indent enc a st).
Proof.
  intros indent enc a. induction a as [|e a IH]; intros b st; [reflexivity|]. cbn [app w_run after].
  destruct (w_event indent enc e st) as [t st'] eqn:E. cbn [snd]. rewrite IH, app_assoc. reflexivity.
Qed.
Lemma skipped_written : forall indent enc n a b, is_dtd n = false -> exists t u,
  writer indent enc (a ++ [Characters []]) = t /\ writer indent enc (a ++ Characters [] :: b) = t ++ u /\
  writer indent enc (a ++ SkippedEntity n :: b) = t ++ [38] ++ n ++ [59] ++ u.
Proof.
  intros indent enc n a b D. unfold writer. set (st := after indent enc a w_init).
  exists (w_run indent enc a w_init ++ close_text st), (w_run indent enc b (w_close st)).
  rewrite !w_run_app. fold st. cbn [w_run w_event]. rewrite D.
  assert (E : (if w_in_cdata st then [] else text_escape []) = []) by (destruct (w_in_cdata st); reflexivity). rewrite E, !app_nil_r, <- !app_assoc.
  repeat split.
Qed.
