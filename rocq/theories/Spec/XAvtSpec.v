(** Attribute value templates, XSLT 1.0 section 7.6.2. *)
From Verif.Model Require Import Base XNode XAxis XCompare XStep XSort XEval.
From Verif.Spec Require Import XStepSpec XEvalSpec XParseSpec.
From Coq Require Import Floats.SpecFloat.
From Coq Require Import List. Import ListNotations. Open Scope Z_scope.

(** What a template is made of: characters that stand for themselves, and expressions whose
    values are put in. *)
Inductive piece := Words (s : str) | Value (e : expr).
Definition brace (c : Z) : Prop := c = 123 \/ c = 125.
(** Expressions are between braces; a brace that is to stay is written twice.  (A run of other
    characters is taken as a whole.) *)
Inductive template_written (uri : str -> option str) (number : str -> option spec_float) : str -> list piece -> Prop :=
  | no_piece : template_written uri number [] []
  | left_brace r l : template_written uri number r l -> template_written uri number (123 :: 123 :: r) (Words [123] :: l)
  | right_brace r l : template_written uri number r l -> template_written uri number (125 :: 125 :: r) (Words [125] :: l)
  | value_between s e r l : expression_written uri number s e -> template_written uri number r l ->
      template_written uri number (123 :: s ++ 125 :: r) (Value e :: l)
  | run_of_words s r l : s <> [] -> Forall (fun c => ~ brace c) s -> r = [] \/ begins brace r -> template_written uri number r l ->
      template_written uri number (s ++ r) (Words s :: l).
(** "The result is obtained by replacing each expression, with its braces, by the string it is
    converted to as by the string function." *)
Definition piece_gives (c : conversions) (f : forest) (vars : str -> str -> value -> Prop) (x : xnode) (position last : Z) (q : piece) (t : str) : Prop :=
  match q with
  | Words s => t = s
  | Value e => exists v, means c f vars e x position last v /\ as_text c f v t
  end.
Definition template_gives (c : conversions) (f : forest) (vars : str -> str -> value -> Prop) (l : list piece) (x : xnode) (position last : Z) (t : str) : Prop :=
  exists ts, Forall2 (piece_gives c f vars x position last) l ts /\ t = concat ts.
