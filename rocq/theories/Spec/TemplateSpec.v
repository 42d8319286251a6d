(** XSLT 1.0, sections 5.5, 5.6 and 6: which template is used.  [v] lists the stylesheets of an
    import tree with their templates, those of lower precedence first (see PrecedenceSpec.v). *)
From Coq Require Import SpecFloat.
From Verif.Model Require Import Base XNode Precedence Template.
From Verif.Spec Require Import PrecedenceSpec.

(** A template whose pattern has alternatives is as many rules. *)
Definition rules (own : list template) : list (pattern * template) := concat (map (fun t => map (fun p => (p, t)) (tm_patterns t)) own).
Definition applicable (mode : str) (x : xnode) (r : pattern * template) : Prop := p_matches (fst r) x = true /\ tm_mode (snd r) = mode.
(** [t] is to be applied to [x], of the stylesheets in [scope]: none of higher precedence has a
    rule for it, none in its own stylesheet has higher priority, and none after it has the same
    priority. *)
Definition applied (v : list (address * list template)) (scope : address -> Prop) (mode : str) (x : xnode) (t : template) (a : address) : Prop :=
  exists lower own higher, v = lower ++ (a, own) :: higher /\ scope a /\
  (forall b o r, In (b, o) higher -> scope b -> In r (rules o) -> ~ applicable mode x r) /\
  exists before p after, rules own = before ++ (p, t) :: after /\ applicable mode x (p, t) /\
  (forall r, In r before -> applicable mode x r -> SFltb (p_priority p) (p_priority (fst r)) = false) /\
  (forall r, In r after -> applicable mode x r -> SFltb (p_priority (fst r)) (p_priority p) = true).
(** There is no rule at all. *)
Definition none_applicable (v : list (address * list template)) (scope : address -> Prop) (mode : str) (x : xnode) : Prop :=
  forall b o r, In (b, o) v -> scope b -> In r (rules o) -> ~ applicable mode x r.
(** [t] is the template with that name of highest precedence, and the only one of this
    precedence. *)
Definition named (v : list (address * list template)) (name : str) (t : template) : Prop :=
  exists lower a own higher, v = lower ++ (a, own) :: higher /\ (forall b o u, In (b, o) higher -> In u o -> tm_name u <> name) /\
  exists before after, own = before ++ t :: after /\ tm_name t = name /\ forall u, In u before \/ In u after -> tm_name u <> name.
(** No two templates of a stylesheet have the same name. *)
Definition distinct_names (own : list template) : Prop :=
  forall l1 t l2 u l3, own = l1 ++ t :: l2 ++ u :: l3 -> tm_name t = tm_name u -> tm_name t = [].
Definition no_nan (own : list template) : Prop := forall r, In r (rules own) -> p_priority (fst r) <> S754_nan.
