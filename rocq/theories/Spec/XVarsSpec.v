(** XSLT 1.0, section 11: what variables and parameters mean. *)
From Verif.Model Require Import Base Template Precedence XVars.

(** The variables that are bound, with their values. *)
Definition env := str -> option str.
Definition nothing : env := fun _ => None.
Definition bind (n v : str) (r : env) : env := fun x => if str_eqb x n then Some v else r x.
(** The parameters that are passed to a template: expressions, and what was bound where they
    stand. *)
Definition args := str -> option (expr * env).
Definition no_args : args := fun _ => None.
Fixpoint args_of (r : env) (withs : list (str * expr)) : args :=
  fun x => match withs with [] => None | (n, e) :: withs => if str_eqb x n then Some (e, r) else args_of r withs x end.

Section Scoping.
(** The templates, and the values of the top level variables. *)
Context (templates : list (str * list instr)) (globals : env).

(** A local binding is preferred to one at top level. *)
Definition reads (r : env) (x v : str) : Prop := r x = Some v \/ r x = None /\ globals x = Some v.

(** A binding is visible to the siblings that follow and to what is in them.  Local bindings do
    not hide one another. *)
Inductive means : env -> expr -> str -> Prop :=
| means_select r refs f vs : Forall2 (reads r) refs vs -> means r (Select refs f) (f vs)
| means_content r l r' out : runs r no_args l r' out -> means r (Content l) (concat out)
with runs : env -> args -> list instr -> env -> list str -> Prop :=
| runs_nil r a : runs r a [] r []
| runs_cons r a i l r1 out1 r2 out2 : acts r a i r1 out1 -> runs r1 a l r2 out2 -> runs r a (i :: l) r2 (out1 ++ out2)
with acts : env -> args -> instr -> env -> list str -> Prop :=
| acts_variable r a n e v : r n = None -> means r e v -> acts r a (XVariable n e) (bind n v r) []
| acts_passed r a n e e' r' v : r n = None -> a n = Some (e', r') -> means r' e' v -> acts r a (XParam n e) (bind n v r) []
| acts_default r a n e v : r n = None -> a n = None -> means r e v -> acts r a (XParam n e) (bind n v r) []
| acts_value r a refs f vs : Forall2 (reads r) refs vs -> acts r a (XValueOf refs f) r [f vs]
| acts_framed r a refs f vs l out : Forall2 (reads r) refs vs -> repeats r (length (f vs)) l out -> acts r a (XFramed refs f l) r out
| acts_unframed r a l r' out : runs r no_args l r' out -> acts r a (XUnframed l) r out
| acts_apply r a withs ts out : NoDup (map fst withs) -> applies (args_of r withs) ts out -> acts r a (XApply withs ts) r out
with repeats : env -> nat -> list instr -> list str -> Prop :=
| repeats_none r l : repeats r O l []
| repeats_more r n l r' out1 out2 : runs r no_args l r' out1 -> repeats r n l out2 -> repeats r (S n) l (out1 ++ out2)
(** A template sees no bindings but those at top level, and only the parameters that are passed
    to it; a built-in template passes none on. *)
with applies : args -> list target -> list str -> Prop :=
| applies_none a : applies a [] []
| applies_template a n b r' out1 l out2 : assoc str_eqb n templates = Some b -> runs nothing a b r' out1 -> applies a l out2 -> applies a (ToTemplate n :: l) (out1 ++ out2)
| applies_built_in a ts out1 l out2 : applies no_args ts out1 -> applies a l out2 -> applies a (ToBuiltIn ts :: l) (out1 ++ out2).
End Scoping.

(** * Which instructions the theorem is about *)
(** No xsl:variable among these instructions, or in such of them as open no frame. *)
Fixpoint declares_nothing (i : instr) : bool :=
  match i with XVariable _ _ | XParam _ _ => false | XUnframed l => forallb declares_nothing l | _ => true end.
(** No xsl:call-template or xsl:apply-templates anywhere in it. *)
Fixpoint calls_nothing (i : instr) : bool :=
  match i with
  | XVariable _ e | XParam _ e => value_calls_nothing e
  | XValueOf _ _ => true
  | XFramed _ _ l | XUnframed l => forallb calls_nothing l
  | XApply _ _ => false
  end
with value_calls_nothing (e : expr) : bool :=
  match e with Select _ _ => true | Content l => forallb calls_nothing l end.
(** xsl:param only at the top of a template; no xsl:variable directly in xsl:copy, xsl:comment,
    xsl:processing-instruction or xsl:message; no templates applied in an xsl:with-param, but for
    the first. *)
Fixpoint plain (top : bool) (i : instr) : bool :=
  match i with
  | XVariable _ e => plain_value e
  | XParam _ e => top && plain_value e
  | XValueOf _ _ => true
  | XFramed _ _ l => forallb (plain false) l
  | XUnframed l => forallb (plain false) l && forallb declares_nothing l
  | XApply withs _ => forallb (fun w => plain_value (snd w)) withs && forallb (fun w => value_calls_nothing (snd w)) (tl withs)
  end
with plain_value (e : expr) : bool :=
  match e with Select _ _ => true | Content l => forallb (plain false) l end.
Definition plain_templates (templates : list (str * list instr)) : Prop := forall n b, assoc str_eqb n templates = Some b -> forallb (plain true) b = true.

(** * Top level variables *)
(** The value of a top level variable all of whose declarations have select expressions. *)
Inductive global_means (g : scope) : str -> str -> Prop :=
| global_select x n p refs f vs : assoc str_eqb x g = Some (Global n p (Select refs f)) -> Forall2 (global_means g) refs vs -> global_means g x (f vs).
(** [x] refers to [y]. *)
Definition refers (g : scope) (x y : str) : Prop := exists n p refs f, assoc str_eqb x g = Some (Global n p (Select refs f)) /\ In y refs.
(** Directly or not. *)
Inductive refers_to (g : scope) : str -> str -> Prop :=
| refers_once x y : refers g x y -> refers_to g x y
| refers_on x y z : refers g x y -> refers_to g y z -> refers_to g x z.
(** Only select expressions; each under its own name. *)
Definition only_selects (g : scope) : Prop := forall x b, assoc str_eqb x g = Some b -> exists p refs f, b = Global x p (Select refs f).
(** [globals] are the values of all the top level variables. *)
Definition settled (templates : list (str * list instr)) (g : scope) (globals : env) : Prop :=
  forall x, match globals x with
            | None => assoc str_eqb x g = None
            | Some v => exists n p e fuel, assoc str_eqb x g = Some (Global n p e) /\ global_value templates g fuel (Global n p e) = Done [v]
            end.
(** What a declaration stands for when the parameters [user] are set, each of them as it was set
    last. *)
Definition as_set (user : list (str * str)) (d : decl) : binding :=
  match find (fun nv => str_eqb (d_name d) (fst nv)) (rev user) with
  | Some nv => if d_param d then Global (d_name d) initial_precedence (Select [] (fun _ => snd nv)) else Global (d_name d) (d_prec d) (d_expr d)
  | None => Global (d_name d) (d_prec d) (d_expr d)
  end.
(** Of the declarations of a name, [g] has the one with the highest precedence. *)
Definition winners (user : list (str * str)) (ds : list decl) (g : scope) : Prop :=
  forall x, match assoc str_eqb x g with
            | None => forall d, In d ds -> d_name d <> x
            | Some b => exists d, In d ds /\ d_name d = x /\ b = as_set user d
                /\ forall d', In d' ds -> d_name d' = x -> d' = d \/ prec_lt (b_prec (as_set user d')) (b_prec b) = true
            end.
