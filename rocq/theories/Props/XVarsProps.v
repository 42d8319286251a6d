(** C43 and C54: XSLT variables and parameters. *)
From Coq Require Import String.
From Verif.Model Require Import Base Precedence Template XVars.
From Verif.Spec Require Import XVarsSpec.
From Verif.Proof Require Import XVarsProof XVarsGlobals.
From Verif.Props Require Import FilterProps.
From Coq Require Import List. Import ListNotations. Open Scope Z_scope.

(** * C43 *)
(** Once the top level variables have their values, what templates write is what lexical scoping
    says, for templates of any size that call one another to any depth; and afterwards the stack
    is as it was.  [plain_templates] is missing from the property: it leaves out variables
    declared directly in xsl:copy, xsl:comment, xsl:processing-instruction and xsl:message, and
    templates applied in an xsl:with-param that follows another. *)
Theorem C43_scoping_partial : forall tbl g globals user ts out, settled tbl g globals -> plain_templates tbl ->
  (exists fuel, go tbl g fuel [] None (main_context user g) (Targets ts) = Done (main_context user g, out)) <-> applies tbl globals no_args ts out.
Proof. exact scoping_lemma. Qed.
Print Assumptions C43_scoping_partial.
(** Whatever the run gives, it gives with more fuel too. *)
Theorem C43_one_result : forall tbl g fuel fuel' rs w s t r r', go tbl g fuel rs w s t = Done r -> go tbl g fuel' rs w s t = Done r' -> r = r'.
Proof. exact go_same. Qed.
Print Assumptions C43_one_result.
(** A whole transformation. *)
Theorem C43_transform_partial : forall tbl user ds ts fuel out, plain_templates tbl -> transform tbl user ds ts fuel = Done out ->
  exists g globals, winners user ds g /\ settled tbl g globals /\ applies tbl globals no_args ts out.
Proof. exact transform_lemma. Qed.
Print Assumptions C43_transform_partial.
(** Variables with different names, in namespaces or not, are different. *)
Theorem C43_names : forall u1 l1 u2 l2, ~ In 125 u1 -> ~ In 125 u2 -> ~ In 123 l1 -> ~ In 123 l2 -> clark_name u1 l1 = clark_name u2 l2 -> u1 = u2 /\ l1 = l2.
Proof. exact clark_lemma. Qed.
Print Assumptions C43_names.

Definition is (v : string) : expr := Select [] (fun _ => lit v).
Definition same_as (n : string) : expr := Select [lit n] (fun vs => List.concat vs).
Definition write (n : string) : instr := XValueOf [lit n] (fun vs => List.concat vs).
(** A template that shadows a global variable, in a frame that is run three times, and calls
    itself with a parameter. *)
Definition main_body : list instr :=
  [XVariable (lit "a") (is "1");
   XFramed [lit "g"] (fun vs => List.concat vs) [XVariable (lit "b") (same_as "a"); XVariable (lit "g") (is "local"); write "b"; write "g"];
   write "g";
   XApply [(lit "p", Content [XVariable (lit "b") (is "content"); write "b"; write "a"])] [ToTemplate (lit "t"); ToBuiltIn [ToTemplate (lit "t")]]].
Definition t_body : list instr := [XParam (lit "p") (is "default"); XVariable (lit "a") (is "2"); write "p"; write "a"].
Definition sheet : list (str * list instr) := [(lit "main", main_body); (lit "t", t_body)].
Definition sheet_vars : list decl := [Decl false (lit "g") [0] (same_as "h"); Decl true (lit "h") [0; 1] (is "xyz")].
Example sheet_plain : plain_templates sheet.
Proof.
  intros n b H. unfold sheet in H. cbn [assoc] in H. destruct (str_eqb n (lit "main")); [injection H as <-; reflexivity|].
  destruct (str_eqb n (lit "t")); [injection H as <-; reflexivity|discriminate].
Qed.
Example sheet_run : transform sheet [] sheet_vars [ToTemplate (lit "main")] 30 =
  Done (map lit ["1"; "local"; "1"; "local"; "1"; "local"; "xyz"; "content1"; "2"; "default"; "2"]%string).
Proof. vm_compute. reflexivity. Qed.
Example sheet_user : transform sheet [(lit "h", lit "q")] sheet_vars [ToTemplate (lit "main")] 30 =
  Done (map lit ["1"; "local"; "q"; "content1"; "2"; "default"; "2"]%string).
Proof. vm_compute. reflexivity. Qed.

(** A variable declared in xsl:copy is visible after it. *)
Definition leaky : list (str * list instr) := [(lit "main", [XUnframed [XVariable (lit "x") (is "1")]; write "x"])].
Theorem C43_leak_refuted : exists tbl ts out, transform tbl [] [] ts 20 = Done out /\ forall out', ~ applies tbl nothing no_args ts out'.
Proof.
  exists leaky, [ToTemplate (lit "main")], [lit "1"]. split; [vm_compute; reflexivity|]. intros out' A.
  inversion A as [|a n b r' o1 l o2 EB R _|]; subst. vm_compute in EB. injection EB as <-.
  inversion R as [|a1 a2 a3 a4 a5 a6 a7 a8 A1 R1]; subst. inversion A1; subst.
  inversion R1 as [|b1 b2 b3 b4 b5 b6 b7 b8 A2 R2]; subst. inversion A2 as [| | |c1 c2 c3 c4 c5 F| | |]; subst. inversion F as [|x v l m RD _]; subst.
  destruct RD as [RD|[_ RD]]; discriminate.
Qed.
Print Assumptions C43_leak_refuted.
(** So two of them with the same name clash, although neither is visible to the other. *)
Definition two_copies : list (str * list instr) := [(lit "main", [XUnframed [XVariable (lit "x") (is "1")]; XUnframed [XVariable (lit "x") (is "2"); write "x"]])].
Theorem C43_siblings_refuted : exists tbl ts out, applies tbl nothing no_args ts out /\ exists n, forall fuel, (10 <= fuel)%nat -> transform tbl [] [] ts fuel = Throws (Duplicate n).
Proof.
  exists two_copies, [ToTemplate (lit "main")], [lit "2"]. split.
  - change [lit "2"] with (([] ++ ([lit "2"] ++ [])) ++ [])%list. eapply applies_template; [vm_compute; reflexivity| |constructor].
    eapply runs_cons.
    + eapply acts_unframed. change (@nil str) with (([] ++ [])%list : list str). eapply runs_cons; [|constructor]. apply acts_variable; [reflexivity|]. apply (means_select _ _ _ [] _ []). constructor.
    + eapply runs_cons; [|constructor]. eapply acts_unframed. change [lit "2"] with (([] ++ [lit "2"] ++ [])%list : list str).
      eapply runs_cons; [apply acts_variable; [reflexivity|]; apply (means_select _ _ _ [] _ []); constructor|].
      eapply runs_cons; [|constructor]. exact (acts_value _ _ _ _ [lit "x"] (fun vs => List.concat vs) [lit "2"] (Forall2_cons _ _ (or_introl eq_refl) (Forall2_nil _))).
  - exists (lit "x"). intros fuel L. do 10 (destruct fuel as [|fuel]; [exfalso; lia|]). vm_compute. reflexivity.
Qed.
Print Assumptions C43_siblings_refuted.

(** A template applied in an xsl:with-param sees the parameter before it, which was not passed to
    it. *)
Definition nested : list (str * list instr) :=
  [(lit "main", [XApply [(lit "a", is "1"); (lit "b", Content [XApply [] [ToTemplate (lit "t")]])] [ToTemplate (lit "u")]]);
   (lit "t", [XParam (lit "a") (is "default"); write "a"]);
   (lit "u", [XParam (lit "b") (is ""); write "b"])].
Theorem C43_with_param_refuted : exists tbl ts out, transform tbl [] [] ts 20 = Done out /\ exists out', out' <> out /\ applies tbl nothing no_args ts out'.
Proof.
  exists nested, [ToTemplate (lit "main")], [lit "1"]. split; [vm_compute; reflexivity|]. exists [lit "default"]. split; [discriminate|].
  change [lit "default"] with (([lit "default"] ++ []) ++ [])%list. eapply applies_template; [vm_compute; reflexivity| |constructor].
  eapply runs_cons; [|constructor]. apply acts_apply.
  { constructor; [intros [X|[]]; discriminate|]. constructor; [intros []|constructor]. }
  change [lit "default"] with (([] ++ [lit "default"] ++ []) ++ [])%list. eapply applies_template; [vm_compute; reflexivity| |constructor].
  eapply runs_cons.
  - eapply (acts_passed _ _ _ _ _ _ _ _ (lit "default")); [reflexivity|vm_compute; reflexivity|].
    change (lit "default") with (List.concat [lit "default"]). eapply means_content. change [lit "default"] with ([lit "default"] ++ [])%list.
    eapply runs_cons; [|constructor]. apply acts_apply; [constructor|].
    change [lit "default"] with (([] ++ [lit "default"] ++ []) ++ [])%list. eapply applies_template; [vm_compute; reflexivity| |constructor].
    eapply runs_cons; [apply (acts_default _ _ _ _ _ _ (lit "default")); [reflexivity|reflexivity|]; apply (means_select _ _ _ [] (fun _ => lit "default") []); constructor|].
    eapply runs_cons; [|constructor]. exact (acts_value _ _ _ _ [lit "a"] (fun vs => List.concat vs) [lit "default"] (Forall2_cons _ _ (or_introl eq_refl) (Forall2_nil _))).
  - eapply runs_cons; [|constructor]. exact (acts_value _ _ _ _ [lit "b"] (fun vs => List.concat vs) [lit "default"] (Forall2_cons _ _ (or_introl eq_refl) (Forall2_nil _))).
Qed.
Print Assumptions C43_with_param_refuted.

(** * C54 *)
(** Of the declarations of a name the one with the highest import precedence counts. *)
Theorem C54_precedence : forall user ds g, declare_globals user [] ds = Done g -> winners user ds g.
Proof. exact winners_lemma. Qed.
Print Assumptions C54_precedence.
(** It is an error only if two have one precedence. *)
Theorem C54_clash : forall user ds f, declare_globals user [] ds = Throws f ->
  exists l d1 m d2 r, ds = l ++ d1 :: m ++ d2 :: r /\ f = Duplicate (d_name d1) /\ d_name d1 = d_name d2 /\ b_prec (as_set user d1) = b_prec (as_set user d2).
Proof. intros user ds f H. refine (clash_lemma user ds [] [] f _ H). intros x. cbn [assoc]. intros d []. Qed.
Print Assumptions C54_clash.
(** The value of a parameter may be set from outside, the last time counts; that of a variable
    may not. *)
Theorem C54_set : forall user ds g d nv, declare_globals user [] ds = Done g -> In d ds -> (forall d', In d' ds -> d_name d' = d_name d -> d' = d) ->
  find (fun nv => str_eqb (d_name d) (fst nv)) (rev user) = Some nv -> d_param d = true -> global_means g (d_name d) (snd nv).
Proof. exact param_lemma. Qed.
Print Assumptions C54_set.
Theorem C54_not_set : forall user ds g d, declare_globals user [] ds = Done g -> In d ds -> (forall d', In d' ds -> d_name d' = d_name d -> d' = d) ->
  (d_param d = false \/ forall nv, In nv user -> fst nv <> d_name d) -> assoc str_eqb (d_name d) g = Some (Global (d_name d) (d_prec d) (d_expr d)).
Proof. exact unset_lemma. Qed.
Print Assumptions C54_not_set.

(** Variables with select expressions, in any order: a value is found if and only if there is
    one, *)
Theorem C54_value_partial : forall tbl g x b v, only_selects g -> assoc str_eqb x g = Some b ->
  (exists fuel, global_value tbl g fuel b = Done [v]) <-> global_means g x v.
Proof. exact global_found_lemma. Qed.
Print Assumptions C54_value_partial.
(** and otherwise it is reported which variable is missing, or refers to itself. *)
Theorem C54_reported_partial : forall tbl g x b, only_selects g -> assoc str_eqb x g = Some b ->
  exists enough, forall fuel, (enough <= fuel)%nat ->
    match global_value tbl g fuel b with
    | Done vs => exists v, vs = [v] /\ global_means g x v
    | Throws (Unbound n) => refers_to g x n /\ assoc str_eqb n g = None
    | Throws (Circular n) => refers_to g x n /\ refers_to g n n
    | _ => False
    end.
Proof.
  intros tbl g x b OS E. destruct (global_lemma tbl g x b OS E) as (enough & H). exists enough. intros fuel L. specialize (H fuel L). unfold outcome_ok in H.
  destruct (global_value tbl g fuel b) as [vs|[n|n|n|n|n]|]; exact H.
Qed.
Print Assumptions C54_reported_partial.
Theorem C54_no_value_if_circular : forall g x v, global_means g x v -> ~ refers_to g x x.
Proof. exact meaning_acyclic. Qed.
Print Assumptions C54_no_value_if_circular.
Theorem C54_selects : forall user ds g, declare_globals user [] ds = Done g -> (forall d, In d ds -> exists refs f, d_expr d = Select refs f) -> only_selects g.
Proof. exact selects_lemma. Qed.
Print Assumptions C54_selects.

Definition both (a b : string) : expr := Select [lit a; lit b] (fun vs => List.concat vs).
Definition globals_ok : list decl :=
  [Decl false (lit "a") [0] (both "b" "c"); Decl false (lit "b") [0] (both "c" "c"); Decl false (lit "c") [0; 1] (is "2"); Decl false (lit "c") [0; 2] (is "3"); Decl true (lit "d") [0] (is "4")].
Example globals_found : exists g, declare_globals [(lit "d", lit "5")] [] globals_ok = Done g /\ freeze [] g 20 g = Done (map lit ["333"; "33"; "3"; "5"]%string).
Proof. eexists. split; [vm_compute; reflexivity|]. vm_compute. reflexivity. Qed.
Example globals_circular : exists g, declare_globals [] [] [Decl false (lit "a") [0] (both "b" "c"); Decl false (lit "b") [0] (is "1"); Decl false (lit "c") [0] (same_as "a")] = Done g
  /\ freeze [] g 20 g = Throws (Circular (lit "c")).
Proof. eexists. split; [vm_compute; reflexivity|]. vm_compute. reflexivity. Qed.

(** A variable whose content declares another that refers to it is never finished. *)
Definition endless : expr := Content [XVariable (lit "y") (same_as "g"); write "y"].
Definition endless_scope : scope := [(lit "g", Global (lit "g") [0] endless)].
Lemma endless_fuel : forall fuel, go [] endless_scope fuel [] (Some (lit "g")) (global_context endless_scope) (Evaluate endless) = OutOfFuel.
Proof.
  induction fuel as [fuel IH] using (well_founded_induction lt_wf).
  destruct fuel as [|fuel]; [reflexivity|]. unfold endless. cbn [go]. destruct fuel as [|fuel]; [reflexivity|]. cbn [go].
  assert (J : judge (assoc str_eqb (lit "y") (back (v_stack (global_context endless_scope)))) frozen_precedence = Stored) by reflexivity.
  unfold declare. rewrite J. unfold same_as. destruct fuel as [|fuel]; [reflexivity|]. cbn [go]. destruct fuel as [|fuel]; [reflexivity|]. cbn [go].
  assert (R : resolve [] None (global_context endless_scope) (lit "g") = XVars.Compute (lit "g") endless []) by reflexivity.
  rewrite R, IH by lia. reflexivity.
Qed.
Theorem C54_endless_refuted : exists ds g, declare_globals [] [] ds = Done g /\ forall tbl ts fuel, tbl = [] -> freeze tbl g fuel g = OutOfFuel /\ transform tbl [] ds ts fuel = OutOfFuel.
Proof.
  exists [Decl false (lit "g") [0] endless], endless_scope. assert (D : declare_globals [] [] [Decl false (lit "g") [0] endless] = Done endless_scope) by reflexivity.
  split; [exact D|]. intros tbl ts fuel ->.
  assert (F : freeze [] endless_scope fuel endless_scope = OutOfFuel).
  { unfold endless_scope at 2. cbn [freeze snd global_value]. rewrite endless_fuel. reflexivity. }
  split; [exact F|]. unfold transform. rewrite D. cbn [rbind]. rewrite F. reflexivity.
Qed.
Print Assumptions C54_endless_refuted.
(** To set a parameter makes a stylesheet fail that gives it another value than one it imports. *)
Theorem C54_set_refuted : exists ds g n v, declare_globals [] [] ds = Done g /\ (forall d, In d ds -> d_param d = true) /\ declare_globals [(n, v)] [] ds = Throws (Duplicate n).
Proof.
  exists [Decl true (lit "p") [0] (is "1"); Decl true (lit "p") [0; 1] (is "2")]. eexists. exists (lit "p"), (lit "3"). split; [vm_compute; reflexivity|].
  split; [intros d [<-|[<-|[]]]; reflexivity|]. vm_compute. reflexivity.
Qed.
Print Assumptions C54_set_refuted.
