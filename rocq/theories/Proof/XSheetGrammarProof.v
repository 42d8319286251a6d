(** What compiles is made as a stylesheet is. *)
From Coq Require Import String.
From Verif.Model Require Import Base Chars Containers Attrs XSort XOutput XSheet.
From Verif.Spec Require Import XSheetSpec XSheetGrammar.
From Verif.Proof Require Import Tac ContainersProof XSheetProof.
From Verif.Spec Require Import XSheetGrammar.
From Coq Require Import List Lia.
Import ListNotations.
Open Scope Z_scope.

(** * Attributes *)
Lemma gather_from : forall rules atts res m, gather_all rules atts res = Some m ->
  (forall a, In a atts -> a_uri a = [] -> a_local a <> [] -> In (a_local a) (map r_name rules)) /\
  (forall k, lookup m k = lookup res k \/ exists a, In a atts /\ a_local a = k /\ a_value a = lookup m k).
Proof.
  intros rules. induction atts as [|a atts IH]; intros res m H.
  - cbn in H. injection H as <-. split; [intros a []|left; reflexivity].
  - cbn [gather_all] in H. destruct (empty (a_local a)) eqn:EL.
    + destruct (IH _ _ H) as [A B]. split.
      * intros b [<-|I]; [|apply A; exact I]. intros _ N. destruct (a_local a); [congruence|discriminate EL].
      * intros k. destruct (B k) as [Q|(b & I & Q)]; [left; exact Q|right; exists b; split; [right; exact I|exact Q]].
    + assert (R : forall m, gather_all rules atts ((a_local a, a_value a) :: res) = Some m ->
        (a_uri a = [] -> In (a_local a) (map r_name rules)) ->
        (forall b, In b (a :: atts) -> a_uri b = [] -> a_local b <> [] -> In (a_local b) (map r_name rules)) /\
        (forall k, lookup m k = lookup res k \/ exists b, In b (a :: atts) /\ a_local b = k /\ a_value b = lookup m k)).
      { clear H m. intros m H Q. destruct (IH _ _ H) as [A B]. split.
        - intros b [<-|I]; [intros U _; apply Q, U|apply A; exact I].
        - intros k. destruct (B k) as [E|(b & I & E)]; [|right; exists b; split; [right; exact I|exact E]].
          rewrite lookup_cons in E. destruct (str_eqb (a_local a) k) eqn:K; [|left; exact E].
          apply str_eqb_true in K. right. exists a. split; [left; reflexivity|]. split; [exact K|symmetry; exact E]. }
      destruct (empty (a_uri a)) eqn:EU.
      * unfold find_rule in H. destruct (find _ rules) as [r|] eqn:F; [|discriminate H]. destruct (allowed _ _); [|discriminate H].
        apply R; [exact H|]. intros _. apply find_some in F as [F1 F2]. apply str_eqb_true in F2. rewrite <- F2. apply in_map, F1.
      * assert (NU : a_uri a = [] -> False) by (intros Q; rewrite Q in EU; discriminate EU).
        destruct (_ && _); [destruct (allowed _ _); [|discriminate H]|]; apply R; try exact H; intros Q; destruct (NU Q).
Qed.
Lemma first_field_in : forall q l v, first_field (has_qname q) a_value l = v ->
  (exists a, In a l /\ a_qname a = q /\ a_value a = v) \/ (v = [] /\ forall a, In a l -> a_qname a <> q).
Proof.
  intros q. induction l as [|a l IH]; intros v H.
  - right. split; [symmetry; exact H|intros a []].
  - cbn [first_field] in H. destruct (has_qname q a) eqn:E.
    + left. exists a. split; [left; reflexivity|]. unfold has_qname in E. apply str_eqb_true in E. split; [congruence|exact H].
    + destruct (IH _ H) as [(b & I & Q)|[Q N]]; [left; exists b; split; [right; exact I|exact Q]|].
      right. split; [exact Q|]. intros b [<-|I]; [|apply N, I]. unfold has_qname in E. apply str_eqb_false in E. congruence.
Qed.
Section Grammar.
  Context {scope X M N P : Type} (V : services (scope := scope) (X := X) (M := M) (N := N) (P := P)).
  Notation tag := (tag (scope := scope)).
  Notation compiler := (compiler (X := X) (M := M) (N := N) (P := P)).
  Notation handler := (handler (X := X) (M := M) (N := N) (P := P)).
  Implicit Types (g : tag) (c : compiler) (h : handler).

  Lemma gathered : forall g rules names r, gather rules (g_atts g) = Some r -> map r_name rules = map ascii_str names ->
    allows g names /\ (forall n, In (must n) rules -> needs g n) /\
    (forall k, lookup r k = lookup (defaults rules) k \/ exists a, In a (g_atts g) /\ a_local a = k /\ a_value a = lookup r k).
  Proof.
    intros g rules names r H E. unfold gather in H. destruct (existsb _ rules) eqn:X1; [discriminate H|].
    destruct (gather_from _ _ _ _ H) as [A B]. split; [|split; [|exact B]].
    - intros a I U L. rewrite <- E. apply A; assumption.
    - intros n I. destruct (first_field_in (ascii_str n) (g_atts g) _ eq_refl) as [(a & Ia & Q & V1)|[V1 _]].
      + exists a. split; [exact Ia|]. split; [exact Q|]. rewrite V1. intros Z. assert (existsb (fun r => r_mandatory r && empty (value_of_q (g_atts g) (r_name r))) rules = true).
        { apply existsb_exists. exists (must n). split; [exact I|]. cbn. unfold value_of_q. rewrite Z. reflexivity. }
        congruence.
      + exfalso. assert (existsb (fun r => r_mandatory r && empty (value_of_q (g_atts g) (r_name r))) rules = true).
        { apply existsb_exists. exists (must n). split; [exact I|]. cbn. unfold value_of_q. rewrite V1. reflexivity. }
        congruence.
  Qed.

  Definition part_of (h : handler) : part :=
    match h with
    | Box (KTemplate _ _ _ _) _ done => if done then Body else Params
    | Box (KForEach _ _) _ done => if done then Body else Sorting_
    | Box (KVariable _ _ (Some _)) _ _ => Selected
    | Box _ _ _ => Body
    | HText _ _ => Words
    | HApply _ _ _ _ => Passing
    | HCall _ _ => Calling
    | HChoose _ _ w o => Choosing w o
    | HAlias => Aliasing
    | HForeign _ => Foreign
    | HValueOf _ _ | HImports | HCopyOf _ | HSort _ | HKey _ | HOutput _ _ => Empty
    end.
  Definition plain_part (p : part) : Prop := p <> Top /\ p <> Aliasing /\ p <> Foreign.

  Lemma is_xsl_ : forall g n, str_eqb (g_uri g) xslt_uri = true -> is_ g n = true -> xsl g n.
  Proof. intros g n U L. split; [apply str_eqb_true in U; exact U|]. unfold is_ in L. apply str_eqb_true in L. exact L. Qed.
  Lemma empty_nil {A} : forall l : list A, negb (empty l) = false -> l = [].
  Proof. intros [|x l] E; [reflexivity|discriminate E]. Qed.

  Lemma variable_bound : forall c g k h c', variable V c g k = Ok (h, c') -> bound g (part_of h) /\ c_top c' = c_top c /\ plain_part (part_of h).
  Proof.
    intros c g k h c' E. unfold variable, need in E.
    destruct (gather _ _) as [r|] eqn:G; [|discriminate E]. destruct (gathered _ _ ["name"; "select"]%string _ G eq_refl) as (A & B & _).
    destruct (first_field_in (ascii_str "select") (g_atts g) _ eq_refl) as [(a & Ia & Q & V1)|[V1 N1]].
    - fold (value_of_q (g_atts g) (ascii_str "select")) in V1.
      destruct (value_of_q (g_atts g) (ascii_str "select")) as [|x v]; cbn [optional] in E.
      + destruct (x_name _ _ _); [|discriminate E]. injection E as <- <-. cbn [part_of]. split; [|split; [reflexivity|split; [discriminate|split; discriminate]]].
        apply V_built; [exact A|apply B; left; reflexivity|]. right. exists a. auto.
      + destruct (expr _ _ _ _); [|discriminate E]. destruct (x_name _ _ _); [|discriminate E]. injection E as <- <-. cbn [part_of].
        split; [|split; [reflexivity|split; [discriminate|split; discriminate]]].
        apply V_selected; [exact A|apply B; left; reflexivity|]. exists a. split; [exact Ia|]. split; [exact Q|]. rewrite V1. discriminate.
    - fold (value_of_q (g_atts g) (ascii_str "select")) in V1. rewrite V1 in E. cbn [optional] in E.
      destruct (x_name _ _ _); [|discriminate E]. injection E as <- <-. cbn [part_of]. split; [|split; [reflexivity|split; [discriminate|split; discriminate]]].
      apply V_built; [exact A|apply B; left; reflexivity|]. left. intros (a & I & Q & _). exact (N1 a I Q).
  Qed.
  Lemma inline_same : forall sc atts c l c', inline_atts V c sc atts = Some (l, c') -> c_top c' = c_top c.
  Proof.
    intros sc. induction atts as [|a atts IH]; intros c l c' E; [cbn in E; injection E as <- <-; reflexivity|].
    cbn [inline_atts] in E. destruct (str_eqb (firstn 6 _) _); [eapply IH; eassumption|]. destruct (str_eqb (a_uri a) _); [eapply IH; eassumption|].
    destruct (mm_find _ _) as [[p u]|].
    - destruct (empty p && negb (empty u)).
      + destruct (avt _ _ _ _); [|discriminate E]. destruct (inline_atts V (next_auto c) sc atts) as [[l1 c1]|] eqn:F; [|discriminate E]. injection E as <- <-.
        apply IH in F. exact F.
      + destruct (avt _ _ _ _); [|discriminate E]. destruct (inline_atts V c sc atts) as [[l1 c1]|] eqn:F; [|discriminate E]. injection E as <- <-. eapply IH; eassumption.
    - destruct (avt _ _ _ _); [|discriminate E]. destruct (inline_atts V c sc atts) as [[l1 c1]|] eqn:F; [|discriminate E]. injection E as <- <-. eapply IH; eassumption.
  Qed.
  Ltac go E := repeat (unfold need, refuse in E; match type of E with
    | (if ?q then _ else _) = _ => destruct q eqn:?; try discriminate E
    | match ?q with Some _ => _ | None => _ end = _ => destruct q eqn:?; try discriminate E
    end).
  Ltac plain_ := split; [discriminate|split; discriminate].
  Ltac attrs names := match goal with G : gather _ (g_atts ?g) = Some _ |- _ => let A := fresh "A" in let B := fresh "B" in let D := fresh "D" in
    destruct (gathered g _ names _ G eq_refl) as (A & B & D) end.
  Ltac must_ := match goal with B : forall n, In (must n) _ -> needs _ n |- _ => apply B; cbn [In]; auto end.
  Lemma instruction_instr : forall c g h c', str_eqb (g_uri g) xslt_uri = true -> instruction V c g = Some (Ok (h, c')) ->
    instr g (part_of h) /\ c_top c' = c_top c /\ plain_part (part_of h).
  Proof.
    intros c g h c' U E. unfold instruction in E. cbv zeta in E.
    repeat match type of E with (if is_ g ?n then _ else _) = _ => let L := fresh "L" in destruct (is_ g n) eqn:L; [pose proof (is_xsl_ g n U L) as XS; clear L|] end;
      try discriminate E; apply (f_equal (fun o => match o with Some x => x | None => Throws end)) in E; cbv beta iota in E.
    - go E. injection E as <- <-. split; [|split; [reflexivity|plain_]]. apply N_imports; [exact XS|apply empty_nil; assumption].
    - go E. injection E as <- <-. attrs ["select"; "mode"]%string. split; [|split; [reflexivity|plain_]]. apply N_apply; assumption.
    - unfold named_content in E. unfold need at 1 in E. destruct (gather _ _) eqn:G; [|discriminate E]. attrs ["name"; "namespace"]%string. cbn [andb refuse] in E.
      unfold need at 1 in E. destruct (avt _ _ _ _); [|discriminate E]. cbn [refuse] in E.
      destruct (lookup _ (ascii_str "namespace")); [injection E as <- <-|go E; injection E as <- <-];
        (split; [|split; [reflexivity|plain_]]; apply N_attribute; [exact XS|assumption|must_]).
    - go E. injection E as <- <-. attrs ["name"]%string. split; [|split; [reflexivity|plain_]]. apply N_call; [exact XS|assumption|must_].
    - go E. injection E as <- <-. split; [|split; [reflexivity|plain_]]. apply N_choose; [exact XS|apply empty_nil; assumption].
    - go E. injection E as <- <-. split; [|split; [reflexivity|plain_]]. apply N_comment; [exact XS|apply empty_nil; assumption].
    - go E. injection E as <- <-. attrs ["use-attribute-sets"]%string. split; [|split; [reflexivity|plain_]]. apply N_copy; assumption.
    - go E. injection E as <- <-. attrs ["select"]%string. split; [|split; [reflexivity|plain_]]. apply N_copy_of; [exact XS|assumption|must_].
    - unfold named_content in E. unfold need at 1 in E. destruct (gather _ _) eqn:G; [|discriminate E]. attrs ["name"; "namespace"; "use-attribute-sets"]%string.
      unfold need at 1 in E. destruct (avt _ _ _ _); [|discriminate E]. unfold refuse in E. destruct (_ && _); [discriminate E|].
      destruct (lookup _ (ascii_str "namespace")); [injection E as <- <-|go E; injection E as <- <-];
        (split; [|split; [reflexivity|plain_]]; apply N_element; [exact XS|assumption|must_]).
    - go E. injection E as <- <-. attrs ["select"]%string. split; [|split; [reflexivity|plain_]]. apply N_for_each; [exact XS|assumption|must_].
    - go E. injection E as <- <-. attrs ["test"]%string. split; [|split; [reflexivity|plain_]]. apply N_if; [exact XS|assumption|must_].
    - go E. injection E as <- <-. attrs ["terminate"]%string. split; [|split; [reflexivity|plain_]]. apply N_message; assumption.
    - go E. injection E as <- <-. attrs ["name"]%string. split; [|split; [reflexivity|plain_]]. apply N_pi; [exact XS|assumption|must_].
    - go E. injection E as <- <-. attrs ["disable-output-escaping"]%string. split; [|split; [reflexivity|plain_]]. apply N_text; assumption.
    - go E. injection E as <- <-. attrs ["select"; "disable-output-escaping"]%string. split; [|split; [reflexivity|plain_]]. apply N_value_of; [exact XS|assumption|must_].
    - destruct (variable_bound _ _ _ _ _ E) as (B & T & PP). split; [|split; assumption]. apply N_variable; assumption.
  Qed.
  Lemma inline_part : forall c g (k : str -> str -> list (str * str * X) -> XSheet.head (X := X) (M := M) (P := P)) h c', inline V c g k = Ok (h, c') ->
    exists n u l, h = Box (k n u l) [] false /\ c_top c' = c_top c.
  Proof.
    intros c g k h c' E. unfold inline, need in E. destruct (inline_atts _ _ _ _) as [[l c1]|] eqn:F; [|discriminate E].
    destruct (inline_name c1 g) as [n u]. injection E as <- <-. exists n, u, l. split; [reflexivity|]. eapply inline_same; eassumption.
  Qed.
  Lemma sort_part : forall c g h c', str_eqb (g_uri g) xslt_uri = true -> is_ g "sort" = true -> sort V c g = Ok (h, c') ->
    sort_tag g /\ part_of h = Empty /\ c_top c' = c_top c.
  Proof.
    intros c g h c' U L E. unfold sort in E. go E. injection E as <- <-. attrs ["select"; "lang"; "data-type"; "order"; "case-order"]%string.
    split; [split; [apply is_xsl_; assumption|assumption]|]. split; reflexivity.
  Qed.
  Lemma alias_part : forall c g h c', alias V c g = Ok (h, c') ->
    allows g ["stylesheet-prefix"; "result-prefix"]%string /\ needs g "stylesheet-prefix" /\ needs g "result-prefix" /\ h = HAlias /\ c_top c' = c_top c.
  Proof.
    intros c g h c' E. unfold alias in E. unfold need at 1 in E. destruct (gather _ _) eqn:G; [|discriminate E]. attrs ["stylesheet-prefix"; "result-prefix"]%string.
    cbv zeta in E. unfold refuse in E. destruct (negb _); [discriminate E|]. destruct (negb _); [discriminate E|]. injection E as <- <-.
    split; [assumption|]. split; [must_|]. split; [must_|]. split; reflexivity.
  Qed.

  (** * Where one is *)
  Definition put (p : part) (l : list part) : list part := match p with Top => [] | _ => p :: l end.
  Definition at_ c (l : list part) : Prop := c_top c = false /\ map part_of (c_stack c) = l /\ (Forall plain_part l \/ l = [Aliasing]).

  Lemma push_ok : forall below r c', push (X := X) (M := M) (N := N) (P := P) below r = Ok c' -> exists h c1, r = Ok (h, c1) /\ c' = with_stack (h :: below) c1.
  Proof. intros below [[h c1]| | |] c' E; try discriminate E. injection E as <-. exists h, c1. split; reflexivity. Qed.
  Lemma not_xslt : forall g, str_eqb (g_uri g) xslt_uri = false -> g_uri g <> xslt.
  Proof. intros g U Q. apply str_eqb_false in U. apply U. exact Q. Qed.

  (** After a start tag. *)
  Definition entered c' g (l : list part) : Prop :=
    c_top c' = false /\ exists q p', element (hd Top l) g q p' /\ map part_of (c_stack c') = q :: put p' (tl l) /\
      ((plain_part p' /\ Forall plain_part (tl l) /\ plain_part q) \/
       (p' = Top /\ tl l = [] /\ (plain_part q \/ q = Aliasing \/ (q = Foreign /\ c_stack c' = [HForeign 1])))).
  Lemma instr_entered : forall c g c' p' h below (b : handler) l,
    c_top c = false -> str_eqb (g_uri g) xslt_uri = true ->
    match instruction V c g with Some r => push (b :: below) r | None => Throws end = Ok c' ->
    l = part_of h :: map part_of below -> Forall plain_part l -> part_of b = p' -> plain_part p' ->
    (forall q, instr g q -> element (part_of h) g q p') -> entered c' g l.
  Proof.
    intros c g c' p' h below b l T U E -> PL B PP' EL. destruct (instruction V c g) as [r|] eqn:I; [|discriminate E].
    apply push_ok in E as (h1 & c1 & -> & ->). destruct (instruction_instr _ _ _ _ U I) as (IN & T1 & PP).
    split; [cbn; congruence|]. exists (part_of h1), p'. cbn [hd tl]. split; [apply EL, IN|]. cbn [with_stack c_stack map]. rewrite B. split.
    - f_equal. destruct PP' as (N1 & _). destruct p'; try reflexivity. congruence.
    - left. split; [exact PP'|]. split; [exact (Forall_inv_tail PL)|exact PP].
  Qed.
  Lemma put_plain : forall p l, plain_part p -> put p l = p :: l.
  Proof. intros p l (N1 & _). destruct p; try reflexivity. congruence. Qed.
  Lemma enter : forall c' g (h h1 b : handler) below p' l, c_top c' = false -> c_stack c' = h1 :: b :: below -> l = part_of h :: map part_of below ->
    Forall plain_part l -> part_of b = p' -> plain_part p' -> plain_part (part_of h1) -> element (part_of h) g (part_of h1) p' -> entered c' g l.
  Proof.
    intros c' g h h1 b below p' l T S -> PL B PP' PP EL. split; [exact T|]. exists (part_of h1), p'. cbn [hd tl]. split; [exact EL|].
    rewrite S. cbn [map]. rewrite B, put_plain by exact PP'. split; [reflexivity|]. left. split; [exact PP'|]. split; [exact (Forall_inv_tail PL)|exact PP].
  Qed.
  Lemma enter_top : forall c' g (h1 : handler), c_top c' = false -> c_stack c' = [h1] -> (plain_part (part_of h1) \/ h1 = HAlias \/ h1 = HForeign 1) ->
    element Top g (part_of h1) Top -> entered c' g [].
  Proof.
    intros c' g h1 T S PP EL. split; [exact T|]. exists (part_of h1), Top. split; [exact EL|]. rewrite S. split; [reflexivity|]. right. split; [reflexivity|]. split; [reflexivity|].
    destruct PP as [PP|[->| ->]]; [left; exact PP|right; left; reflexivity|right; right; split; reflexivity].
  Qed.
  Lemma template_part : forall c g h c', str_eqb (g_uri g) xslt_uri = true -> is_ g "template" = true -> template V c g = Ok (h, c') ->
    part_of h = Params /\ c_top c' = c_top c /\ element Top g Params Top.
  Proof.
    intros c g h c' U L E. unfold template in E. unfold need at 1 in E. destruct (gather _ _) as [r|] eqn:G; [|discriminate E]. attrs ["match"; "mode"; "name"; "priority"]%string.
    cbv zeta in E. unfold refuse at 1 in E. destruct (empty (lookup r (ascii_str "match")) && empty (lookup r (ascii_str "name"))) eqn:EE; [discriminate E|].
    assert (EL : element Top g Params Top).
    { apply E_template; [apply is_xsl_; assumption|assumption|]. apply Bool.andb_false_iff in EE as [EE|EE].
      - destruct (D (ascii_str "match")) as [Q|(a & I & Q1 & Q2)]; [rewrite Q in EE; discriminate EE|].
        exists a. split; [exact I|]. split; [left; symmetry; exact Q1|]. rewrite Q2. intros Z. rewrite Z in EE. discriminate EE.
      - destruct (D (ascii_str "name")) as [Q|(a & I & Q1 & Q2)]; [rewrite Q in EE; discriminate EE|].
        exists a. split; [exact I|]. split; [right; left; symmetry; exact Q1|]. rewrite Q2. intros Z. rewrite Z in EE. discriminate EE. }
    go E; injection E as <- <-; (split; [reflexivity|]; split; [reflexivity|exact EL]).
  Qed.
  Lemma top_entered : forall c g c', c_top c = false -> top_element V c g = Ok c' -> entered c' g [].
  Proof.
    intros c g c' T E. unfold top_element in E. destruct (str_eqb (g_uri g) xslt_uri) eqn:U.
    - destruct (is_ g "import" || is_ g "include"); [discriminate E|].
      destruct (is_ g "template") eqn:L1.
      { apply push_ok in E as (h & c1 & E & ->). destruct (template_part _ _ _ _ U L1 E) as (PO & T1 & EL).
        apply (enter_top _ _ h); [cbn; congruence|reflexivity|left; rewrite PO; plain_|rewrite PO; exact EL]. }
      destruct (is_ g "param") eqn:L2.
      { apply push_ok in E as (h & c1 & E & ->). destruct (variable_bound _ _ _ _ _ E) as (B & T1 & PP).
        apply (enter_top _ _ h); [cbn; congruence|reflexivity|left; exact PP|]. apply E_variable; [right; apply is_xsl_; assumption|exact B]. }
      destruct (is_ g "variable") eqn:L3.
      { apply push_ok in E as (h & c1 & E & ->). destruct (variable_bound _ _ _ _ _ E) as (B & T1 & PP).
        apply (enter_top _ _ h); [cbn; congruence|reflexivity|left; exact PP|]. apply E_variable; [left; apply is_xsl_; assumption|exact B]. }
      destruct (is_ g "output") eqn:L4.
      { apply push_ok in E as (h & c1 & E & ->). unfold output in E. unfold need at 1 in E. destruct (gather _ _) as [r|] eqn:G; [|discriminate E]. attrs (map fst output_settings).
        assert (Q : part_of h = Empty /\ c_top c1 = c_top c).
        { destruct (lookup r _); [injection E as <- <-; split; reflexivity|]. go E. injection E as <- <-. split; reflexivity. }
        destruct Q as [Q1 Q2]. apply (enter_top _ _ h); [cbn; congruence|reflexivity|left; rewrite Q1; plain_|rewrite Q1]. apply E_output; [apply is_xsl_; assumption|assumption]. }
      destruct (is_ g "key") eqn:L5.
      { apply push_ok in E as (h & c1 & E & ->). unfold key_element in E. go E. injection E as <- <-. attrs ["name"; "match"; "use"]%string.
        eapply enter_top; [cbn; congruence|reflexivity|left; plain_|]. apply E_key; [apply is_xsl_; assumption|assumption|must_|must_|must_]. }
      destruct (is_ g "namespace-alias") eqn:L6; [|discriminate E].
      apply push_ok in E as (h & c1 & E & ->). destruct (alias_part _ _ _ _ E) as (A & B1 & B2 & -> & T1).
      apply (enter_top _ _ HAlias); [cbn; congruence|reflexivity|right; left; reflexivity|]. apply E_alias; [apply is_xsl_; assumption|assumption|assumption|assumption].
    - destruct (empty (g_uri g)) eqn:EU; [discriminate E|]. injection E as <-. apply (enter_top _ _ (HForeign 1)); [exact T|reflexivity|right; right; reflexivity|].
      apply E_foreign; [apply not_xslt, U|]. intros Q. rewrite Q in EU. discriminate EU.
  Qed.
  Lemma start_entered : forall c g c' l, at_ c l -> start_element V c g = Ok c' -> entered c' g l.
  Proof.
    intros c g c' l (T & S & PL) E. unfold start_element in E. cbv zeta in E. destruct (c_stack c) as [|h below] eqn:St.
    - cbn in S. subst l. rewrite T in E. eapply top_entered; eassumption.
    - cbn [map] in S. destruct h as [h items done|d e|d b|e m ss ps|n ps| |e|ws o sw so|s|k|m cd| |n].
      + (* containers *)
        assert (PL' : Forall plain_part l) by (destruct PL as [PL|PL]; [exact PL|]; exfalso; rewrite PL in S; injection S as S _; destruct h; cbn in S; try discriminate S;
          [destruct done; discriminate S|destruct done; discriminate S|match type of S with context [match ?o with Some _ => Selected | None => _ end] => destruct o end; discriminate S]).
        unfold box_start in E. cbv zeta in E. destruct (str_eqb (g_uri g) xslt_uri) eqn:U.
        * assert (GEN : match instruction V c g with Some r => push (Box h items true :: below) r | None => Throws end = Ok c' -> entered c' g l).
          { intros E1. apply (instr_entered c g c' (part_of (Box h items true)) (Box h items done) below (Box h items true) l T U E1 (eq_sym S) PL' eq_refl).
            - destruct h; try plain_. cbn [part_of]; match goal with |- context [match ?o with Some _ => Selected | None => _ end] => destruct o end; plain_.
            - intros q I. destruct h; cbn [part_of]; try (apply E_instr; [cbn [In]; solve [auto]|exact I]); try (destruct done; (apply E_instr; [cbn [In]; solve [auto]|exact I])).
              match goal with |- context [match ?o with Some _ => Selected | None => _ end] => destruct o end; [apply E_in_variable, I|apply E_instr; [cbn [In]; solve [auto]|exact I]]. }
          destruct h; try (apply GEN; exact E).
          -- destruct (is_ g "param") eqn:L; [|apply GEN; exact E]. unfold refuse in E. destruct done; [discriminate E|].
             apply push_ok in E as (h1 & c1 & E & ->). destruct (variable_bound _ _ _ _ _ E) as (B & T1 & PP).
             apply (enter _ _ (Box (KTemplate m name mode priority) items false) h1 (Box (KTemplate m name mode priority) items false) below Params);
               [cbn; congruence|reflexivity|symmetry; exact S|exact PL'|reflexivity|plain_|exact PP|]. apply E_param; [apply is_xsl_; assumption|exact B].
          -- destruct (is_ g "sort") eqn:L; [|apply GEN; exact E]. unfold refuse in E. destruct done; [discriminate E|].
             apply push_ok in E as (h1 & c1 & E & ->). destruct (sort_part _ _ _ _ U L E) as (B & PO & T1).
             apply (enter _ _ (Box (KForEach select sorts) items false) h1 (Box (KForEach select sorts) items false) below Sorting_);
               [cbn; congruence|reflexivity|symmetry; exact S|exact PL'|reflexivity|plain_|rewrite PO; plain_|rewrite PO]. apply E_sort, B.
        * apply push_ok in E as (h1 & c1 & E & ->). destruct (inline_part _ _ _ _ _ E) as (n & u & l1 & -> & T1).
          apply (enter _ _ (Box h items done) (Box (KInline n u l1) [] false) (Box h items true) below (part_of (Box h items true)));
            [cbn; congruence|reflexivity|symmetry; exact S|exact PL'|reflexivity| |plain_|].
          -- destruct h; try plain_. cbn [part_of]; match goal with |- context [match ?o with Some _ => Selected | None => _ end] => destruct o end; plain_.
          -- assert (I : instr g Body) by (apply N_literal, not_xslt, U).
             destruct h; cbn [part_of]; try (apply E_instr; [cbn [In]; solve [auto]|exact I]); try (destruct done; (apply E_instr; [cbn [In]; solve [auto]|exact I])).
             match goal with |- context [match ?o with Some _ => Selected | None => _ end] => destruct o end; [apply E_in_variable, I|apply E_instr; [cbn [In]; solve [auto]|exact I]].
      + discriminate E.
      + discriminate E.
      + assert (PL' : Forall plain_part l) by (destruct PL as [PL|PL]; [exact PL|rewrite PL in S; discriminate S]).
        destruct (str_eqb (g_uri g) xslt_uri) eqn:U; cbn [andb] in E; [|discriminate E]. destruct (is_ g "sort") eqn:L1.
        * apply push_ok in E as (h1 & c1 & E & ->). destruct (sort_part _ _ _ _ U L1 E) as (B & PO & T1).
          apply (enter _ _ (HApply e m ss ps) h1 (HApply e m ss ps) below Passing); [cbn; congruence|reflexivity|symmetry; exact S|exact PL'|reflexivity|plain_|rewrite PO; plain_|rewrite PO].
          apply E_sort_passing, B.
        * destruct (is_ g "with-param") eqn:L2; [|discriminate E]. apply push_ok in E as (h1 & c1 & E & ->). destruct (variable_bound _ _ _ _ _ E) as (B & T1 & PP).
          apply (enter _ _ (HApply e m ss ps) h1 (HApply e m ss ps) below Passing); [cbn; congruence|reflexivity|symmetry; exact S|exact PL'|reflexivity|plain_|exact PP|].
          apply E_with; [left; reflexivity|apply is_xsl_; assumption|exact B].
      + assert (PL' : Forall plain_part l) by (destruct PL as [PL|PL]; [exact PL|rewrite PL in S; discriminate S]).
        destruct (str_eqb (g_uri g) xslt_uri) eqn:U; cbn [andb] in E; [|discriminate E].
        destruct (is_ g "with-param") eqn:L2; [|discriminate E]. apply push_ok in E as (h1 & c1 & E & ->). destruct (variable_bound _ _ _ _ _ E) as (B & T1 & PP).
        apply (enter _ _ (HCall n ps) h1 (HCall n ps) below Calling); [cbn; congruence|reflexivity|symmetry; exact S|exact PL'|reflexivity|plain_|exact PP|].
        apply E_with; [right; left; reflexivity|apply is_xsl_; assumption|exact B].
      + discriminate E.
      + discriminate E.
      + assert (PL' : Forall plain_part l) by (destruct PL as [PL|PL]; [exact PL|rewrite PL in S; discriminate S]).
        destruct (str_eqb (g_uri g) xslt_uri) eqn:U; cbn [andb] in E; [|discriminate E]. destruct (is_ g "when") eqn:L1.
        * unfold refuse in E. destruct so; [discriminate E|]. apply push_ok in E as (h1 & c1 & E & ->). go E. injection E as <- <-. attrs ["test"]%string.
          eapply (enter _ _ (HChoose ws o sw false) (Box (KWhen _) [] false) (HChoose ws o true false) below (Choosing true false));
            [exact T|reflexivity|symmetry; exact S|exact PL'|reflexivity|plain_|plain_|]. apply E_when; [apply is_xsl_; assumption|assumption|must_].
        * destruct (is_ g "otherwise") eqn:L2; [|discriminate E]. unfold refuse at 1 in E. destruct so; [discriminate E|]. apply push_ok in E as (h1 & c1 & E & ->). go E. injection E as <- <-.
          apply (enter _ _ (HChoose ws o sw false) (Box KOtherwise [] false) (HChoose ws o sw true) below (Choosing sw true));
            [exact T|reflexivity|symmetry; exact S|exact PL'|reflexivity|plain_|plain_|]. apply E_otherwise; [apply is_xsl_; assumption|apply empty_nil; assumption].
      + discriminate E.
      + discriminate E.
      + discriminate E.
      + assert (LL : l = [Aliasing] /\ below = []).
        { destruct PL as [PL|PL]; [rewrite <- S in PL; apply Forall_inv in PL as (_ & Q & _); cbn in Q; congruence|]. split; [exact PL|].
          rewrite PL in S. injection S as S. destruct below; [reflexivity|discriminate S]. }
        destruct LL as [-> ->]. apply push_ok in E as (h1 & c1 & E & ->). destruct (alias_part _ _ _ _ E) as (A & B1 & B2 & -> & T1).
        split; [cbn; congruence|]. exists Aliasing, Top. split; [apply E_aliases; assumption|]. split; [reflexivity|]. right. split; [reflexivity|]. split; [reflexivity|]. right. left. reflexivity.
      + exfalso. destruct PL as [PL|PL]; [|rewrite PL in S; discriminate S]. rewrite <- S in PL. apply Forall_inv in PL as (_ & _ & Q). cbn in Q. congruence.
  Qed.

  Lemma add_parts : forall i below c c', add_item i below c = Ok c' -> c_top c' = c_top c /\ map part_of (c_stack c') = map part_of below.
  Proof.
    intros i below c c' E. unfold add_item in E. destruct below as [|b below]; [discriminate E|]. destruct b; try discriminate E. injection E as <-.
    split; [reflexivity|]. cbn. f_equal.
  Qed.
  Lemma end_parts : forall c c' h rest, c_stack c = h :: rest -> part_of h <> Foreign -> end_element c = Ok c' ->
    ends (part_of h) /\ c_top c' = c_top c /\ map part_of (c_stack c') = map part_of rest.
  Proof.
    intros c c' h rest S NF E. unfold end_element in E. rewrite S in E.
    destruct h as [h items done|d e|d b|e m ss ps|n ps| |e|ws o sw so|s|k|m cd| |n];
      try (split; [intros ?; discriminate|]; solve [eapply add_parts; exact E]).
    - split; [intros o; destruct h; cbn; try discriminate; try (destruct done; discriminate); match goal with |- context [match ?o with Some _ => Selected | None => _ end] => destruct o end; discriminate|].
      unfold box_end in E. destruct h; try (eapply add_parts; exact E).
      + unfold add_template, refuse in E. cbv zeta in E. destruct (_ && _); [discriminate E|]. injection E as <-. split; reflexivity.
      + unfold add_template, refuse in E. cbv zeta in E. destruct (_ && _); [discriminate E|]. injection E as <-. split; reflexivity.
      + destruct rest as [|b rest]; [discriminate E|]. destruct b; try discriminate E. injection E as <-. split; reflexivity.
      + destruct rest as [|b rest]; [discriminate E|]. destruct b; try discriminate E. injection E as <-. split; reflexivity.
      + destruct k; try (eapply add_parts; exact E).
        * destruct rest as [|b rest]; [discriminate E|]. destruct b; try discriminate E; injection E as <-; split; reflexivity.
        * unfold add_variable in E. injection E as <-. split; reflexivity.
        * unfold add_variable in E. injection E as <-. split; reflexivity.
    - unfold refuse in E. destruct sw; cbn [negb] in E; [|discriminate E]. split; [intros ?; discriminate|]. eapply add_parts; exact E.
    - split; [intros ?; discriminate|]. destruct rest as [|b rest]; [discriminate E|]. destruct b as [h items done| | | | | | | | | | | |]; try discriminate E.
      + destruct h; try discriminate E. injection E as <-. split; reflexivity.
      + injection E as <-. split; reflexivity.
    - split; [intros ?; discriminate|]. injection E as <-. split; reflexivity.
    - split; [intros ?; discriminate|]. injection E as <-. split; reflexivity.
    - split; [intros ?; discriminate|]. injection E as <-. split; reflexivity.
    - exfalso. apply NF. reflexivity.
  Qed.
  Lemma stay : forall c l, at_ c l -> at_ c (put (hd Top l) (tl l)) /\ (hd Top l = Top -> tl l = []).
  Proof.
    intros c l (T & S & PL). destruct l as [|p l]; [split; [split; [exact T|split; [exact S|left; constructor]]|reflexivity]|]. cbn [hd tl].
    assert (NT : p <> Top) by (destruct PL as [PL|PL]; [apply Forall_inv in PL as (Q & _); exact Q|injection PL as -> _; discriminate]).
    split; [|intros Q; congruence]. replace (put p l) with (p :: l) by (destruct p; congruence || reflexivity). split; [exact T|]. split; assumption.
  Qed.
  Lemma characters_parts : forall c s c' l, at_ c l -> characters c s = Ok c' ->
    exists p', text_ (hd Top l) s p' /\ at_ c' (put p' (tl l)) /\ (p' = Top -> tl l = []).
  Proof.
    intros c s c' l A E. pose proof (stay c l A) as ST. destruct A as (T & S & PL). unfold characters in E.
    assert (WH : blank s = true -> c' = c -> exists p', text_ (hd Top l) s p' /\ at_ c' (put p' (tl l)) /\ (p' = Top -> tl l = [])).
    { intros B ->. exists (hd Top l). split; [apply X_white; apply white_blank; exact B|exact ST]. }
    assert (SAME : c' = c -> In (hd Top l) [Sorting_; Calling; Words] -> exists p', text_ (hd Top l) s p' /\ at_ c' (put p' (tl l)) /\ (p' = Top -> tl l = [])).
    { intros -> I. exists (hd Top l). split; [apply X_any; exact I|exact ST]. }
    assert (RF : refuse (negb (blank s)) (Ok c) = Ok c' -> blank s = true /\ c' = c).
    { unfold refuse. destruct (blank s); cbn [negb]; [intros Q; injection Q as <-; split; reflexivity|discriminate]. }
    destruct (c_stack c) as [|h below] eqn:St; [apply RF in E as [E1 E2]; apply WH; assumption|].
    destruct h as [h items done|d e|d b|e m ss ps|n ps| |e|ws o sw so|s'|k|m cd| |n]; try (apply RF in E as [E1 E2]; apply WH; assumption).
    - destruct (blank s) eqn:B; [injection E as <-; apply WH; reflexivity|].
      assert (HL : hd Top l = part_of (Box h items done) /\ tl l = map part_of below) by (rewrite <- S; split; reflexivity). destruct HL as [HL TL].
      assert (PL' : Forall plain_part (tl l)) by (destruct PL as [PL|PL]; [destruct l; [constructor|exact (Forall_inv_tail PL)]|rewrite PL; constructor]).
      assert (GO : forall done', c' = with_stack (Box h (items ++ [CText false s]) done' :: below) c -> plain_part (part_of (Box h (items ++ [CText false s]) done')) ->
        text_ (part_of (Box h items done)) s (part_of (Box h (items ++ [CText false s]) done')) ->
        exists p', text_ (hd Top l) s p' /\ at_ c' (put p' (tl l)) /\ (p' = Top -> tl l = [])).
      { intros done' -> PP TX. eexists. rewrite HL. split; [exact TX|]. split; [|intros Q; destruct PP as (Q' & _); congruence].
        rewrite put_plain by exact PP. split; [exact T|]. split; [cbn [with_stack c_stack map]; rewrite TL; reflexivity|]. left. constructor; assumption. }
      destruct h; try (injection E as <-; eapply GO; [reflexivity|plain_|cbn [part_of]; apply X_body; cbn [In]; solve [auto]]).
      + injection E as <-. eapply GO; [reflexivity|plain_|]. cbn [part_of]. destruct done; apply X_body; cbn [In]; auto.
      + injection E as <-. eapply GO; [reflexivity|destruct done; plain_|]. cbn [part_of]. destruct done; [apply X_body; cbn [In]; auto|apply X_any; cbn [In]; auto].
      + match type of E with context [match ?o with Some _ => Throws | None => _ end] => destruct o end; [discriminate E|].
        injection E as <-. eapply GO; [reflexivity|plain_|]. cbn [part_of]. apply X_body; cbn [In]; auto.
    - injection E as <-. exists Words. assert (HL : hd Top l = Words /\ tl l = map part_of below) by (rewrite <- S; split; reflexivity). destruct HL as [HL TL].
      rewrite HL. split; [apply X_any; cbn [In]; auto|]. split; [|discriminate]. cbn [put]. split; [exact T|]. split; [cbn [with_stack c_stack map part_of]; rewrite TL; reflexivity|].
      left. constructor; [plain_|]. destruct PL as [PL|PL]; [destruct l; [constructor|exact (Forall_inv_tail PL)]|rewrite PL; constructor].
    - injection E as <-. apply SAME; [reflexivity|]. rewrite <- S. cbn. auto.
    - exfalso. destruct PL as [PL|PL]; [|rewrite PL in S; discriminate S]. rewrite <- S in PL. apply Forall_inv in PL as (_ & _ & Q). cbn in Q. congruence.
  Qed.

  Lemma run_parts : forall a b c, run V c (a ++ b) = bind (run V c a) (fun c => run V c b).
  Proof. induction a as [|e a IH]; intros b c; [reflexivity|]. cbn [app run]. destruct (step V c e); cbn [bind]; [apply IH|reflexivity..]. Qed.
  Lemma ok_parts : forall a b c c', run V c (a ++ b) = Ok c' -> exists c1, run V c a = Ok c1 /\ run V c1 b = Ok c'.
  Proof. intros a b c c' E. rewrite run_parts in E. destruct (run V c a) as [c1| | |]; try discriminate E. exists c1. split; [reflexivity|exact E]. Qed.
  Lemma ok_element : forall g sub kids c c', run V c (flat_map events (Elem g sub :: kids)) = Ok c' ->
    exists c1 c2 c3, start_element V c g = Ok c1 /\ run V c1 (flat_map events sub) = Ok c2 /\ end_element c2 = Ok c3 /\ run V c3 (flat_map events kids) = Ok c'.
  Proof.
    intros g sub kids c c' E. cbn [flat_map events] in E. cbn [app run step] in E. destruct (start_element V c g) as [c1| | |]; try discriminate E. cbn [bind] in E.
    rewrite <- app_assoc in E. apply ok_parts in E as (c2 & E2 & E). cbn [app run step] in E. destruct (end_element c2) as [c3| | |] eqn:E3; try discriminate E.
    exists c1, c2, c3. auto.
  Qed.
  Lemma foreign_lemma : forall n kids c k below c', (length (flat_map events kids) <= n)%nat -> c_stack c = HForeign (Datatypes.S k) :: below ->
    run V c (flat_map events kids) = Ok c' -> c_stack c' = HForeign (Datatypes.S k) :: below /\ c_top c' = c_top c.
  Proof.
    induction n as [|n IH]; intros [|[g sub|s] kids] c k below c' L St E; try (cbn in E; injection E as <-; split; [exact St|reflexivity]).
    - cbn in L. lia.
    - cbn in L. lia.
    - apply ok_element in E as (c1 & c2 & c3 & E1 & E2 & E3 & E4). cbn [flat_map events] in L. cbn [app length] in L. rewrite !app_length in L. cbn [length] in L.
      unfold start_element in E1. rewrite St in E1. injection E1 as <-.
      apply (IH sub _ (Datatypes.S k) below) in E2 as [E2 T2]; [|lia|reflexivity].
      unfold end_element in E3. rewrite E2 in E3. injection E3 as <-.
      apply (IH kids _ k below) in E4 as [E4 T4]; [|lia|reflexivity]. split; [exact E4|]. rewrite T4. cbn. exact T2.
    - cbn [flat_map events app length] in L. cbn [flat_map events app run step] in E. unfold characters in E. rewrite St in E. cbn [bind] in E.
      eapply IH; [|exact St|exact E]. lia.
  Qed.
  Lemma fits_lemma : forall n kids c l c', (length (flat_map events kids) <= n)%nat -> at_ c l -> run V c (flat_map events kids) = Ok c' ->
    exists p', fits (hd Top l) kids p' /\ at_ c' (put p' (tl l)) /\ (p' = Top -> tl l = []).
  Proof.
    induction n as [|n IH]; intros [|[g sub|s] kids] c l c' L A E;
      try (cbn in E; injection E as <-; exists (hd Top l); split; [constructor|apply stay, A]); try (cbn in L; lia).
    - apply ok_element in E as (c1 & c2 & c3 & E1 & E2 & E3 & E4). cbn [flat_map events] in L. cbn [app length] in L. rewrite !app_length in L. cbn [length] in L.
      destruct (start_entered _ _ _ _ A E1) as (T1 & q & p' & EL & S1 & W).
      assert (K : exists q1, fits q sub q1 /\ ends q1 /\ at_ c3 (put p' (tl l))).
      { assert (PF : Forall plain_part (put p' (tl l))).
        { destruct W as [(P1 & P2 & _)|(-> & _)]; [rewrite put_plain by exact P1; constructor; assumption|constructor]. }
        assert (Q : q <> Foreign \/ (q = Foreign /\ p' = Top /\ c_stack c1 = [HForeign 1])).
        { destruct W as [(_ & _ & _ & _ & Q)|(-> & _ & [(_ & _ & Q)|[->|[-> Q]]])]; auto. left. discriminate. }
        destruct Q as [Q|(-> & -> & Q)].
        - destruct (IH sub c1 (q :: put p' (tl l)) c2) as (q1 & F & A2 & NT); [lia| |exact E2|].
          + split; [exact T1|]. split; [exact S1|]. destruct W as [(P1 & P2 & P3)|(-> & TL & [P3|[->|[-> _]]])].
            * left. constructor; assumption.
            * left. constructor; assumption.
            * right. reflexivity.
            * congruence.
          + cbn [hd tl] in *. exists q1. split; [exact F|]. destruct A2 as (T2 & S2 & P2).
            destruct (c_stack c2) as [|h rest] eqn:St.
            * assert (q1 = Top) by (destruct q1; try reflexivity; discriminate S2). subst q1. split; [intros ?; discriminate|].
              rewrite (NT eq_refl). unfold end_element in E3. rewrite St in E3. injection E3 as <-. split; [exact T2|]. split; [rewrite St; reflexivity|left; constructor].
            * assert (S3 : part_of h = q1 /\ map part_of rest = put p' (tl l)) by (destruct q1; try discriminate S2; cbn [map put] in S2; injection S2 as S2 S2'; split; assumption).
              destruct S3 as [S3 S4]. assert (NF : part_of h <> Foreign).
              { rewrite <- S2 in P2. cbn [map] in P2. destruct P2 as [P2|P2]; [apply Forall_inv in P2 as (_ & _ & P2); exact P2|injection P2 as P2 _; rewrite P2; discriminate]. }
              destruct (end_parts c2 c3 h rest St NF E3) as (EN & T3 & S5). rewrite S3 in EN. split; [exact EN|]. split; [congruence|]. split; [congruence|]. left. exact PF.
        - apply (foreign_lemma n sub c1 0 []) in E2 as [E2 T2]; [|lia|exact Q]. exists Foreign. split; [constructor|]. split; [intros ?; discriminate|].
          unfold end_element in E3. rewrite E2 in E3. injection E3 as <-. split; [cbn; congruence|]. split; [reflexivity|left; constructor]. }
      destruct K as (q1 & F & EN & A3). destruct (IH kids c3 (put p' (tl l)) c') as (p2 & F2 & A4 & NT); [lia|exact A3|exact E4|].
      assert (HP : hd Top (put p' (tl l)) = p' /\ (p' = Top -> tl l = []) /\ tl (put p' (tl l)) = tl l).
      { destruct W as [(P1 & _)|(-> & -> & _)]; [rewrite put_plain by exact P1; split; [reflexivity|]; split; [destruct P1; congruence|reflexivity]|split; [reflexivity|split; reflexivity]]. }
      destruct HP as (HP & TP & TLP). rewrite HP in F2. rewrite TLP in A4, NT. exists p2. split; [|split; assumption]. eapply F_element; eassumption.
    - cbn [flat_map events app length] in L. cbn [flat_map events app run step] in E. destruct (characters c s) as [c1| | |] eqn:E1; try discriminate E. cbn [bind] in E.
      destruct (characters_parts _ _ _ _ A E1) as (p' & TX & A1 & NT). destruct (IH kids c1 (put p' (tl l)) c') as (p2 & F2 & A2 & NT2); [lia|exact A1|exact E|].
      assert (HP : hd Top (put p' (tl l)) = p' /\ tl (put p' (tl l)) = tl l) by (destruct p'; try (split; reflexivity); split; [reflexivity|]; rewrite (NT eq_refl); reflexivity).
      destruct HP as (HP & TLP). rewrite HP in F2. rewrite TLP in A2, NT2. exists p2. split; [|split; assumption]. eapply F_text; eassumption.
  Qed.

  Theorem compile_fits : forall g kids s, compile V (events (Elem g kids)) = Ok s -> stylesheet (Elem g kids).
  Proof.
    intros g kids s E. unfold compile in E. destruct (run V start_compiler (events (Elem g kids))) as [c'| | |] eqn:R; try discriminate E. clear E.
    cbn [events] in R. cbn [app run step] in R. destruct (start_element V start_compiler g) as [c1| | |] eqn:E1; try discriminate R. cbn [bind] in R.
    apply ok_parts in R as (c2 & E2 & E3). cbn [app run step] in E3. destruct (end_element c2) as [c3| | |] eqn:E4; try discriminate E3. clear E3.
    unfold start_element in E1. cbn [start_compiler c_stack c_top] in E1. unfold root_element in E1. cbv zeta in E1. destruct (str_eqb (g_uri g) xslt_uri) eqn:U.
    - unfold refuse at 1 in E1. destruct (is_ g "stylesheet" || is_ g "transform") eqn:L; cbn [negb] in E1; [|discriminate E1].
      unfold need in E1. destruct (gather _ _) as [r|] eqn:G; [|discriminate E1]. attrs ["version"; "extension-element-prefixes"; "exclude-result-prefixes"; "id"]%string.
      unfold refuse in E1. destruct (str_eqb (lookup r (ascii_str "version")) (ascii_str "1.0")) eqn:VE; cbn [negb] in E1; [|discriminate E1].
      destruct (negb _); [discriminate E1|]. injection E1 as <-.
      match type of E2 with run V ?c0 _ = _ => destruct (fits_lemma _ kids c0 [] c2 (Nat.le_refl _)) as (p' & F & A2 & _); [split; [reflexivity|split; [reflexivity|left; constructor]]|exact E2|] end.
      apply Z_stylesheet.
      + apply Bool.orb_true_iff in L as [L|L]; [left|right]; apply is_xsl_; assumption.
      + assumption.
      + apply str_eqb_true in VE. destruct (D (ascii_str "version")) as [Q|(a & I & Q1 & Q2)]; [rewrite Q in VE; discriminate VE|].
        exists a. split; [exact I|]. split; [exact Q1|congruence].
      + cbn [hd] in F. destruct A2 as (_ & S2 & P2). cbn [tl] in S2.
        assert (p' = Top); [|subst; exact F]. clear - F. revert F. assert (forall p (kids : list (xml (scope := scope))) p', fits p kids p' -> p = Top -> p' = Top); [|eauto].
        induction 1; intros Q; [exact Q|discriminate Q| |]; subst.
        * apply IHfits. inversion H; subst; try reflexivity; match goal with I : In _ _ |- _ => cbn in I; intuition discriminate end.
        * apply IHfits2. inversion H; subst; try reflexivity; match goal with I : In _ _ |- _ => cbn in I; intuition discriminate end.
    - unfold refuse in E1. destruct (str_eqb (root_version (g_atts g)) (ascii_str "1.0")) eqn:VE; cbn [negb] in E1; [|discriminate E1].
      unfold need in E1. destruct (x_match _ _ _ _); [|discriminate E1]. apply push_ok in E1 as (h & cx & E1 & ->). apply inline_part in E1 as (n & u & l1 & -> & T1).
      match type of E2 with run V ?c0 _ = _ => destruct (fits_lemma _ kids c0 [Body] c2 (Nat.le_refl _)) as (p' & F & A2 & _); [|exact E2|] end.
      { split; [cbn; rewrite T1; reflexivity|]. split; [reflexivity|]. left. constructor; [plain_|constructor]. }
      apply Z_literal; [apply not_xslt, U| |].
      + unfold root_version in VE. apply str_eqb_true in VE. destruct (find _ _) as [a|] eqn:FD; [|discriminate VE]. apply find_some in FD as [I Q].
        apply Bool.andb_true_iff in Q as [Q1 Q2]. apply str_eqb_true in Q1, Q2. exists a. split; [exact I|]. split; [symmetry; exact Q1|]. split; [symmetry; exact Q2|exact VE].
      + cbn [hd] in F. assert (p' = Body); [|subst; exact F]. clear - F. revert F. assert (forall p (kids : list (xml (scope := scope))) p', fits p kids p' -> p = Body -> p' = Body); [|eauto].
        induction 1; intros Q; [exact Q|discriminate Q| |]; subst.
        * apply IHfits. inversion H; subst; try reflexivity.
        * apply IHfits2. inversion H; subst; try reflexivity; match goal with I : In _ _ |- _ => cbn in I; intuition discriminate end.
  Qed.
End Grammar.
