(** Proofs about the functions of XSLT. *)
From Coq Require Import String List ZArith Lia Bool.
From Verif.Model Require Import Base Text Attrs XNode XNodeSet XCompare XStep XSort XEval XParse XSheet XFunctions.
From Verif.Spec Require Import XmlChars XOrder XNodeSetSpec XFunctionsSpec.
From Verif.Proof Require Import ContainersProof TextProof XNodeSetProof.
Import ListNotations.
Open Scope Z_scope.

(** * Names *)
Lemma str_eqb_refl : forall s, str_eqb s s = true.
Proof. intros s. apply str_eqb_true. reflexivity. Qed.
Lemma eqb_eq : forall a b, str_eqb a b = true <-> a = b.
Proof. intros a b; split; [apply str_eqb_true|intros ->; apply str_eqb_refl]. Qed.
Lemma reads_expand : forall ns raw uri local, reads ns raw uri local -> expand ns raw = Got (uri, local).
Proof.
  intros ns raw uri local [(H & -> & ->)|(p & Hp & Hl & -> & E)]; unfold expand.
  - rewrite parse_qname_plain by exact H. reflexivity.
  - rewrite parse_qname_prefixed by assumption. cbn [q_uri q_local]. rewrite E. reflexivity.
Qed.

(** * element-available *)
Section Elements.
  Context {scope X M N P : Type} (V : services (scope := scope) (X := X) (M := M) (N := N) (P := P)).
  Notation compiler := (compiler (X := X) (M := M) (N := N) (P := P)).
  Notation tag := (tag (scope := scope)).
  Definition att (n : string) (s : str) : attr := Attr [] (ascii_str n) (ascii_str n) [] s.

  Lemma instruction_names : forall (c : compiler) (g : tag) r, instruction V c g = Some r ->
    existsb (str_eqb (g_local g)) xslt_names = true.
  Proof.
    intros c g r. unfold instruction, is_.
    repeat match goal with
    | |- (if str_eqb (g_local g) ?n then _ else _) = _ -> _ =>
        destruct (str_eqb (g_local g) n) eqn:?;
        [intros _; match goal with H : str_eqb (g_local g) _ = true |- _ => apply str_eqb_true in H; rewrite H end; vm_compute; reflexivity|]
    end.
    discriminate.
  Qed.
  Lemma started : forall (c : compiler) x items done below (g : tag), c_stack c = Box (KIf x) items done :: below ->
    g_uri g = xslt_uri ->
    start_element V c g = match instruction V c g with Some r => push (Box (KIf x) items true :: below) r | None => Throws end.
  Proof.
    intros c x items done below g E U. unfold start_element. rewrite E. unfold box_start. rewrite U, str_eqb_refl. reflexivity.
  Qed.
  Lemma makes : forall (c : compiler) n, able V (c_current c) -> In n xslt_names ->
    n <> ascii_str "fallback" -> n <> ascii_str "number" ->
    exists (g : tag) h, g_uri g = xslt_uri /\ g_local g = n /\ instruction V c g = Some (Ok (h, c)).
  Proof.
    intros c n ((sc & s & e & S & E) & (sc1 & s1 & e1 & S1 & E1) & (sc2 & s2 & n2 & S2 & E2)) I F G.
    destruct s as [|z s]; [congruence|]. destruct s1 as [|z1 s1]; [congruence|]. destruct s2 as [|z2 s2]; [congruence|].
    destruct V as [xe xa xm xn xc xu xs]. cbn [x_expr x_avt x_name] in E, E1, E2.
    destruct c as [c_t c_s c_a c_au c_cu c_sh]. cbn [c_current] in *.
    cbn in I.
    Ltac with_ sc l n := exists (Tag sc xslt_uri (ascii_str n) (ascii_str n) l).
    Ltac close E := eexists; split; [reflexivity|split; [reflexivity|]]; 
      unfold instruction, is_, expr, avt, variable, named_content; cbn [g_local g_atts g_scope c_current c_auto x_expr x_avt x_name x_namespaces];
      vm_compute; first [rewrite E|idtac]; reflexivity.
    repeat (destruct I as [<-|I]; [|]).
    - exists (Tag sc xslt_uri (ascii_str "apply-imports") [] []); close E.
    - exists (Tag sc xslt_uri (ascii_str "apply-templates") [] []); close E.
    - exists (Tag sc1 xslt_uri (ascii_str "attribute") [] [att "name" (z1 :: s1)]); close E1.
    - exists (Tag sc2 xslt_uri (ascii_str "call-template") [] [att "name" (z2 :: s2)]); close E2.
    - exists (Tag sc xslt_uri (ascii_str "choose") [] []); close E.
    - exists (Tag sc xslt_uri (ascii_str "comment") [] []); close E.
    - exists (Tag sc xslt_uri (ascii_str "copy") [] []); close E.
    - exists (Tag sc xslt_uri (ascii_str "copy-of") [] [att "select" (z :: s)]); close E.
    - exists (Tag sc1 xslt_uri (ascii_str "element") [] [att "name" (z1 :: s1)]); close E1.
    - destruct F. reflexivity.
    - exists (Tag sc xslt_uri (ascii_str "for-each") [] [att "select" (z :: s)]); close E.
    - exists (Tag sc xslt_uri (ascii_str "if") [] [att "test" (z :: s)]); close E.
    - exists (Tag sc xslt_uri (ascii_str "message") [] []); close E.
    - destruct G. reflexivity.
    - exists (Tag sc1 xslt_uri (ascii_str "processing-instruction") [] [att "name" (z1 :: s1)]); close E1.
    - exists (Tag sc xslt_uri (ascii_str "text") [] []); close E.
    - exists (Tag sc xslt_uri (ascii_str "value-of") [] [att "select" (z :: s)]); close E.
    - exists (Tag sc2 xslt_uri (ascii_str "variable") [] [att "name" (z2 :: s2)]); close E2.
    - destruct I.
  Qed.
  Lemma elements_lemma : forall (c : compiler) x items done below ns raw n,
    reads ns raw xslt_uri n -> c_stack c = Box (KIf x) items done :: below -> able V (c_current c) ->
    n <> ascii_str "fallback" -> n <> ascii_str "number" ->
    (element_available ns raw = Got true <->
     exists (g : tag) c', g_uri g = xslt_uri /\ g_local g = n /\ start_element V c g = Ok c').
  Proof.
    intros c x items done below ns raw n R E A F G. unfold element_available. rewrite (reads_expand _ _ _ _ R).
    cbn [andthen]. rewrite str_eqb_refl. cbn [negb andb]. split.
    - intros H0. assert (H : existsb (str_eqb n) xslt_names = true) by congruence. clear H0.
      apply existsb_exists in H. destruct H as (m & I & H). apply str_eqb_true in H. subst m.
      destruct (makes c n A I F G) as (g & h & U & L & K).
      exists g. eexists. split; [exact U|split; [exact L|]]. rewrite (started _ _ _ _ _ _ E U), K. reflexivity.
    - intros (g & c' & U & L & K). rewrite (started _ _ _ _ _ _ E U) in K.
      destruct (instruction V c g) as [r|] eqn:J; [|discriminate]. f_equal. rewrite <- L. exact (instruction_names c g r J).
  Qed.
  Lemma unready_lemma : forall (c : compiler) x items done below (g : tag),
    c_stack c = Box (KIf x) items done :: below -> g_uri g = xslt_uri ->
    g_local g = ascii_str "fallback" \/ g_local g = ascii_str "number" -> start_element V c g = Throws.
  Proof.
    intros c x items done below g E U L. rewrite (started _ _ _ _ _ _ E U). unfold instruction, is_.
    destruct L as [L|L]; rewrite L; reflexivity.
  Qed.
End Elements.

(** * function-available and calls *)
Lemma look_function_in : forall name l g, look_function name l = Some g -> In (name, g) l.
Proof.
  induction l as [|(m, h) l IH]; intros g; cbn [look_function]; [discriminate|].
  destruct (str_eqb name m) eqn:E; [|intros H; right; auto]. intros H. apply str_eqb_true in E. left. congruence.
Qed.
Lemma look_added_in : forall name l g, look_added name l = Some g -> In (name, g) l.
Proof.
  induction l as [|(m, h) l IH]; intros g; cbn [look_added]; [discriminate|].
  destruct (str_eqb name m) eqn:E; [|intros H; right; auto]. intros H. apply str_eqb_true in E. left. congruence.
Qed.
Lemma look_function_none : forall name l, look_function name l = None -> ~ In name (map fst l).
Proof.
  induction l as [|(m, h) l IH]; cbn [look_function map fst In]; [auto|].
  destruct (str_eqb name m) eqn:E; [discriminate|]. intros H [K|K]; [subst; rewrite str_eqb_refl in E; discriminate|exact (IH H K)].
Qed.
Lemma look_added_none : forall name l, look_added name l = None -> ~ In name (map fst l).
Proof.
  induction l as [|(m, h) l IH]; cbn [look_added map fst In]; [auto|].
  destruct (str_eqb name m) eqn:E; [discriminate|]. intros H [K|K]; [subst; rewrite str_eqb_refl in E; discriminate|exact (IH H K)].
Qed.
Lemma functions_lemma : forall ns raw uri n, reads ns raw uri n -> n <> ascii_str "unparsed-entity-uri" ->
  (function_available ns raw = Got true <-> exists k f, make_function true uri n k = Got f /\ f <> Undefined).
Proof.
  intros ns raw uri n R F. unfold function_available. rewrite (reads_expand _ _ _ _ R). cbn [andthen]. split.
  - intros H0. assert (H : existsb (fun p => str_eqb (fst p) uri && str_eqb (snd p) n) valid_names = true) by congruence. clear H0.
    apply existsb_exists in H. destruct H as ((u, m) & I & H).
    apply andb_true_iff in H. destruct H as (H & H'). apply str_eqb_true in H, H'. cbn [fst snd] in H, H'. subst u m.
    assert (U : uri = []).
    { unfold valid_names in I. apply in_app_iff in I. destruct I as [I|I]; apply in_map_iff in I; destruct I as (p & E & _); congruence. }
    subst uri.
    unfold valid_names in I. cbn in I.
    repeat (destruct I as [I|I]; [injection I as <-;
      first [destruct F; reflexivity
            |exists 0%nat; eexists; split; [vm_compute; reflexivity|discriminate]
            |exists 1%nat; eexists; split; [vm_compute; reflexivity|discriminate]
            |exists 2%nat; eexists; split; [vm_compute; reflexivity|discriminate]
            |exists 3%nat; eexists; split; [vm_compute; reflexivity|discriminate]]|]).
    destruct I.
  - intros (k & f & H & D). f_equal. apply existsb_exists. unfold make_function in H.
    destruct uri as [|z uri].
    + exists ([], n). split; [|cbn [fst snd]; rewrite !str_eqb_refl; reflexivity].
      unfold valid_names. apply in_app_iff.
      destruct (look_function n function_table) as [g|] eqn:L.
      * left. apply look_function_in in L. apply in_map_iff. exists (n, g). split; [reflexivity|exact L].
      * right. unfold resolve_function in H. destruct (look_added n added_table) as [a|] eqn:L'; [|discriminate].
        apply look_added_in in L'. cbn in L'.
        repeat (destruct L' as [L'|L']; [injection L' as <- _; cbn; tauto|]). destruct L'.
    + destruct (look_function n function_table); cbn in H; injection H as <-; destruct D; reflexivity.
Qed.
Lemma leb_true : forall a b, Nat.leb a b = true <-> (a <= b)%nat.
Proof. intros; apply Nat.leb_le. Qed.
Definition in_table (name : str) : option (nat * option nat) := option_map snd (find (fun p => str_eqb (fst p) name) functions).
Lemma functions_once : NoDup (map fst functions).
Proof.
  assert (H : (fix nd (l : list str) : bool := match l with [] => true | a :: l => negb (existsb (str_eqb a) l) && nd l end) (map fst functions) = true)
    by (vm_compute; reflexivity).
  revert H. generalize (map fst functions). induction l as [|a l IH]; intros H; [constructor|].
  apply andb_true_iff in H. destruct H as (H & K). constructor; [|exact (IH K)].
  intros I. apply negb_true_iff in H. enough (existsb (str_eqb a) l = true) by congruence.
  apply existsb_exists. exists a. split; [exact I|apply str_eqb_refl].
Qed.
Lemma in_once : forall {A B} (l : list (A * B)) a b b', NoDup (map fst l) -> In (a, b) l -> In (a, b') l -> b = b'.
Proof.
  induction l as [|(c, d) l IH]; intros a b b' D; cbn [In map fst] in *; [tauto|]. inversion D as [|? ? F D']; subst.
  intros [E|E] [E'|E']; try congruence.
  - injection E as -> ->. destruct F. apply in_map_iff. exists (a, b'). auto.
  - injection E' as -> ->. destruct F. apply in_map_iff. exists (a, b). auto.
  - eauto.
Qed.
Lemma calls_lemma : forall name n, ~ In name missing ->
  ((exists f, make_function true [] name n = Got f) <-> can_be_called name n).
Proof.
  intros name n M.
  assert (K : (exists sig, In (name, sig) functions /\
                ((exists f, make_function true [] name n = Got f) <->
                 (fst sig <= n)%nat /\ match snd sig with Some m => (n <= m)%nat | None => True end)) \/
              (~ In name (map fst functions) /\ forall f, make_function true [] name n <> Got f)).
  { unfold make_function. destruct (look_function name function_table) as [g|] eqn:L.
    - left. apply look_function_in in L.
      assert (S : In (name, arity g) functions).
      { cbn in L. repeat (destruct L as [L|L]; [injection L as <- <-; vm_compute; tauto|]). destruct L. }
      exists (arity g). split; [exact S|]. unfold arity_ok. destruct (arity g) as (a, b). cbn [fst snd].
      destruct b as [b|].
      + destruct (a <=? n)%nat eqn:E1; destruct (n <=? b)%nat eqn:E2; cbn [andb];
          try apply Nat.leb_le in E1; try apply Nat.leb_le in E2; try apply Nat.leb_gt in E1; try apply Nat.leb_gt in E2;
          split; intros H; try (destruct H; discriminate); try lia; eauto.
      + destruct (a <=? n)%nat eqn:E1; cbn [andb];
          try apply Nat.leb_le in E1; try apply Nat.leb_gt in E1;
          split; intros H; try (destruct H; discriminate); try lia; eauto.
    - unfold resolve_function. destruct (look_added name added_table) as [a|] eqn:L'.
      + left. apply look_added_in in L'.
        assert (S : In (name, (fst (added_arity a), Some (snd (added_arity a)))) functions).
        { cbn in L'. repeat (destruct L' as [L'|L']; [injection L' as <- <-; vm_compute; tauto|]). destruct L'. }
        exists (fst (added_arity a), Some (snd (added_arity a))). split; [exact S|]. cbn [fst snd].
        assert (E : match a with Current => if added_arity_ok Current n then Got (Some (Added Current)) else Raises | a => if added_arity_ok a n then Got (Some (Added a)) else Raises end
                    = if added_arity_ok a n then Got (Some (Added a)) else Raises) by (destruct a; reflexivity).
        cbn match. rewrite E. unfold added_arity_ok.
        destruct (fst (added_arity a) <=? n)%nat eqn:E1; destruct (n <=? snd (added_arity a))%nat eqn:E2; cbn [andb andthen];
          try apply Nat.leb_le in E1; try apply Nat.leb_le in E2; try apply Nat.leb_gt in E1; try apply Nat.leb_gt in E2;
          split; intros H; try (destruct H; discriminate); try lia; eauto.
      + right. split; [|intros f; cbn [andthen]; discriminate].
        apply look_function_none in L. apply look_added_none in L'. intros I. cbn in I, L, L', M.
        repeat (destruct I as [I|I]; [subst name; tauto|]). destruct I. }
  unfold can_be_called. destruct K as [((a, b) & S & K)|(K & K')].
  - rewrite K. cbn [fst snd]. split.
    + intros (H1 & H2). exists a, b. auto.
    + intros (a' & b' & S' & H1 & H2). pose proof (in_once _ _ _ _ functions_once S S') as E. injection E as -> ->. auto.
  - split; [intros (f & H); destruct (K' f H)|]. intros (a & b & S & _). destruct K. apply in_map_iff. exists (name, (a, b)). auto.
Qed.
Lemma missing_lemma : forall name n, In name missing -> make_function true [] name n = Raises.
Proof. intros name n I. cbn in I. repeat (destruct I as [<-|I]; [reflexivity|]). destruct I. Qed.
Lemma foreign_lemma : forall current uri name n, uri <> [] -> make_function current uri name n = Got Undefined.
Proof. intros current [|z uri] name n H; [congruence|]. unfold make_function. destruct (look_function name function_table); reflexivity. Qed.

(** * generate-id *)
Definition digit_value (c : Z) : Z := if c <? 58 then c - 48 else c - 87.
Definition hex_value (s : str) : Z := fold_left (fun a c => 16 * a + digit_value c) s 0.
Lemma digit_back : forall d, 0 <= d < 16 -> digit_value (digit d) = d.
Proof. intros d H. unfold digit_value, digit. destruct (d <? 10) eqn:E; destruct (_ <? 58) eqn:F; lia. Qed.
Lemma hex_back : forall fuel n, 0 <= n < 2 ^ Z.of_nat fuel -> hex_value (hex fuel n) = n.
Proof.
  induction fuel as [|fuel IH]; intros n H.
  - change (2 ^ Z.of_nat 0) with 1 in H. assert (n = 0) by lia. subst. reflexivity.
  - assert (M : 0 <= n mod 16 < 16) by (apply Z.mod_pos_bound; lia).
    assert (D : n = 16 * (n / 16) + n mod 16) by (apply Z.div_mod; lia).
    cbn [hex]. unfold hex_value. rewrite fold_left_app. cbn [fold_left]. rewrite digit_back by exact M.
    destruct (n / 16 =? 0) eqn:E.
    + cbn [fold_left]. apply Z.eqb_eq in E. lia.
    + fold (hex_value (hex fuel (n / 16))). rewrite IH; [lia|].
      rewrite Nat2Z.inj_succ, Z.pow_succ_r in H by lia. apply Z.eqb_neq in E. split; [apply Z.div_pos; lia|].
      apply Z.div_lt_upper_bound; lia.
Qed.
Lemma pointer_back : forall n, 0 <= n -> hex_value (match pointer n with _ :: _ :: s => s | _ => [] end) = n.
Proof.
  intros n H. unfold pointer. destruct (n =? 0) eqn:E; [apply Z.eqb_eq in E; subst; reflexivity|].
  apply Z.eqb_neq in E. apply hex_back. split; [lia|].
  rewrite Nat2Z.inj_succ, Z2Nat.id by apply Z.log2_nonneg. apply Z.log2_spec. lia.
Qed.
Lemma pointer_one : forall a b, 0 <= a -> 0 <= b -> pointer a = pointer b -> a = b.
Proof. intros a b A B E. rewrite <- (pointer_back a A), <- (pointer_back b B), E. reflexivity. Qed.
Lemma digit_plain : forall d, 0 <= d < 16 -> alphanumeric (digit d).
Proof. intros d H. unfold alphanumeric, digit. destruct (d <? 10) eqn:E; lia. Qed.
Lemma hex_plain : forall fuel n, Forall alphanumeric (hex fuel n).
Proof.
  induction fuel as [|fuel IH]; intros n; cbn [hex]; [constructor|]. apply Forall_app. split.
  - destruct (n / 16 =? 0); [constructor|apply IH].
  - constructor; [|constructor]. apply digit_plain. apply Z.mod_pos_bound. lia.
Qed.
Lemma pointer_plain : forall n, Forall alphanumeric (pointer n) /\ exists r, pointer n = 48 :: r.
Proof.
  intros n. unfold pointer. destruct (n =? 0).
  - split; [repeat constructor; unfold alphanumeric; lia|eauto].
  - split; [|eauto]. constructor; [unfold alphanumeric; lia|]. constructor; [unfold alphanumeric; lia|apply hex_plain].
Qed.
Lemma ids_lemma : forall k address (there : xnode -> Prop), (forall x, there x -> 0 <= address x) ->
  (forall x y, there x -> there y -> address x = address y -> x = y) ->
  forall x y p l p' l', there x -> there y ->
  exists s t, generate_id k address [] x p l = Got (VStr s) /\ generate_id k address [] y p' l' = Got (VStr t) /\
    s <> [] /\ Forall alphanumeric s /\ (s = t <-> x = y).
Proof.
  intros k address there N I x y p l p' l' X Y. exists (pointer (address x)), (pointer (address y)).
  split; [reflexivity|]. split; [reflexivity|]. destruct (pointer_plain (address x)) as (H & r & E).
  split; [rewrite E; discriminate|]. split; [exact H|]. split; [|intros ->; reflexivity].
  intros K. apply I; [exact X|exact Y|]. apply pointer_one; auto.
Qed.
Lemma id_of_set_lemma : forall k address e x p l s, sorts (e_sort k) -> documents (e_forest k) -> made (e_sort k) (e_forest k) s ->
  e x p l = Got (VSet s) ->
  (s_nodes s = [] /\ generate_id k address [e] x p l = Got (VStr [])) \/
  exists y, In y (s_nodes s) /\ (forall z, In z (s_nodes s) -> z = y \/ precedes (e_forest k) y z) /\
    generate_id k address [e] x p l = generate_id k address [] y p l.
Proof.
  intros k address e x p l s S D M E. unfold generate_id at 1 2. cbn [node_arg]. rewrite E. cbn [andthen as_set].
  destruct (s_nodes s) as [|y0 r] eqn:Q.
  - left. split; reflexivity.
  - right. destruct (top_made _ _ _ S D M) as (y & T & I & F); [rewrite Q; discriminate|].
    rewrite Q in I, F. exists y. rewrite T. split; [exact I|]. split; [exact F|]. reflexivity.
Qed.

(** * system-property *)
Lemma ncname_once : forall p l q m, ~ In 58 p -> ~ In 58 q -> p ++ [58] ++ l = q ++ [58] ++ m -> p = q /\ l = m.
Proof.
  induction p as [|c p IH]; intros l [|d q] m P Q E; cbn in *.
  - injection E as ->. auto.
  - injection E as <- _. tauto.
  - injection E as -> _. tauto.
  - injection E as <- E. destruct (IH l q m) as (-> & ->); [tauto|tauto|exact E|]. auto.
Qed.
Lemma property_lemma : forall ns raw uri local, reads ns raw uri local ->
  (forall p, ns p = Some xslt_uri <-> p = ascii_str "xsl") -> system_property raw = property uri local.
Proof.
  intros ns raw uri local R P. unfold property.
  assert (Z0 : ~ In 58 (ascii_str "xsl")) by (vm_compute; intuition discriminate).
  assert (K : forall s, ~ In 58 (ascii_str s) -> str_eqb raw (ascii_str "xsl" ++ [58] ++ ascii_str s) = true <-> uri = xslt_uri /\ local = ascii_str s).
  { intros s HS. rewrite str_eqb_true. destruct R as [(H & -> & ->)|(p & Hp & Hl & -> & E)].
    - split; [|intros (F & _); discriminate]. intros ->. destruct (ncname_no_colon _ H). apply in_or_app. right. left. reflexivity.
    - split.
      + intros H. apply ncname_once in H; [|apply ncname_no_colon; exact Hp|exact Z0]. destruct H as (-> & ->).
        split; [|reflexivity]. pose proof (proj2 (P (ascii_str "xsl")) eq_refl) as F. congruence.
      + intros (-> & ->). f_equal. apply P. exact E. }
  unfold system_property.
  change (ascii_str "xsl:version") with (ascii_str "xsl" ++ [58] ++ ascii_str "version").
  change (ascii_str "xsl:vendor") with (ascii_str "xsl" ++ [58] ++ ascii_str "vendor").
  change (ascii_str "xsl:vendor-url") with (ascii_str "xsl" ++ [58] ++ ascii_str "vendor-url").
  assert (N : forall s, ~ In 58 (ascii_str s) -> (uri = xslt_uri /\ local = ascii_str s) \/ str_eqb raw (ascii_str "xsl" ++ [58] ++ ascii_str s) = false).
  { intros s HS. destruct (str_eqb raw (ascii_str "xsl" ++ [58] ++ ascii_str s)) eqn:E; [left; apply K; assumption|right; reflexivity]. }
  destruct (list_eq_dec Z.eq_dec uri xslt_uri) as [->|U].
  - repeat match goal with
    | |- context [list_eq_dec Z.eq_dec local (ascii_str ?s)] =>
        let HS := fresh in
        assert (HS : ~ In 58 (ascii_str s)) by (vm_compute; intuition discriminate);
        destruct (list_eq_dec Z.eq_dec local (ascii_str s)) as [->|?];
        [|destruct (N s HS) as [(_ & ?)|?]; [congruence|]]
    end.
    all: repeat match goal with H : str_eqb _ _ = false |- _ => rewrite H; clear H end.
    1: rewrite (proj2 (K "version"%string ltac:(assumption)) (conj eq_refl eq_refl)).
    2: rewrite (proj2 (K "vendor"%string ltac:(assumption)) (conj eq_refl eq_refl)).
    3: rewrite (proj2 (K "vendor-url"%string ltac:(assumption)) (conj eq_refl eq_refl)).
    all: reflexivity.
  - assert (F : forall s, ~ In 58 (ascii_str s) -> str_eqb raw (ascii_str "xsl" ++ [58] ++ ascii_str s) = false).
    { intros s HS. destruct (N s HS) as [(F & _)|F]; [congruence|exact F]. }
    rewrite !F by (vm_compute; intuition discriminate). reflexivity.
Qed.

(** * document *)
Lemma Forall2_weaken : forall {A B} (P Q : A -> B -> Prop) l r, (forall a b, P a b -> Q a b) -> Forall2 P l r -> Forall2 Q l r.
Proof. intros A B P Q l r H F. induction F; constructor; auto. Qed.
Lemma Forall2_back : forall {A B} (P : A -> B -> Prop) l r, Forall2 P l r -> forall b, In b r -> exists a, In a l /\ P a b.
Proof.
  intros A B P l r F. induction F as [|a b l r H F IH]; intros c [].
  - subst. exists a. split; [left; reflexivity|exact H].
  - destruct (IH c) as (x & I & K); [assumption|]. exists x. split; [right; exact I|exact K].
Qed.
Lemma documents_lemma : forall world first base b, Uri.parse base = Val b ->
  forall locations loaded results loaded',
  documents_run world first base locations loaded = Got (loaded', results) ->
  (exists more, loaded' = loaded ++ more) /\
  Forall2 (fun location s => exists u, Uri.resolve b location = Val (Some u) /\
    match world (Uri.as_string u) with
    | None => s_nodes s = []
    | Some t => exists i, (length loaded <= i)%nat /\ s_nodes s = [((first + i)%nat, [])] /\ nth_error loaded' i = Some t
    end) locations results /\ NoDup (flat_map s_nodes results).
Proof.
  intros world first base b B. induction locations as [|a locations IH]; intros loaded results loaded' E; cbn [documents_run] in E.
  - injection E as <- <-. split; [exists []; symmetry; apply app_nil_r|]. split; [constructor|constructor].
  - cbn [document] in E. unfold load_document in E. rewrite B in E. cbn [obind] in E.
    destruct (Uri.resolve b a) as [[u|]| |] eqn:R; cbn [obind lift andthen from_option] in E; try discriminate.
    destruct (world (Uri.as_string u)) as [t|] eqn:W; cbn [obind lift andthen from_option] in E.
    + destruct (documents_run _ _ _ locations _) as [[l2 rs]| | |] eqn:Q in E; cbn [andthen] in E; try discriminate.
      injection E as <- <-. destruct (IH _ _ _ Q) as ((more & ->) & F & D).
      split; [exists (t :: more); rewrite <- app_assoc; reflexivity|]. split.
      * constructor.
        -- exists u. split; [exact R|]. rewrite W. exists (length loaded). split; [lia|]. split; [reflexivity|].
           rewrite <- app_assoc. rewrite nth_error_app2, Nat.sub_diag by lia. reflexivity.
        -- eapply Forall2_weaken; [|exact F]. intros x y (v & H1 & H2). exists v. split; [exact H1|].
           destruct (world (Uri.as_string v)); [|exact H2]. destruct H2 as (i & H2 & H3). exists i. rewrite app_length in H2. cbn in H2. split; [lia|exact H3].
      * cbn [flat_map push_node s_nodes new_set app]. constructor; [|exact D]. intros I. apply in_flat_map in I. destruct I as (s & I & J).
        destruct (Forall2_back _ _ _ F _ I) as (x & _ & v & _ & H2). destruct (world (Uri.as_string v)).
        -- destruct H2 as (i & H2 & H3 & _). rewrite H3 in J. destruct J as [J|[]]. rewrite app_length in H2. cbn in H2. injection J as J. lia.
        -- rewrite H2 in J. exact J.
    + destruct (documents_run _ _ _ locations _) as [[l2 rs]| | |] eqn:Q in E; cbn [andthen] in E; try discriminate.
      injection E as <- <-. destruct (IH _ _ _ Q) as (G & F & D). split; [exact G|]. split; [|exact D].
      constructor; [|exact F]. exists u. split; [exact R|]. rewrite W. reflexivity.
Qed.
