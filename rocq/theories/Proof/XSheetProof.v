(** Compiling gives what the stylesheet says. *)
From Coq Require Import String.
From Verif.Model Require Import Base Chars Containers Attrs XSort XOutput XSheet.
From Verif.Spec Require Import XSheetSpec.
From Verif.Proof Require Import Tac ContainersProof.
From Coq Require Import List Lia.
Import ListNotations.
Open Scope Z_scope.

(** * Attributes *)
Definition plain (n : string) : bool := negb (existsb (Z.eqb 58) (ascii_str n)).
Lemma plain_not : forall n, plain n = true -> ~ In 58 (ascii_str n).
Proof.
  intros n H I. unfold plain in H. assert (E : existsb (Z.eqb 58) (ascii_str n) = true) by (apply existsb_exists; exists 58; split; [exact I|reflexivity]).
  rewrite E in H. discriminate H.
Qed.
Lemma lookup_cons : forall k v m n, lookup ((k, v) :: m) n = if str_eqb k n then v else lookup m n.
Proof. intros. unfold lookup. cbn. destruct (str_eqb k n); reflexivity. Qed.
Lemma seq_refl : forall s : str, str_eqb s s = true.
Proof. intro s. destruct (str_eqb s s) eqn:E; [reflexivity|]. apply str_eqb_false in E. congruence. Qed.
Lemma gather_lookup : forall rules k atts res m, gather_all rules atts res = Some m ->
  Forall (fun a => a_local a <> []) atts ->
  (forall a, In a atts -> a_uri a <> [] -> a_local a <> k) ->
  NoDup (map (fun a => (a_uri a, a_local a)) atts) ->
  (forall a, In a atts -> a_uri a = [] -> a_local a = k -> lookup m k = a_value a) /\
  ((forall a, In a atts -> a_uri a = [] -> a_local a <> k) -> lookup m k = lookup res k).
Proof.
  intros rules k. induction atts as [|a atts IH]; intros res m H L Q D.
  - cbn in H. injection H as <-. split; [intros a []|reflexivity].
  - inversion L as [|? ? L1 L2]; subst. inversion D as [|? ? D1 D2]; subst.
    assert (H' : gather_all rules atts ((a_local a, a_value a) :: res) = Some m).
    { cbn [gather_all] in H. destruct (a_local a) eqn:E; [congruence|]. cbn [empty] in H.
      destruct (empty (a_uri a)).
      - destruct (find_rule rules (z :: l)); [|discriminate]. destruct (allowed _ _); [exact H|discriminate].
      - destruct (_ && _); [|exact H]. destruct (allowed _ _); [exact H|discriminate]. }
    destruct (IH _ _ H' L2 (fun b I => Q b (or_intror I)) D2) as [R1 R2]. split.
    + intros b [<-|I] U K.
      * rewrite R2, lookup_cons, <- K, seq_refl; [reflexivity|].
        intros b I U' K'. apply D1. apply in_map_iff. exists b. rewrite U, U', K, K'. split; [reflexivity|exact I].
      * apply R1; assumption.
    + intro N. rewrite R2 by (intros b I; apply N; right; exact I).
      rewrite lookup_cons. destruct (str_eqb (a_local a) k) eqn:E; [|reflexivity]. apply str_eqb_true in E.
      destruct (a_uri a) eqn:U; [exfalso; apply (N a (or_introl eq_refl) U E)|].
      exfalso. apply (Q a (or_introl eq_refl)); [rewrite U; discriminate|exact E].
Qed.
Section Atts.
  Context {scope : Type}.
  Implicit Types g : tag (scope := scope).
  Lemma has_unique : forall g n v w, ordinary_tag g -> has g n v -> has g n w -> v = w.
  Proof.
    intros g n v w (D & _) (a & Ia & Ua & La & <-) (b & Ib & Ub & Lb & <-).
    assert (forall l : list attr, NoDup (map (fun a => (a_uri a, a_local a)) l) -> In a l -> In b l -> a = b) as H.
    { induction l as [|c l IH]; intros ND [] []; subst.
      - congruence.
      - exfalso. inversion ND; subst. apply H2. apply in_map_iff. exists b. rewrite Ua, Ub, La, Lb. split; [reflexivity|assumption].
      - exfalso. inversion ND; subst. apply H2. apply in_map_iff. exists a. rewrite Ua, Ub, La, Lb. split; [reflexivity|assumption].
      - inversion ND; subst. apply IH; assumption. }
    rewrite (H _ D Ia Ib). reflexivity.
  Qed.
  Lemma q_plain : forall g n a, ordinary_tag g -> plain n = true -> In a (g_atts g) ->
    has_qname (ascii_str n) a = true <-> a_uri a = [] /\ a_local a = ascii_str n.
  Proof.
    intros g n a (_ & R & _) Pn I. rewrite Forall_forall in R. destruct (R a I) as (_ & _ & U & C). unfold has_qname. split.
    - intro E. apply str_eqb_true in E. destruct (a_uri a) eqn:Ea.
      + split; [reflexivity|]. rewrite <- (U eq_refl). congruence.
      + exfalso. apply (plain_not n Pn). specialize (C ltac:(discriminate)). congruence.
    - intros [Ea El]. rewrite (U Ea), El. apply seq_refl.
  Qed.
  Lemma has_q : forall g n v, ordinary_tag g -> plain n = true -> has g n v -> value_of_q (g_atts g) (ascii_str n) = v.
  Proof.
    intros g n v O Pn H. pose proof H as (b & Ib & Ub & Lb & Vb).
    assert (G : forall l, incl l (g_atts g) -> In b l -> first_field (has_qname (ascii_str n)) a_value l = v).
    { induction l as [|c l IH]; intros S I; [destruct I|]. cbn. destruct (has_qname (ascii_str n) c) eqn:E.
      - apply (has_unique g n); [exact O| |exact H]. apply (q_plain g) in E; [|exact O|exact Pn|apply S; left; reflexivity].
        exists c. split; [apply S; left; reflexivity|]. destruct E. repeat split; assumption.
      - destruct I as [->|I]; [|apply IH; [intros x Ix; apply S; right; exact Ix|exact I]].
        assert (has_qname (ascii_str n) b = true) by (apply (q_plain g); auto). congruence. }
    apply G; [apply incl_refl|exact Ib].
  Qed.
  Lemma lacks_q : forall g n, ordinary_tag g -> plain n = true -> lacks g n -> value_of_q (g_atts g) (ascii_str n) = [] /\ given g n = false.
  Proof.
    intros g n O Pn H. unfold value_of_q, given, index_of_q.
    assert (G : forall l, incl l (g_atts g) -> first_field (has_qname (ascii_str n)) a_value l = [] /\ find_pos (has_qname (ascii_str n)) l = None).
    { induction l as [|c l IH]; intro S; [split; reflexivity|]. cbn. destruct (has_qname (ascii_str n) c) eqn:E.
      - apply (q_plain g) in E; [|exact O|exact Pn|apply S; left; reflexivity]. destruct E. exfalso. apply (H c); [apply S; left; reflexivity|assumption|assumption].
      - destruct IH as [-> ->]; [intros x Ix; apply S; right; exact Ix|]. split; reflexivity. }
    destruct (G (g_atts g) (incl_refl _)) as [-> ->]. split; reflexivity.
  Qed.
  Lemma has_lacks : forall g n v, has g n v -> lacks g n -> False.
  Proof. intros g n v (a & I & U & L & _) H. exact (H a I U L). Qed.

  Definition known g (rules : list rule) (n : string) : Prop :=
    exists r, find_rule rules (ascii_str n) = Some r /\ (r_allowed r = [] \/ exists l, r_allowed r = map ascii_str l /\ one g n l).
  Definition filled g (r : rule) : Prop := r_mandatory r = true -> exists n v, r_name r = ascii_str n /\ plain n = true /\ has g n v /\ v <> [].
  Lemma gathers : forall g rules names, ordinary_tag g -> g_uri g = xslt -> only g names -> Forall (known g rules) names -> Forall (filled g) rules ->
    exists m, gather rules (g_atts g) = Some m /\
      forall n, In n vocabulary -> (forall v, has g n v -> lookup m (ascii_str n) = v) /\ (lacks g n -> lookup m (ascii_str n) = lookup (defaults rules) (ascii_str n)).
  Proof.
    intros g rules names O U On K F. unfold gather.
    assert (E : existsb (fun r => r_mandatory r && empty (value_of_q (g_atts g) (r_name r))) rules = false).
    { apply Bool.not_true_is_false. intro E. apply existsb_exists in E as (r & I & E). apply andb_prop in E as [Em Ee].
      rewrite Forall_forall in F. destruct (F r I Em) as (n & v & En & Pn & H & Nv). rewrite En, (has_q g n v O Pn H) in Ee. destruct v; [congruence|discriminate]. }
    rewrite E.
    assert (G : forall l res, incl l (g_atts g) -> exists m, gather_all rules l res = Some m).
    { induction l as [|a l IH]; intros res S; [eexists; reflexivity|]. cbn [gather_all].
      assert (S' : incl l (g_atts g)) by (intros x Ix; apply S; right; exact Ix).
      specialize (S a (or_introl eq_refl)).
      destruct (empty (a_local a)); [apply IH; exact S'|].
      destruct (a_uri a) eqn:Ea; cbn [empty].
      - pose proof (On a S Ea) as I. apply in_map_iff in I as (n & En & I). rewrite Forall_forall in K. destruct (K n I) as (r & Er & A).
        rewrite <- En, Er. assert (Al : allowed (r_allowed r) (a_value a) = true).
        { destruct A as [->|(l' & -> & A)]; [reflexivity|]. unfold allowed. apply Bool.orb_true_iff. right. apply existsb_exists. exists (a_value a). split; [|apply seq_refl].
          apply A. exists a. repeat split; auto. }
        rewrite Al. apply IH. exact S'.
      - destruct (str_eqb (z :: l0) xml_ns && str_eqb (a_local a) (ascii_str "space")) eqn:Es; [|apply IH; exact S'].
        apply andb_prop in Es as [E1 E2]. apply str_eqb_true in E1. apply str_eqb_true in E2.
        destruct O as (_ & _ & Sp & _). rewrite (Sp (a_value a)); [apply IH; exact S'|]. exists a. rewrite Ea. repeat split; auto. }
    destruct (G (g_atts g) (defaults rules) (incl_refl _)) as [m Em]. exists m. split; [exact Em|]. intros n I.
    destruct O as (D & R & _ & Q). destruct (Q U) as (Q1 & _).
    assert (L : Forall (fun a => a_local a <> []) (g_atts g)) by (eapply Forall_impl; [|exact R]; intros a Ha; exact (proj1 Ha)).
    destruct (gather_lookup rules (ascii_str n) _ _ _ Em L) as [G1 G2]; [|exact D|].
    - intros a Ia Ua Ea. apply (Q1 a Ia Ua). rewrite Ea. apply in_map. exact I.
    - split; [|exact G2]. intros v (a & Ia & Ua & La & <-). apply G1; assumption.
  Qed.
End Atts.

Lemma in_vocabulary : forall n, existsb (String.eqb n) vocabulary = true -> In n vocabulary.
Proof. intros n H. apply existsb_exists in H as (m & I & E). apply String.eqb_eq in E. subst. exact I. Qed.
Lemma white_blank : forall s, white s <-> blank s = true.
Proof.
  intro s. unfold white, blank. rewrite forallb_forall, Forall_forall. unfold is_space. split; intros H c I; specialize (H c I).
  - destruct H as [-> |[-> |[-> | ->]]]; reflexivity.
  - repeat apply Bool.orb_prop in H as [H|H]; try (apply Bool.orb_prop in H as [H|H]); try (apply Bool.orb_prop in H as [H|H]); apply Z.eqb_eq in H; auto.
Qed.
Lemma find_last {V} : forall (l : list (str * V)) k v, NoDup (map fst l) -> In (k, v) l -> mm_find k l = Some v.
Proof.
  induction l as [|[k' v'] l IH]; intros k v D I; [destruct I|]. inversion D as [|? ? D1 D2]; subst. cbn. destruct I as [E|I].
  - injection E as -> ->. rewrite seq_refl. reflexivity.
  - destruct (str_eqb k' k) eqn:E; [|apply IH; assumption]. apply str_eqb_true in E. subst. exfalso. apply D1. apply in_map_iff. exists (k, v). split; [reflexivity|exact I].
Qed.
Lemma find_none {V} : forall (l : list (str * V)) k, ~ In k (map fst l) -> mm_find k l = None.
Proof.
  induction l as [|[k' v'] l IH]; intros k D; [reflexivity|]. cbn. destruct (str_eqb k' k) eqn:E.
  - apply str_eqb_true in E. exfalso. apply D. left. exact E.
  - apply IH. intro I. apply D. right. exact I.
Qed.

Scheme body_min := Minimality for body Sort Prop
  with instruct_min := Minimality for instruct Sort Prop
  with passed_min := Minimality for passed Sort Prop
  with cases_min := Minimality for cases Sort Prop
  with binding_min := Minimality for binding Sort Prop.
Combined Scheme content_min from body_min, instruct_min, passed_min, cases_min, binding_min.

Section Bodies.
  Context {scope X M N P : Type} (V : services (scope := scope) (X := X) (M := M) (N := N) (P := P)).
  Notation compiler := (compiler (X := X) (M := M) (N := N) (P := P)).
  Notation tag := (tag (scope := scope)).
  Notation xml := (xml (scope := scope)).
  Context (A : list (str * (str * str))).
  Context (A1 : NoDup (map fst A)) (A2 : forall u p w, In (u, (p, w)) A -> u <> [] /\ p <> []).
  Definition settled (c : compiler) : Prop :=
    (forall sc b s, x_expr V sc (c_current c) b s = x_expr V sc true b s) /\ (forall sc s, x_avt V sc (c_current c) s = x_avt V sc true s) /\
    c_aliases c = rev A.
  Definition goes (c : compiler) (l : list event) (c' : compiler) : Prop := forall rest, run V c (l ++ rest) = run V c' rest.
  Lemma goes_nil : forall c, goes c [] c.
  Proof. intros c rest. reflexivity. Qed.
  Lemma goes_app : forall c l c' m c'', goes c l c' -> goes c' m c'' -> goes c (l ++ m) c''.
  Proof. intros c l c' m c'' H1 H2 rest. rewrite <- app_assoc, H1. apply H2. Qed.
  Lemma goes_one : forall c e c', step V c e = Ok c' -> goes c [e] c'.
  Proof. intros c e c' H rest. cbn [app run]. rewrite H. reflexivity. Qed.
  Lemma goes_element : forall c g kids c1 c2 c3, start_element V c g = Ok c1 -> goes c1 (flat_map events kids) c2 -> end_element c2 = Ok c3 ->
    goes c (events (Elem g kids)) c3.
  Proof.
    intros c g kids c1 c2 c3 H1 H2 H3. cbn [events]. change (Start g :: flat_map events kids ++ [End]) with ([Start g] ++ flat_map events kids ++ [End]).
    eapply goes_app; [apply goes_one; exact H1|]. eapply goes_app; [exact H2|]. apply goes_one. exact H3.
  Qed.
  Lemma ordinary_elem : forall (g : tag) kids, ordinary (Elem g kids) <-> ordinary_tag g /\ Forall ordinary kids.
  Proof.
    intros g kids. cbn [ordinary]. split; intros [H K]; (split; [exact H|]); induction kids as [|t kids IH].
    - constructor.
    - destruct K. constructor; auto.
    - exact Logic.I.
    - inversion K; subst. split; [assumption|apply IH; assumption].
  Qed.
  Lemma keeps_false : forall (g : tag) keep, ordinary_tag g -> keeps false g keep -> keep = false.
  Proof.
    intros g keep (_ & _ & Sp & _) [[H E]|[[_ E]|[_ E]]]; [|exact E|exact E]. specialize (Sp _ H). vm_compute in Sp. discriminate Sp.
  Qed.
  (** White space is passed over, but by xsl:text. *)
  Lemma quiet : forall c f below kids, match f with HText _ _ => False | _ => True end -> nothing false kids ->
    goes (with_stack (f :: below) c) (flat_map events kids) (with_stack (f :: below) c).
  Proof.
    intros c f below kids Hf K. induction K as [|t kids (s & -> & W & _) K IH]; [apply goes_nil|].
    cbn [flat_map events]. eapply goes_app; [|exact IH]. apply goes_one. cbn [step]. unfold characters. cbn [with_stack c_stack].
    apply white_blank in W. rewrite W. destruct f; try reflexivity. contradiction.
  Qed.
  Lemma quiet1 : forall c f below t, match f with HText _ _ => False | _ => True end -> stripped false t ->
    goes (with_stack (f :: below) c) (events t) (with_stack (f :: below) c).
  Proof.
    intros c f below t Hf K. pose proof (quiet c f below [t] Hf (Forall_cons _ K (Forall_nil _))) as H. cbn [flat_map] in H. rewrite app_nil_r in H. exact H.
  Qed.

  (** * Single elements *)
  Lemma yes_one : forall (g : tag) n b, ordinary_tag g -> yes_no g n b -> one g n ["yes"; "no"]%string.
  Proof.
    intros g n b O [[H _]|[[H|H] _]] v Hv.
    - left. exact (has_unique g n _ _ O H Hv).
    - right. left. exact (has_unique g n _ _ O H Hv).
    - exfalso. exact (has_lacks g n v Hv H).
  Qed.
  Lemma yes_is : forall (g : tag) n b m d, (forall v, has g n v -> lookup m (ascii_str n) = v) /\ (lacks g n -> lookup m (ascii_str n) = d) -> d = ascii_str "no" ->
    yes_no g n b -> yes m n = b.
  Proof.
    intros g n b m d [L1 L2] -> [[H ->]|[[H|H] ->]]; unfold yes.
    - rewrite (L1 _ H). reflexivity.
    - rewrite (L1 _ H). reflexivity.
    - rewrite (L2 H). reflexivity.
  Qed.
  Ltac which L := unfold instruction, is_; rewrite L;
    repeat (match goal with |- context [str_eqb (ascii_str ?a) (ascii_str ?b)] =>
      let v := eval vm_compute in (str_eqb (ascii_str a) (ascii_str b)) in replace (str_eqb (ascii_str a) (ascii_str b)) with v by (vm_compute; reflexivity) end; cbv iota).
  Ltac known_ := repeat first [apply Forall_nil | apply Forall_cons; [eexists; split; [reflexivity|first [left; reflexivity | right; eexists; split; [reflexivity|eassumption]]]|]].
  Ltac filled_ := repeat first [apply Forall_nil | apply Forall_cons; [let Hm := fresh in intro Hm; first [discriminate Hm | eexists _, _; split; [reflexivity|split; [reflexivity|split; [eassumption|assumption]]]]|]].
  Ltac vocab := apply in_vocabulary; reflexivity.
  Ltac collect rules O U On m L :=
    let E := fresh "E" in
    destruct (gathers _ rules _ O U On ltac:(known_) ltac:(filled_)) as (m & E & L); rewrite E; cbn [need].
  Ltac given Lm n H := rewrite (proj1 (Lm n ltac:(vocab)) _ H).
  Ltac absent Lm n H := rewrite (proj2 (Lm n ltac:(vocab)) H).
  Lemma ins_if : forall c (g : tag) x, settled c -> ordinary_tag g -> xsl g "if" -> only g ["test"]%string -> expression V g "test" x ->
    instruction V c g = Some (Ok (Box (KIf x) [] false, c)).
  Proof.
    intros c g x (S1 & S2 & S3) O (U & L) On (t & H & Nt & E). which L. collect [must "test"] O U On m Lm.
    given Lm "test"%string H. unfold expr. rewrite S1, E. reflexivity.
  Qed.
  Lemma ins_for_each : forall c (g : tag) x, settled c -> ordinary_tag g -> xsl g "for-each" -> only g ["select"]%string -> expression V g "select" x ->
    instruction V c g = Some (Ok (Box (KForEach x []) [] false, c)).
  Proof.
    intros c g x (S1 & S2 & S3) O (U & L) On (t & H & Nt & E). which L. collect [must "select"] O U On m Lm.
    given Lm "select"%string H. unfold expr. rewrite S1, E. reflexivity.
  Qed.
  Lemma ins_copy_of : forall c (g : tag) x, settled c -> ordinary_tag g -> xsl g "copy-of" -> only g ["select"]%string -> expression V g "select" x ->
    instruction V c g = Some (Ok (HCopyOf x, c)).
  Proof.
    intros c g x (S1 & S2 & S3) O (U & L) On (t & H & Nt & E). which L. collect [must "select"] O U On m Lm.
    given Lm "select"%string H. unfold expr. rewrite S1, E. reflexivity.
  Qed.
  Lemma ins_value_of : forall c (g : tag) x d, settled c -> ordinary_tag g -> xsl g "value-of" -> only g ["select"; "disable-output-escaping"]%string ->
    expression V g "select" x -> yes_no g "disable-output-escaping" d -> instruction V c g = Some (Ok (HValueOf d x, c)).
  Proof.
    intros c g x d (S1 & S2 & S3) O (U & L) On (t & H & Nt & E) Y. pose proof (yes_one g _ d O Y) as Y1. which L.
    collect [must "select"; one_of "disable-output-escaping" "no" ["yes"; "no"]%string] O U On m Lm.
    given Lm "select"%string H. unfold expr. rewrite S1, E. cbn [need].
    rewrite (yes_is g _ d m _ (Lm "disable-output-escaping"%string ltac:(vocab)) ltac:(vm_compute; reflexivity) Y). reflexivity.
  Qed.
  Lemma ins_text : forall c (g : tag) d, settled c -> ordinary_tag g -> xsl g "text" -> only g ["disable-output-escaping"]%string ->
    yes_no g "disable-output-escaping" d -> instruction V c g = Some (Ok (HText d [], c)).
  Proof.
    intros c g d (S1 & S2 & S3) O (U & L) On Y. pose proof (yes_one g _ d O Y) as Y1. which L.
    collect [one_of "disable-output-escaping" "no" ["yes"; "no"]%string] O U On m Lm.
    rewrite (yes_is g _ d m _ (Lm "disable-output-escaping"%string ltac:(vocab)) ltac:(vm_compute; reflexivity) Y). reflexivity.
  Qed.
  Lemma ins_message : forall c (g : tag) d, settled c -> ordinary_tag g -> xsl g "message" -> only g ["terminate"]%string ->
    yes_no g "terminate" d -> instruction V c g = Some (Ok (Box (KMessage d) [] false, c)).
  Proof.
    intros c g d (S1 & S2 & S3) O (U & L) On Y. pose proof (yes_one g _ d O Y) as Y1. which L.
    collect [one_of "terminate" "no" ["yes"; "no"]%string] O U On m Lm.
    rewrite (yes_is g _ d m _ (Lm "terminate"%string ltac:(vocab)) ltac:(vm_compute; reflexivity) Y). reflexivity.
  Qed.
  Lemma ins_pi : forall c (g : tag) x, settled c -> ordinary_tag g -> xsl g "processing-instruction" -> only g ["name"]%string -> value_template V g "name" x ->
    instruction V c g = Some (Ok (Box (KPi x) [] false, c)).
  Proof.
    intros c g x (S1 & S2 & S3) O (U & L) On (t & H & Nt & E). which L. collect [must "name"] O U On m Lm.
    given Lm "name"%string H. unfold avt. rewrite S2, E. reflexivity.
  Qed.
  Lemma ins_copy : forall c (g : tag), settled c -> ordinary_tag g -> xsl g "copy" -> only g [] -> instruction V c g = Some (Ok (Box (KCopy []) [] false, c)).
  Proof.
    intros c g (S1 & S2 & S3) O (U & L) On. which L. collect [may "use-attribute-sets"] O U On m Lm.
    assert (H : lacks g "use-attribute-sets") by (intros a I Ua _; exact (On a I Ua)). absent Lm "use-attribute-sets"%string H. reflexivity.
  Qed.
  Lemma ins_call : forall c (g : tag) n, settled c -> ordinary_tag g -> xsl g "call-template" -> only g ["name"]%string -> name_ V g "name" n ->
    instruction V c g = Some (Ok (HCall n [], c)).
  Proof.
    intros c g n (S1 & S2 & S3) O (U & L) On (t & H & Nt & E). which L. collect [must "name"] O U On m Lm.
    given Lm "name"%string H. rewrite E. reflexivity.
  Qed.
  Lemma maybe_optional : forall c (g : tag) n o m, settled c -> (forall v, has g n v -> lookup m (ascii_str n) = v) /\ (lacks g n -> lookup m (ascii_str n) = []) ->
    maybe_expression V g n o -> optional (expr V c (g_scope g)) (lookup m (ascii_str n)) = Some o.
  Proof.
    intros c g n o m (S1 & S2 & S3) [L1 L2] H. destruct o as [x|]; cbn in H.
    - destruct H as (t & H & Nt & E). rewrite (L1 _ H). unfold optional, expr. rewrite S1, E. destruct t; [congruence|reflexivity].
    - rewrite (L2 H). reflexivity.
  Qed.
  Lemma maybe_empty : forall (g : tag) n s m, (forall v, has g n v -> lookup m (ascii_str n) = v) /\ (lacks g n -> lookup m (ascii_str n) = []) ->
    maybe_name V g n s -> or_empty (x_name V (g_scope g)) (lookup m (ascii_str n)) = Some s.
  Proof.
    intros g n s m [L1 L2] [(t & H & Nt & E)|[H ->]].
    - rewrite (L1 _ H). unfold or_empty. rewrite E. destruct t; [congruence|reflexivity].
    - rewrite (L2 H). reflexivity.
  Qed.
  Lemma ins_apply : forall c (g : tag) x n, settled c -> ordinary_tag g -> xsl g "apply-templates" -> only g ["select"; "mode"]%string ->
    maybe_expression V g "select" x -> maybe_name V g "mode" n -> instruction V c g = Some (Ok (HApply x n [] [], c)).
  Proof.
    intros c g x n St O (U & L) On H1 H2. which L. collect [may "select"; may "mode"] O U On m Lm.
    rewrite (maybe_optional c g "select" x m St (Lm "select"%string ltac:(vocab)) H1). cbn [need].
    rewrite (maybe_empty g "mode" n m (Lm "mode"%string ltac:(vocab)) H2). reflexivity.
  Qed.
  Lemma bare : forall (g : tag), ordinary_tag g -> g_uri g = xslt -> In (g_local g) (map ascii_str ["choose"; "otherwise"; "comment"; "apply-imports"]%string) -> g_atts g = [].
  Proof. intros g (_ & _ & _ & H) U. destruct (H U) as (_ & H' & _). exact H'. Qed.
  Lemma ins_choose : forall c (g : tag), ordinary_tag g -> xsl g "choose" -> instruction V c g = Some (Ok (HChoose [] None false false, c)).
  Proof. intros c g O (U & L). assert (E : g_atts g = []) by (apply bare; [exact O|exact U|rewrite L; cbn [map In]; auto]). which L. rewrite E. reflexivity. Qed.
  Lemma ins_comment : forall c (g : tag), ordinary_tag g -> xsl g "comment" -> instruction V c g = Some (Ok (Box KComment [] false, c)).
  Proof. intros c g O (U & L). assert (E : g_atts g = []) by (apply bare; [exact O|exact U|rewrite L; cbn [map In]; auto]). which L. rewrite E. reflexivity. Qed.
  Lemma ins_imports : forall c (g : tag), ordinary_tag g -> xsl g "apply-imports" -> instruction V c g = Some (Ok (HImports, c)).
  Proof. intros c g O (U & L). assert (E : g_atts g = []) by (apply bare; [exact O|exact U|rewrite L; cbn [map In]; auto 6]). which L. rewrite E. reflexivity. Qed.
  Lemma names_content : forall c (g : tag) x u rules sets k, settled c -> ordinary_tag g -> g_uri g = xslt -> only g ["name"; "namespace"]%string ->
    rules = [must "name"; usually "namespace" ""] \/ rules = [must "name"; usually "namespace" ""; may "use-attribute-sets"] ->
    value_template V g "name" x -> space_of V g u -> named_content V c g rules sets k = Ok (Box (k x u) [] false, c).
  Proof.
    intros c g x u rules sets k (S1 & S2 & S3) O U On R (t & H & Nt & E) Hu.
    assert (G : exists m, gather rules (g_atts g) = Some m /\ forall n, In n vocabulary ->
      (forall v, has g n v -> lookup m (ascii_str n) = v) /\ (lacks g n -> lookup m (ascii_str n) = lookup (defaults rules) (ascii_str n))).
    { destruct R as [-> | ->]; apply (gathers g _ _ O U On); [known_|filled_|known_|filled_]. }
    destruct G as (m & Em & Lm). unfold named_content. rewrite Em. cbn [need]. given Lm "name"%string H. unfold avt. rewrite S2, E. cbn [need].
    assert (Hs : lacks g "use-attribute-sets").
    { intros a I Ua La. destruct (On a I Ua) as [F|[F|[]]]; rewrite La in F; vm_compute in F; discriminate F. }
    absent Lm "use-attribute-sets"%string Hs. replace (lookup (defaults rules) (ascii_str "use-attribute-sets")) with (@nil Z) by (destruct R as [-> | ->]; reflexivity).
    cbn [empty negb]. rewrite Bool.andb_false_r. cbn [refuse].
    destruct u as [l|u]; cbn in Hu.
    - destruct Hu as [Hn ->]. absent Lm "namespace"%string Hn. replace (lookup (defaults rules) (ascii_str "namespace")) with (@nil Z) by (destruct R as [-> | ->]; reflexivity). reflexivity.
    - destruct Hu as (t' & Hn & E'). given Lm "namespace"%string Hn. destruct t' as [|z t'].
      + exfalso. destruct O as (_ & _ & _ & O). destruct (O U) as (_ & _ & Q). exact (Q Hn).
      + rewrite S2, E'. reflexivity.
  Qed.
  Lemma ins_element : forall c (g : tag) x u, settled c -> ordinary_tag g -> xsl g "element" -> only g ["name"; "namespace"]%string ->
    value_template V g "name" x -> space_of V g u -> instruction V c g = Some (Ok (Box (KElement x u) [] false, c)).
  Proof. intros c g x u St O (U & L) On H1 H2. which L. f_equal. apply names_content; auto. Qed.
  Lemma ins_attribute : forall c (g : tag) x u, settled c -> ordinary_tag g -> xsl g "attribute" -> only g ["name"; "namespace"]%string ->
    value_template V g "name" x -> space_of V g u -> instruction V c g = Some (Ok (Box (KAttribute x u) [] false, c)).
  Proof. intros c g x u St O (U & L) On H1 H2. which L. f_equal. apply names_content; auto. Qed.
  Lemma variable_ok : forall c (g : tag) x n k, settled c -> ordinary_tag g -> g_uri g = xslt -> only g ["name"; "select"]%string ->
    name_ V g "name" n -> maybe_expression V g "select" x -> variable V c g k = Ok (Box (KVariable k n x) [] false, c).
  Proof.
    intros c g x n k (S1 & S2 & S3) O U On (t & H & Nt & E) Hx. unfold variable. collect [must "name"; may "select"] O U On m Lm.
    assert (Ex : optional (expr V c (g_scope g)) (value_of_q (g_atts g) (ascii_str "select")) = Some x).
    { destruct x as [x|]; cbn in Hx.
      - destruct Hx as (t' & H' & Nt' & E'). rewrite (has_q g "select" _ O eq_refl H'). unfold optional, expr. rewrite S1, E'. destruct t'; [congruence|reflexivity].
      - rewrite (proj1 (lacks_q g "select" O eq_refl Hx)). reflexivity. }
    rewrite Ex. cbn [need]. given Lm "name"%string H. rewrite E. reflexivity.
  Qed.
  Lemma default_ok : forall c (g : tag) n d x m e, settled c -> (forall v, has g n v -> lookup m (ascii_str n) = v) /\ (lacks g n -> lookup m (ascii_str n) = e) ->
    e = ascii_str d -> default_template V g n d x -> avt V c (g_scope g) (lookup m (ascii_str n)) = Some x.
  Proof.
    intros c g n d x m e (S1 & S2 & S3) [L1 L2] -> [(t & H & E)|[H E]]; unfold avt; rewrite S2.
    - rewrite (L1 _ H). exact E.
    - rewrite (L2 H). exact E.
  Qed.
  Lemma sort_ok : forall c (g : tag) s, settled c -> ordinary_tag g -> g_uri g = xslt -> only g ["select"; "lang"; "data-type"; "order"; "case-order"]%string ->
    (expression V g "select" (so_select s) \/ (lacks g "select" /\ x_expr V (g_scope g) true true (ascii_str ".") = Some (so_select s))) ->
    default_template V g "data-type" "text" (so_type s) -> default_template V g "order" "ascending" (so_order s) ->
    default_template V g "case-order" "upper-first" (so_case s) -> sort V c g = Ok (HSort s, c).
  Proof.
    intros c g s St O U On Hs Hd Ho Hc. unfold sort.
    collect [usually "select" "."; may "lang"; usually "data-type" "text"; usually "order" "ascending"; usually "case-order" "upper-first"] O U On m Lm.
    assert (Es : expr V c (g_scope g) (lookup m (ascii_str "select")) = Some (so_select s)).
    { unfold expr. destruct St as (S1 & S2 & S3). rewrite S1. destruct Hs as [(t & H & Nt & E')|[H E']].
      - given Lm "select"%string H. exact E'.
      - absent Lm "select"%string H. exact E'. }
    rewrite Es. cbn [need].
    rewrite (default_ok c g "data-type" "text" _ m _ St (Lm "data-type"%string ltac:(vocab)) ltac:(vm_compute; reflexivity) Hd). cbn [need].
    rewrite (default_ok c g "order" "ascending" _ m _ St (Lm "order"%string ltac:(vocab)) ltac:(vm_compute; reflexivity) Ho). cbn [need].
    rewrite (default_ok c g "case-order" "upper-first" _ m _ St (Lm "case-order"%string ltac:(vocab)) ltac:(vm_compute; reflexivity) Hc). cbn [need].
    destruct s. reflexivity.
  Qed.
  (** * Literal result elements *)
  Lemma alias_in : forall c u p w, settled c -> In (u, (p, w)) A -> mm_find u (c_aliases c) = Some (p, w).
  Proof.
    intros c u p w (_ & _ & ->) I. apply find_last; [|apply in_rev in I; exact I]. rewrite map_rev. apply NoDup_rev. exact A1.
  Qed.
  Lemma alias_out : forall c u, settled c -> ~ In u (map fst A) -> mm_find u (c_aliases c) = None.
  Proof. intros c u (_ & _ & ->) I. apply find_none. rewrite map_rev. intro J. apply I. apply in_rev. exact J. Qed.
  Lemma inline_atts_ok : forall c sc atts l, settled c -> Forall reported atts -> literal_attributes V A sc atts l -> inline_atts V c sc atts = Some (l, c).
  Proof.
    intros c sc atts l St R H. pose proof St as (S1 & S2 & S3). induction H as [|a atts l U H IH|a [[name uri] x] atts l U [Ha Hn] H IH].
    - reflexivity.
    - inversion R as [|? ? (_ & R1 & _) R2]; subst. cbn [inline_atts].
      destruct (str_eqb (firstn 6 (a_qname a)) (ascii_str "xmlns:")) eqn:E1; [apply str_eqb_true in E1; contradiction|].
      rewrite U. change (str_eqb xslt xslt_uri) with true. apply IH. exact R2.
    - inversion R as [|? ? (_ & R1 & _) R2]; subst. cbn [inline_atts].
      destruct (str_eqb (firstn 6 (a_qname a)) (ascii_str "xmlns:")) eqn:E1; [apply str_eqb_true in E1; contradiction|].
      destruct (str_eqb (a_uri a) xslt_uri) eqn:E2; [apply str_eqb_true in E2; contradiction|].
      destruct Hn as [[Hu [-> ->]]|[Hu (p & q & I & Nq & Hq & ->)]].
      + rewrite alias_out; [|exact St|].
        * unfold avt. rewrite S2, Ha, (IH R2). reflexivity.
        * destruct Hu as [-> |Hu]; [|exact Hu]. intro J. apply in_map_iff in J as ([u [p w]] & Eu & J). cbn in Eu. subst. apply (proj1 (A2 _ _ _ J)). reflexivity.
      + rewrite (alias_in c _ _ _ St I). destruct (A2 _ _ _ I) as [_ Np]. rewrite (Hq Np). destruct p; [congruence|]. cbn [empty andb].
        unfold avt. rewrite S2, Ha, (IH R2). reflexivity.
  Qed.
  Lemma inline_ok : forall c (g : tag) k name uri l, settled c -> ordinary_tag g -> literal_name A g name uri -> literal_attributes V A (g_scope g) (g_atts g) l ->
    inline V c g k = Ok (Box (k name uri l) [] false, c).
  Proof.
    intros c g k name uri l St (_ & R & _) Hn Ha. unfold inline. rewrite (inline_atts_ok c _ _ _ St R Ha). cbn [need]. unfold inline_name.
    destruct Hn as [(I & -> & ->)|(p & I & ->)].
    - rewrite (alias_out c _ St I). reflexivity.
    - rewrite (alias_in c _ _ _ St I). destruct (A2 _ _ _ I) as [_ Np]. destruct p; [congruence|]. reflexivity.
  Qed.

  (** * Content *)
  Notation box := (fun h its done below c => with_stack (Box h its done :: below) c).
  Definition open_ (h : XSheet.head (X := X) (M := M) (P := P)) : Prop := match h with KVariable _ _ (Some _) => False | _ => True end.
  Definition body_goes (keep : bool) (kids : list xml) (l : list (item (X := X))) : Prop :=
    keep = false -> Forall ordinary kids -> forall c h its done below, settled c -> open_ h ->
    exists done', goes (box h its done below c) (flat_map events kids) (box h (its ++ l) done' below c).
  Definition instruct_goes (keep : bool) (e : xml) (i : item (X := X)) : Prop :=
    keep = false -> ordinary e -> forall c h its done below, settled c ->
    goes (box h its done below c) (events e) (box h (its ++ [i]) true below c).
  Definition passed_goes (keep : bool) (kids : list xml) (ss : list (sorting (X := X))) (ps : list (str * option X * list (item (X := X)))) : Prop :=
    keep = false -> Forall ordinary kids -> forall c below, settled c ->
    (forall e m ss0 ps0, goes (with_stack (HApply e m ss0 ps0 :: below) c) (flat_map events kids) (with_stack (HApply e m (ss0 ++ ss) (ps0 ++ ps) :: below) c)) /\
    (ss = [] -> forall n ps0, goes (with_stack (HCall n ps0 :: below) c) (flat_map events kids) (with_stack (HCall n (ps0 ++ ps) :: below) c)).
  Definition cases_goes (keep : bool) (kids : list xml) (ws : list (X * list (item (X := X)))) (o : option (list (item (X := X)))) : Prop :=
    keep = false -> Forall ordinary kids -> forall c below ws0 sw, settled c ->
    exists so, goes (with_stack (HChoose ws0 None sw false :: below) c) (flat_map events kids)
      (with_stack (HChoose (ws0 ++ ws) o (sw || negb (empty ws)) so :: below) c).
  Definition binding_goes (keep : bool) (g : tag) (kids : list xml) (x : option X) (l : list (item (X := X))) : Prop :=
    keep = false -> ordinary_tag g -> Forall ordinary kids ->
    maybe_expression V g "select" x /\
    forall c k n below, settled c -> exists done, goes (box (KVariable k n x) [] false below c) (flat_map events kids) (box (KVariable k n x) l done below c).

  Lemma box_instruct : forall c h its done below (g : tag) r, g_uri g = xslt -> is_ g "param" = false -> is_ g "sort" = false -> instruction V c g = Some r ->
    box_start V c h its done below g = push (Box h its true :: below) r.
  Proof.
    intros c h its done below g r U Hp Hs E. unfold box_start. rewrite U. change (str_eqb xslt xslt_uri) with true. cbv iota. rewrite Hp, Hs, E. destruct h; reflexivity.
  Qed.
  (** An instruction that makes a container, and one that makes another handler. *)
  Lemma in_container : forall keep' c h its done below (g : tag) kids k l i, ordinary_tag g -> Forall ordinary kids -> keeps false g keep' -> settled c ->
    box_start V (box h its done below c) h its done below g = Ok (box k [] false (Box h its true :: below) c) -> open_ k -> body_goes keep' kids l ->
    box_end (box k l true (Box h its true :: below) c) k l (Box h its true :: below) = Ok (box h (its ++ [i]) true below c) ->
    goes (box h its done below c) (events (Elem g kids)) (box h (its ++ [i]) true below c).
  Proof.
    intros keep' c h its done below g kids k l i O Ok_ K St Hs Hk Hb He. pose proof (keeps_false g keep' O K) as ->.
    destruct (Hb eq_refl Ok_ c k [] false (Box h its true :: below) St Hk) as [d Hb']. eapply goes_element; [exact Hs|exact Hb'|]. exact He.
  Qed.
  Lemma other_is : forall (g : tag) a b, g_local g = ascii_str a -> str_eqb (ascii_str a) (ascii_str b) = false -> is_ g b = false.
  Proof. intros g a b L E. unfold is_. rewrite L. exact E. Qed.
  Ltac instr L lem := erewrite box_instruct;
    [|eassumption|apply (other_is _ _ _ L); vm_compute; reflexivity|apply (other_is _ _ _ L); vm_compute; reflexivity|eapply lem; try eassumption; try (split; eassumption)]; try reflexivity.
  Ltac container lem := intros keep keep' g kids; intros;
    match goal with H : xsl g _ |- _ => let U := fresh "U" in let L := fresh "L" in pose proof H as [U L] end;
    intros -> O c h its done below St; apply ordinary_elem in O as [O OK];
    eapply in_container; [exact O|exact OK|eassumption|exact St|match goal with L : g_local g = _ |- _ => instr L lem end|exact Logic.I|eassumption|reflexivity].
  Ltac single lem := intros keep keep' g kids; intros;
    match goal with H : xsl g _ |- _ => let U := fresh "U" in let L := fresh "L" in pose proof H as [U L] end;
    intros -> O c h its done below St; apply ordinary_elem in O as [O OK];
    match goal with K : keeps _ g keep' |- _ => pose proof (keeps_false g keep' O K) as -> end;
    eapply goes_element; [cbn [with_stack c_stack start_element]; unfold start_element; cbn [with_stack c_stack]; match goal with L : g_local g = _ |- _ => instr L lem end|apply quiet; [exact Logic.I|eassumption]|reflexivity].
  Lemma content_goes : (forall keep kids l, body V A keep kids l -> body_goes keep kids l) /\
    (forall keep e i, instruct V A keep e i -> instruct_goes keep e i) /\
    (forall keep kids ss ps, passed V A keep kids ss ps -> passed_goes keep kids ss ps) /\
    (forall keep kids ws o, cases V A keep kids ws o -> cases_goes keep kids ws o) /\
    (forall keep g kids x l, binding V A keep g kids x l -> binding_goes keep g kids x l).
  Proof.
    apply content_min.
    - intros keep -> _ c h its done below St Hh. exists done. rewrite app_nil_r. apply goes_nil.
    - intros keep t kids l Ht _ IH -> O c h its done below St Hh. inversion O as [|? ? O1 O2]; subst.
      destruct (IH eq_refl O2 c h its done below St Hh) as [d IH']. exists d. cbn [flat_map]. eapply goes_app; [|exact IH']. apply quiet1; [exact Logic.I|exact Ht].
    - intros keep s kids l Hs _ IH -> O c h its done below St Hh. inversion O as [|? ? O1 O2]; subst.
      set (d1 := match h with KTemplate _ _ _ _ => true | _ => done end).
      destruct (IH eq_refl O2 c h (its ++ [CText false s]) d1 below St Hh) as [d IH']. exists d. cbn [flat_map]. eapply goes_app; [|rewrite <- app_assoc in IH'; exact IH'].
      apply goes_one. cbn [step]. unfold characters. cbn [with_stack c_stack]. destruct Hs as [Hs|Hs]; [discriminate Hs|].
      destruct (blank s) eqn:B; [apply white_blank in B; contradiction|]. destruct h; try reflexivity. destruct select; [contradiction|reflexivity].
    - intros keep e i kids l _ IHi _ IH -> O c h its done below St Hh. inversion O as [|? ? O1 O2]; subst.
      destruct (IH eq_refl O2 c h (its ++ [i]) true below St Hh) as [d IH']. exists d. cbn [flat_map]. eapply goes_app; [|rewrite <- app_assoc in IH'; exact IH'].
      apply IHi; auto.
    - (** literal *)
      intros keep keep' g kids name uri atts l Nu Hn Ha K _ IH -> O c h its done below St. apply ordinary_elem in O as [O OK].
      eapply (in_container keep' c h its done below g kids (KInline name uri atts)); [exact O|exact OK|exact K|exact St| |exact Logic.I|exact IH|reflexivity].
      unfold box_start. destruct (str_eqb (g_uri g) xslt_uri) eqn:E; [apply str_eqb_true in E; contradiction|].
      erewrite inline_ok; [reflexivity|exact St|exact O|exact Hn|exact Ha].
    - single ins_value_of.
    - (** text *)
      intros keep g texts d H On Y -> O c h its done below St. apply ordinary_elem in O as [O OK]. pose proof H as [U L].
      eapply goes_element; [unfold start_element; cbn [with_stack c_stack]; instr L ins_text| |].
      + instantiate (1 := with_stack (HText d (concat texts) :: Box h its true :: below) c).
        clear OK. change (concat texts) with ([] ++ concat texts). generalize (@nil Z) as b. induction texts as [|t texts IH]; intro b.
        * cbn [map flat_map concat]. rewrite app_nil_r. apply goes_nil.
        * cbn [map flat_map concat]. eapply goes_app; [apply goes_one; reflexivity|]. rewrite app_assoc. apply IH.
      + reflexivity.
    - container ins_element.
    - container ins_attribute.
    - container ins_comment.
    - container ins_pi.
    - container ins_if.
    - (** choose *)
      intros keep keep' g kids ws o H On K _ IH Nw -> O c h its done below St. apply ordinary_elem in O as [O OK]. pose proof H as [U L].
      pose proof (keeps_false g keep' O K) as ->.
      destruct (IH eq_refl OK c (Box h its true :: below) [] false St) as [so IH'].
      eapply goes_element; [unfold start_element; cbn [with_stack c_stack]; instr L ins_choose|exact IH'|].
      destruct ws; [congruence|]. reflexivity.
    - (** for-each *)
      intros keep keep' g first kids x ss l H On Hx K Hs _ IH -> O c h its done below St. apply ordinary_elem in O as [O OK]. pose proof H as [U L].
      pose proof (keeps_false g keep' O K) as ->. apply Forall_app in OK as [OK1 OK2].
      assert (G : forall ss0, goes (box (KForEach x ss0) [] false (Box h its true :: below) c) (flat_map events first) (box (KForEach x (ss0 ++ ss)) [] false (Box h its true :: below) c)).
      { clear - Hs OK1 St. induction Hs as [|t kids ss Ht _ IH|t kids s ss Ht _ IH]; intro ss0.
        - rewrite app_nil_r. apply goes_nil.
        - inversion OK1; subst. cbn [flat_map]. eapply goes_app; [|apply IH; assumption]. apply quiet1; [exact Logic.I|exact Ht].
        - inversion OK1 as [|? ? O1 O2]; subst. destruct Ht as (g & sub & keep & -> & (U & L) & On & H1 & H2 & H3 & H4 & K & Hn).
          apply ordinary_elem in O1 as [O1 _]. pose proof (keeps_false g keep O1 K) as ->. cbn [flat_map]. eapply goes_app.
          + eapply goes_element; [|apply quiet; [|exact Hn]|].
            * unfold start_element. cbn [with_stack c_stack]. unfold box_start. rewrite U. change (str_eqb xslt xslt_uri) with true. cbv iota.
              replace (is_ g "sort") with true by (unfold is_; rewrite L; vm_compute; reflexivity). cbn [refuse].
              rewrite (sort_ok _ g s); [reflexivity|exact St|assumption..].
            * exact Logic.I.
            * reflexivity.
          + specialize (IH O2 (ss0 ++ [s])). rewrite <- app_assoc in IH. exact IH. }
      destruct (IH eq_refl OK2 c (KForEach x ss) [] false (Box h its true :: below) St Logic.I) as [d IH'].
      eapply goes_element; [unfold start_element; cbn [with_stack c_stack]; instr L ins_for_each|rewrite flat_map_app; eapply goes_app; [apply (G [])|exact IH']|reflexivity].
    - (** apply-templates *)
      intros keep keep' g kids x m ss ps H On Hx Hm K _ IH -> O c h its done below St. apply ordinary_elem in O as [O OK]. pose proof H as [U L].
      pose proof (keeps_false g keep' O K) as ->.
      destruct (IH eq_refl OK c (Box h its true :: below) St) as [IH' _].
      eapply goes_element; [unfold start_element; cbn [with_stack c_stack]; instr L ins_apply|apply (IH' x m [] [])|]. reflexivity.
    - single ins_imports.
    - (** call-template *)
      intros keep keep' g kids n ps H On Hn K _ IH -> O c h its done below St. apply ordinary_elem in O as [O OK]. pose proof H as [U L].
      pose proof (keeps_false g keep' O K) as ->.
      destruct (IH eq_refl OK c (Box h its true :: below) St) as [_ IH'].
      eapply goes_element; [unfold start_element; cbn [with_stack c_stack]; instr L ins_call|apply (IH' eq_refl n [])|]. reflexivity.
    - container ins_copy.
    - single ins_copy_of.
    - container ins_message.
    - (** variable *)
      intros keep g kids n x l H On Hn _ IH -> O c h its done below St. apply ordinary_elem in O as [O OK]. pose proof H as [U L].
      destruct (IH eq_refl O OK) as [Hx IH']. destruct (IH' c InBody n (Box h its true :: below) St) as [d G].
      eapply goes_element; [|exact G|reflexivity]. unfold start_element. cbn [with_stack c_stack].
      erewrite box_instruct; [|exact U|apply (other_is _ _ _ L); vm_compute; reflexivity|apply (other_is _ _ _ L); vm_compute; reflexivity|
        which L; reflexivity]. rewrite (variable_ok _ g x n InBody); [reflexivity|exact St|assumption..].
    - intros keep -> _ c below St. split; [intros e m ss0 ps0; rewrite !app_nil_r; apply goes_nil|intros _ n ps0; rewrite !app_nil_r; apply goes_nil].
    - intros keep t kids ss ps Ht _ IH -> O c below St. inversion O as [|? ? O1 O2]; subst. destruct (IH eq_refl O2 c below St) as [IH1 IH2]. cbn [flat_map]. split.
      + intros e m ss0 ps0. eapply goes_app; [|apply IH1]. apply quiet1; [exact Logic.I|exact Ht].
      + intros E n ps0. eapply goes_app; [|apply (IH2 E)]. apply quiet1; [exact Logic.I|exact Ht].
    - (** sort *)
      intros keep t kids s ss ps Ht _ IH -> O c below St. inversion O as [|? ? O1 O2]; subst. destruct (IH eq_refl O2 c below St) as [IH1 _]. cbn [flat_map]. split; [|discriminate].
      intros e m ss0 ps0. destruct Ht as (g & sub & keep & -> & (U & L) & On & H1 & H2 & H3 & H4 & K & Hn).
      apply ordinary_elem in O1 as [O1 _]. pose proof (keeps_false g keep O1 K) as ->. eapply goes_app.
      + eapply goes_element; [|apply quiet; [|exact Hn]|].
        * unfold start_element. cbn [with_stack c_stack]. rewrite U. change (str_eqb xslt xslt_uri) with true. cbv zeta. cbn [andb].
          replace (is_ g "sort") with true by (unfold is_; rewrite L; vm_compute; reflexivity).
          rewrite (sort_ok _ g s); [reflexivity|exact St|assumption..].
        * exact Logic.I.
        * reflexivity.
      + specialize (IH1 e m (ss0 ++ [s]) ps0). rewrite <- app_assoc in IH1. exact IH1.
    - (** with-param *)
      intros keep g sub kids n x l ss ps H On Hn _ IHb _ IH -> O c below St. inversion O as [|? ? O1 O2]; subst. destruct (IH eq_refl O2 c below St) as [IH1 IH2].
      apply ordinary_elem in O1 as [O1 OK]. pose proof H as [U L]. destruct (IHb eq_refl O1 OK) as [Hx G].
      assert (W : is_ g "with-param" = true) by (unfold is_; rewrite L; vm_compute; reflexivity).
      assert (W' : is_ g "sort" = false) by (unfold is_; rewrite L; vm_compute; reflexivity). cbn [flat_map]. split.
      + intros e m ss0 ps0. destruct (G c Passed n (HApply e m ss0 ps0 :: below) St) as [d G']. eapply goes_app.
        * eapply goes_element; [|exact G'|reflexivity]. unfold start_element. cbn [with_stack c_stack]. rewrite U. change (str_eqb xslt xslt_uri) with true. cbv zeta. cbn [andb].
          rewrite W, W', (variable_ok _ g x n Passed); [reflexivity|exact St|assumption..].
        * specialize (IH1 e m ss0 (ps0 ++ [(n, x, l)])). rewrite <- app_assoc in IH1. exact IH1.
      + intros E q ps0. destruct (G c Passed n (HCall q ps0 :: below) St) as [d G']. eapply goes_app.
        * eapply goes_element; [|exact G'|reflexivity]. unfold start_element. cbn [with_stack c_stack]. rewrite U. change (str_eqb xslt xslt_uri) with true. cbv zeta. cbn [andb].
          rewrite W, (variable_ok _ g x n Passed); [reflexivity|exact St|assumption..].
        * specialize (IH2 E q (ps0 ++ [(n, x, l)])). rewrite <- app_assoc in IH2. exact IH2.
    - intros keep -> _ c below ws0 sw St. exists false. rewrite app_nil_r, Bool.orb_false_r. apply goes_nil.
    - intros keep t kids ws o Ht _ IH -> O c below ws0 sw St. inversion O as [|? ? O1 O2]; subst. destruct (IH eq_refl O2 c below ws0 sw St) as [so IH']. exists so.
      cbn [flat_map]. eapply goes_app; [|exact IH']. apply quiet1; [exact Logic.I|exact Ht].
    - (** when *)
      intros keep keep' g sub kids x l ws o H On (t & Ht & Nt & E) K _ IHb _ IH -> O c below ws0 sw St. inversion O as [|? ? O1 O2]; subst.
      apply ordinary_elem in O1 as [O1 OK]. pose proof H as [U L]. pose proof (keeps_false g keep' O1 K) as ->.
      destruct (IH eq_refl O2 c below (ws0 ++ [(x, l)]) true St) as [so IH']. exists so.
      destruct (IHb eq_refl OK c (KWhen x) [] false (HChoose ws0 None true false :: below) St Logic.I) as [d G].
      cbn [flat_map]. eapply goes_app.
      + eapply goes_element; [|exact G|reflexivity]. unfold start_element. cbn [with_stack c_stack]. rewrite U. change (str_eqb xslt xslt_uri) with true. cbv zeta. cbn [andb].
        replace (is_ g "when") with true by (unfold is_; rewrite L; vm_compute; reflexivity). cbn [refuse].
        collect [must "test"] O1 U On m Lm. given Lm "test"%string Ht. unfold expr. destruct St as (S1 & _). cbn [with_stack c_current]. rewrite S1, E. reflexivity.
      + rewrite <- app_assoc in IH'. cbn [empty negb]. rewrite Bool.orb_true_r. exact IH'.
    - (** otherwise *)
      intros keep keep' g sub kids l H On K _ IHb Hn -> O c below ws0 sw St. inversion O as [|? ? O1 O2]; subst.
      apply ordinary_elem in O1 as [O1 OK]. pose proof H as [U L]. pose proof (keeps_false g keep' O1 K) as ->. exists true.
      destruct (IHb eq_refl OK c KOtherwise [] false (HChoose ws0 None sw true :: below) St Logic.I) as [d G].
      assert (E : g_atts g = []) by (apply bare; [exact O1|exact U|rewrite L; cbn [map In]; auto]).
      cbn [flat_map]. apply (goes_app _ _ (with_stack (HChoose ws0 (Some l) sw true :: below) c)).
      + eapply goes_element; [|exact G|reflexivity]. unfold start_element. cbn [with_stack c_stack]. rewrite U. change (str_eqb xslt xslt_uri) with true. cbv zeta. cbn [andb].
        replace (is_ g "when") with false by (unfold is_; rewrite L; vm_compute; reflexivity).
        replace (is_ g "otherwise") with true by (unfold is_; rewrite L; vm_compute; reflexivity). rewrite E. reflexivity.
      + rewrite app_nil_r, Bool.orb_false_r. apply quiet; [exact Logic.I|exact Hn].
    - intros keep keep' g kids x Hx K Hn -> O OK. pose proof (keeps_false g keep' O K) as ->. split; [exact Hx|]. intros c k n below St. exists false.
      apply quiet; [exact Logic.I|exact Hn].
    - intros keep keep' g kids l Hx K _ IH -> O OK. pose proof (keeps_false g keep' O K) as ->. split; [exact Hx|]. intros c k n below St.
      exact (IH eq_refl OK c (KVariable k n None) [] false below St Logic.I).
  Qed.
End Bodies.

Section Tops.
  Context {scope X M N P : Type} (V : services (scope := scope) (X := X) (M := M) (N := N) (P := P)).
  Notation compiler := (compiler (X := X) (M := M) (N := N) (P := P)).
  Notation sheet := (sheet (X := X) (M := M) (N := N) (P := P)).
  Notation tag := (tag (scope := scope)).
  Notation xml := (xml (scope := scope)).
  Notation declaration := (declaration (X := X) (M := M) (N := N) (P := P)).
  Context (A : list (str * (str * str))).
  Context (A1 : NoDup (map fst A)) (A2 : forall u p w, In (u, (p, w)) A -> u <> [] /\ p <> []).
  Notation settled := (settled V A).
  Notation goes := (goes V).
  Ltac known_ := repeat first [apply Forall_nil | apply Forall_cons; [eexists; split; [reflexivity|first [left; reflexivity | right; eexists; split; [reflexivity|eassumption]]]|]].
  Ltac filled_ := repeat first [apply Forall_nil | apply Forall_cons; [let Hm := fresh in intro Hm; first [discriminate Hm | eexists _, _; split; [reflexivity|split; [reflexivity|split; [eassumption|assumption]]]]|]].
  Ltac vocab := apply in_vocabulary; reflexivity.
  Ltac collect rules O U On m L :=
    let E := fresh "E" in
    destruct (gathers _ rules _ O U On ltac:(known_) ltac:(filled_)) as (m & E & L); rewrite E; cbn [need].
  Lemma params_goes : forall kids l, params V A false kids l -> Forall ordinary kids -> forall c ms n m p its, settled c ->
    goes (with_stack [Box (KTemplate ms n m p) its false] c) (flat_map events kids) (with_stack [Box (KTemplate ms n m p) (its ++ l) false] c).
  Proof.
    induction 1 as [|t kids l Ht _ IH|g sub kids q x v l (U & L) On Hq Hv _ IH]; intros O c ms n m p its St.
    - rewrite app_nil_r. apply goes_nil.
    - inversion O; subst. cbn [flat_map]. eapply goes_app; [apply quiet1; [exact Logic.I|exact Ht]|apply IH; assumption].
    - inversion O as [|? ? O1 O2]; subst. apply ordinary_elem in O1 as [O1 OK].
      destruct (content_goes V A A1 A2) as (_ & _ & _ & _ & HV). destruct (HV _ _ _ _ _ Hv eq_refl O1 OK) as [Hx G].
      destruct (G c OfTemplate q [Box (KTemplate ms n m p) its false] St) as [d G']. cbn [flat_map]. eapply goes_app.
      + eapply goes_element; [|exact G'|reflexivity]. unfold start_element. cbn [with_stack c_stack]. unfold box_start. rewrite U.
        change (str_eqb xslt xslt_uri) with true. cbv iota. replace (is_ g "param") with true by (unfold is_; rewrite L; vm_compute; reflexivity).
        cbn [refuse]. rewrite (variable_ok V A _ g x q OfTemplate); [reflexivity|exact St|assumption..].
      + specialize (IH O2 c ms n m p (its ++ [CParam q x v]) St). rewrite <- app_assoc in IH. exact IH.
  Qed.

  Lemma given_yes : forall (g : tag) n v, ordinary_tag g -> plain n = true -> has g n v -> given g n = true.
  Proof.
    intros g n v O Pn (b & Ib & Ub & Lb & _). unfold given, index_of_q.
    assert (H : has_qname (ascii_str n) b = true) by (apply (q_plain g); auto).
    assert (G : forall l, In b l -> find_pos (has_qname (ascii_str n)) l <> None).
    { induction l as [|c l IH]; intros I; [destruct I|]. cbn. destruct (has_qname _ c) eqn:E; [discriminate|].
      destruct I as [->|I]; [congruence|]. specialize (IH I). destruct (find_pos _ l); [discriminate|congruence]. }
    specialize (G _ Ib). destruct (find_pos _ _); [reflexivity|congruence].
  Qed.
  Lemma template_ok : forall c (g : tag) ms n m p, ordinary_tag g -> g_uri g = xslt -> only g ["match"; "mode"; "name"; "priority"]%string ->
    maybe_name V g "name" n -> maybe_name V g "mode" m ->
    (matched V g ms p -> template V c g = Ok (Box (KTemplate ms n m p) [] false, current_again c)) /\
    (lacks g "match" /\ lacks g "mode" /\ lacks g "priority" /\ ms = [] /\ p = None /\ (exists t, has g "name" t) ->
     template V c g = Ok (Box (KTemplate ms n m p) [] false, c)).
  Proof.
    intros c g ms n m p O U On Hn Hm. unfold template. collect [may "match"; may "mode"; may "name"; may "priority"] O U On r Lr. cbv zeta.
    rewrite (maybe_empty V g "name" n r (Lr "name"%string ltac:(vocab)) Hn), (maybe_empty V g "mode" m r (Lr "mode"%string ltac:(vocab)) Hm). cbn [need].
    split.
    - intros [(t & Ht & Nt & Et) Hp]. rewrite (proj1 (Lr "match"%string ltac:(vocab)) _ Ht). destruct t as [|z t]; [congruence|]. cbn [empty andb refuse]. rewrite Bool.orb_false_r.
      assert (E1 : given g "mode" && empty (lookup r (ascii_str "mode")) = false).
      { destruct Hm as [(u & Hu & Nu & _)|[Hl _]].
        - rewrite (proj1 (Lr "mode"%string ltac:(vocab)) _ Hu). destruct u; [congruence|]. apply Bool.andb_false_r.
        - rewrite (proj2 (lacks_q g "mode" O eq_refl Hl)). reflexivity. }
      rewrite E1. cbn [refuse]. rewrite Et. cbn [need].
      destruct p as [p|].
      + destruct Hp as (u & Hu & Nu & Eu). rewrite (proj1 (Lr "priority"%string ltac:(vocab)) _ Hu). destruct u as [|y u]; [congruence|].
        cbn [empty]. rewrite Bool.andb_false_r. cbn [refuse optional]. rewrite Eu. reflexivity.
      + rewrite (proj2 (lacks_q g "priority" O eq_refl Hp)). cbn [andb refuse]. rewrite (proj2 (Lr "priority"%string ltac:(vocab)) Hp). reflexivity.
    - intros (H1 & H2 & H3 & -> & -> & t & Ht). rewrite (proj2 (Lr "match"%string ltac:(vocab)) H1).
      change (lookup (defaults [may "match"; may "mode"; may "name"; may "priority"]) (ascii_str "match")) with (@nil Z). cbn [empty andb].
      rewrite (proj2 (lacks_q g "mode" O eq_refl H2)), (proj2 (lacks_q g "priority" O eq_refl H3)). cbn [andb refuse].
      destruct Hn as [(u & Hu & Nu & _)|[Hl _]]; [|exfalso; exact (has_lacks g _ _ Ht Hl)].
      rewrite (proj1 (Lr "name"%string ltac:(vocab)) _ Hu). destruct u; [congruence|]. reflexivity.
  Qed.
  Lemma undefault_ok : forall (g : tag) n p u m, alias_prefix V g n p u -> (forall v, has g n v -> lookup m (ascii_str n) = v) ->
    undefault (lookup m (ascii_str n)) = p /\ lookup (x_namespaces V (g_scope g)) p = u /\
    (empty p || match mm_find p (x_namespaces V (g_scope g)) with Some _ => true | None => false end) = true /\ exists v, has g n v /\ v <> [].
  Proof.
    intros g n p u m [(H & -> & ->)|(H & Np & Nd & E)] Hl; rewrite (Hl _ H); unfold undefault, lookup.
    - split; [reflexivity|]. split; [reflexivity|]. split; [reflexivity|]. eexists. split; [exact H|]. discriminate.
    - destruct (str_eqb p (ascii_str "#default")) eqn:Ed; [apply str_eqb_true in Ed; contradiction|].
      rewrite E. split; [reflexivity|]. split; [reflexivity|]. split; [apply Bool.orb_true_r|]. eexists. split; [exact H|exact Np].
  Qed.
  Lemma foreign_kids : forall kids c n, Forall (fun t : xml => forall n, goes (with_stack [HForeign (S n)] c) (events t) (with_stack [HForeign (S n)] c)) kids ->
    goes (with_stack [HForeign (S n)] c) (flat_map events kids) (with_stack [HForeign (S n)] c).
  Proof. intros kids c n H. induction H as [|t kids Ht _ IH]; [apply goes_nil|]. cbn [flat_map]. eapply goes_app; [apply Ht|exact IH]. Qed.
  Lemma foreign_goes : forall c (t : xml) n, goes (with_stack [HForeign (S n)] c) (events t) (with_stack [HForeign (S n)] c).
  Proof.
    intro c. fix F 1. intros [g kids|s] n.
    - eapply goes_element; [reflexivity|apply (foreign_kids kids c (S n)); induction kids as [|t kids IH]; constructor; [exact (F t)|exact IH]|reflexivity].
    - apply goes_one. reflexivity.
  Qed.
  Definition same_settings (m n : list (str * str)) : Prop :=
    Forall (fun p : string * string => lookup m (ascii_str (fst p)) = lookup n (ascii_str (fst p))) output_settings.
  Definition after (c : compiler) (d : declaration) (c' : compiler) : Prop :=
    c_top c' = false /\ c_stack c' = [] /\ c_aliases c' = rev (aliases [d]) ++ c_aliases c /\ (c_current c = true -> c_current c' = true) /\
    s_templates (c_sheet c') = s_templates (c_sheet c) ++ templates [d] /\ s_variables (c_sheet c') = s_variables (c_sheet c) ++ variables [d] /\
    s_keys (c_sheet c') = s_keys (c_sheet c) ++ keys [d] /\
    match d with
    | DOutput m l => (exists m', s_output (c_sheet c') = Some m' /\ same_settings m m') /\ s_cdata (c_sheet c') = s_cdata (c_sheet c) ++ l
    | _ => s_output (c_sheet c') = s_output (c_sheet c) /\ s_cdata (c_sheet c') = s_cdata (c_sheet c)
    end.
  Definition matching (t : xml) : Prop := is_xsl t ["template"]%string /\ match t with Elem g _ => ~ lacks g "match" | Txt _ => False end.
  Definition content_ (t : xml) : Prop := is_xsl t ["template"; "variable"; "param"]%string.
  Ltac afterwards := repeat split; cbn; rewrite ?app_nil_r; auto.
  Ltac is_now L := repeat match goal with |- context [is_ ?g ?b] =>
      let v := match type of L with _ = ascii_str ?a => eval vm_compute in (str_eqb (ascii_str a) (ascii_str b)) end in
      replace (is_ g b) with v by (unfold is_; rewrite L; vm_compute; reflexivity) end; cbn [orb]; cbv iota.
  Lemma declare_goes : forall t d, declares V A false t d -> ordinary t -> forall al au cu sh,
    (content_ t -> al = rev A /\ (no_current V \/ cu = true \/ matching t)) ->
    (forall tm, d = DTemplate tm -> t_name tm = [] \/ ~ In (t_name tm) (map t_name (s_templates sh))) ->
    exists c', goes (Compiler false [] al au cu sh) (events t) c' /\ after (Compiler false [] al au cu sh) d c' /\ (matching t -> c_current c' = true).
  Proof.
    intros t d H. remember false as keep eqn:Ek. destruct H as [keep t (s & -> & W & _)|keep g kids Nu Ne|keep keep' g first kids ms n m p l l' (U & L) On Hn Hm Hmp K Hf Hb|
      keep g kids n x l (U & L) On Hn Hv|keep g kids n x l (U & L) On Hn Hv|keep keep' g kids n t ms u x (U & L) On Hn Ht Nt Et Hu Nu Eu K Hk|
      keep keep' g kids m l (U & L) On Hs H1 H2 H3 H4 Hl K Hk|keep keep' g kids p u q w (U & L) On Hp Hq K Hk]; subst keep; intros O al au cu sh Hc Hd.
    - exists (Compiler false [] al au cu sh). split; [|split].
      + apply goes_one. cbn. apply white_blank in W. rewrite W. reflexivity.
      + afterwards.
      + intros [[] _].
    - exists (Compiler false [] al au cu sh). split; [|split].
      + eapply goes_element; [|apply (foreign_kids kids (Compiler false [] al au cu sh) 0%nat); apply Forall_forall; intros t _; apply foreign_goes|reflexivity].
        unfold start_element, top_element. cbn [c_stack c_top]. destruct (str_eqb (g_uri g) xslt_uri) eqn:E; [apply str_eqb_true in E; contradiction|].
        destruct (g_uri g); [congruence|]. reflexivity.
      + afterwards.
      + intros [[E _] _]. contradiction.
    - (** template *)
      apply ordinary_elem in O as [O OK]. pose proof (keeps_false g keep' O K) as ->. apply Forall_app in OK as [OK1 OK2].
      destruct Hc as [-> Hc]; [split; [exact U|rewrite L; left; reflexivity]|].
      set (c0 := Compiler false [] (rev A) au cu sh).
      assert (T : exists c1, template V c0 g = Ok (Box (KTemplate ms n m p) [] false, c1) /\ settled c1 /\ c_top c1 = false /\ c_aliases c1 = rev A /\ c_sheet c1 = sh /\
        (cu = true -> c_current c1 = true) /\ (matching (Elem g (first ++ kids)) -> c_current c1 = true)).
      { destruct (template_ok c0 g ms n m p O U On Hn Hm) as [T1 T2]. destruct Hmp as [Hmp|Hmp].
        - exists (current_again c0). split; [exact (T1 Hmp)|]. split; [split; [reflexivity|split; reflexivity]|]. repeat split; auto.
        - exists c0. split; [exact (T2 Hmp)|]. assert (Nm : matching (Elem g (first ++ kids)) -> False) by (intros [_ Q]; apply Q; exact (proj1 Hmp)).
          split; [|split; [reflexivity|split; [reflexivity|split; [reflexivity|split; [auto|intro Q; contradiction]]]]].
          split; [|split; [|reflexivity]].
          + intros sc b s. cbn. destruct Hc as [[Hc _]|[-> |Hc]]; [destruct cu; [reflexivity|apply Hc]|reflexivity|contradiction].
          + intros sc s. cbn. destruct Hc as [[_ Hc]|[-> |Hc]]; [destruct cu; [reflexivity|apply Hc]|reflexivity|contradiction]. }
      destruct T as (c1 & T & St & C1 & C2 & C3 & C4 & C5).
      pose proof (params_goes first l Hf OK1 c1 ms n m p [] St) as G1.
      destruct (content_goes V A A1 A2) as (HB & _). destruct (HB _ _ _ Hb eq_refl OK2 c1 (KTemplate ms n m p) ([] ++ l) false [] St Logic.I) as [dn G2].
      set (tm := Template ms n m p (l ++ l')).
      exists (with_stack [] (with_sheet (Sheet (s_templates sh ++ [tm]) (s_variables sh) (s_keys sh) (s_output sh) (s_cdata sh)) c1)). split; [|split].
      + eapply goes_element.
        * unfold start_element, top_element. cbn [c0 c_stack c_top]. rewrite U. change (str_eqb xslt xslt_uri) with true. cbv iota. is_now L.
          fold c0. rewrite T. reflexivity.
        * rewrite flat_map_app. eapply goes_app; [exact G1|exact G2].
        * cbn [end_element with_stack c_stack box_end]. unfold end_element. cbn [with_stack c_stack box_end]. unfold add_template. cbn [with_stack c_sheet t_name]. rewrite C3.
          assert (E : negb (empty n) && existsb (fun u => str_eqb (t_name u) n) (s_templates sh) = false).
          { destruct (Hd tm eq_refl) as [E|E]; cbn in E; [rewrite E; reflexivity|]. apply Bool.andb_false_iff. right. apply Bool.not_true_is_false. intro Q.
            apply existsb_exists in Q as (v & I & Q). apply str_eqb_true in Q. apply E. rewrite <- Q. apply in_map. exact I. }
          rewrite E. reflexivity.
      + unfold after. cbn. rewrite C1, C2, !app_nil_r. repeat split; auto.
      + exact C5.
    - (** variable *)
      apply ordinary_elem in O as [O OK]. destruct Hc as [-> Hc]; [split; [exact U|rewrite L; right; left; reflexivity]|].
      assert (Nm : matching (Elem g kids) -> False) by (intros [[_ [Q|[]]] _]; rewrite L in Q; vm_compute in Q; discriminate Q).
      set (c0 := Compiler false [] (rev A) au cu sh).
      assert (St : settled c0).
      { split; [|split; [|reflexivity]].
        - intros sc b s. cbn. destruct Hc as [[Hc _]|[-> |Hc]]; [destruct cu; [reflexivity|apply Hc]|reflexivity|contradiction].
        - intros sc s. cbn. destruct Hc as [[_ Hc]|[-> |Hc]]; [destruct cu; [reflexivity|apply Hc]|reflexivity|contradiction]. }
      destruct (content_goes V A A1 A2) as (_ & _ & _ & _ & HV). destruct (HV _ _ _ _ _ Hv eq_refl O OK) as [Hx G].
      destruct (G c0 TopVariable n [] St) as [dn G'].
      exists (with_stack [] (with_sheet (Sheet (s_templates sh) (s_variables sh ++ [(false, (n, x, l))]) (s_keys sh) (s_output sh) (s_cdata sh)) c0)). split; [|split].
      + eapply goes_element; [|exact G'|reflexivity].
        unfold start_element, top_element. cbn [c0 c_stack c_top]. rewrite U. change (str_eqb xslt xslt_uri) with true. cbv iota. is_now L.
        fold c0. rewrite (variable_ok V A c0 g x n TopVariable); [reflexivity|exact St|assumption..].
      + afterwards.
      + intro Q. contradiction.
    - (** param *)
      apply ordinary_elem in O as [O OK]. destruct Hc as [-> Hc]; [split; [exact U|rewrite L; right; right; left; reflexivity]|].
      assert (Nm : matching (Elem g kids) -> False) by (intros [[_ [Q|[]]] _]; rewrite L in Q; vm_compute in Q; discriminate Q).
      set (c0 := Compiler false [] (rev A) au cu sh).
      assert (St : settled c0).
      { split; [|split; [|reflexivity]].
        - intros sc b s. cbn. destruct Hc as [[Hc _]|[-> |Hc]]; [destruct cu; [reflexivity|apply Hc]|reflexivity|contradiction].
        - intros sc s. cbn. destruct Hc as [[_ Hc]|[-> |Hc]]; [destruct cu; [reflexivity|apply Hc]|reflexivity|contradiction]. }
      destruct (content_goes V A A1 A2) as (_ & _ & _ & _ & HV). destruct (HV _ _ _ _ _ Hv eq_refl O OK) as [Hx G].
      destruct (G c0 TopParam n [] St) as [dn G'].
      exists (with_stack [] (with_sheet (Sheet (s_templates sh) (s_variables sh ++ [(true, (n, x, l))]) (s_keys sh) (s_output sh) (s_cdata sh)) c0)). split; [|split].
      + eapply goes_element; [|exact G'|reflexivity].
        unfold start_element, top_element. cbn [c0 c_stack c_top]. rewrite U. change (str_eqb xslt xslt_uri) with true. cbv iota. is_now L.
        fold c0. rewrite (variable_ok V A c0 g x n TopParam); [reflexivity|exact St|assumption..].
      + afterwards.
      + intro Q. contradiction.
    - (** key *)
      apply ordinary_elem in O as [O OK]. pose proof (keeps_false g keep' O K) as ->.
      set (c0 := Compiler false [] al au cu sh).
      exists (with_stack [] (with_sheet (Sheet (s_templates sh) (s_variables sh) (s_keys sh ++ [Key n ms x]) (s_output sh) (s_cdata sh)) (current_again c0))). split; [|split].
      + eapply goes_element; [|apply (quiet V (current_again c0) (HKey (Key n ms x)) [] kids); [exact Logic.I|exact Hk]|reflexivity].
        unfold start_element, top_element. cbn [c0 c_stack c_top]. rewrite U. change (str_eqb xslt xslt_uri) with true. cbv iota. is_now L.
        fold c0. unfold key_element. destruct Hn as (v & Hv & Nv & Ev). collect [must "name"; must "match"; must "use"] O U On r Lr.
        rewrite (proj1 (Lr "name"%string ltac:(vocab)) _ Hv), (proj1 (Lr "match"%string ltac:(vocab)) _ Ht), (proj1 (Lr "use"%string ltac:(vocab)) _ Hu), Ev. cbn [need].
        rewrite Et. cbn [need]. rewrite Eu. reflexivity.
      + afterwards.
      + reflexivity.
    - (** output *)
      apply ordinary_elem in O as [O OK]. pose proof (keeps_false g keep' O K) as ->.
      set (c0 := Compiler false [] al au cu sh).
      destruct (gathers g output_rules (map fst output_settings) O U On ltac:(unfold output_settings; cbn [map fst]; known_) ltac:(unfold output_rules; filled_)) as (r & Er & Lr).
      assert (Sm : same_settings m r).
      { unfold same_settings. apply Forall_forall. intros [n d] I. cbn [fst]. rewrite Forall_forall in Hs. specialize (Hs _ I). cbn in Hs.
        assert (In n vocabulary /\ lookup (defaults output_rules) (ascii_str n) = ascii_str d) as [Iv Ed].
        { unfold output_settings in I. cbn [In] in I. repeat (destruct I as [E|I]; [injection E as <- <-; split; [vocab|vm_compute; reflexivity]|]). destruct I. }
        destruct Hs as [Hs|[Hs E]]; [rewrite (proj1 (Lr n Iv) _ Hs); reflexivity|]. rewrite (proj2 (Lr n Iv) Hs), E, Ed. reflexivity. }
      assert (Ec : lookup m (ascii_str "cdata-section-elements") = lookup r (ascii_str "cdata-section-elements")).
      { unfold same_settings in Sm. rewrite Forall_forall in Sm. apply (Sm ("cdata-section-elements", "")%string). unfold output_settings. cbn [In]. auto 10. }
      exists (with_stack [] (with_sheet (Sheet (s_templates sh) (s_variables sh) (s_keys sh) (Some r) (s_cdata sh ++ l)) c0)). split; [|split].
      + eapply goes_element; [|apply (quiet V c0 (HOutput r l) [] kids); [exact Logic.I|exact Hk]|reflexivity].
        unfold start_element, top_element. cbn [c0 c_stack c_top]. rewrite U. change (str_eqb xslt xslt_uri) with true. cbv iota. is_now L.
        fold c0. unfold output. rewrite Er. cbn [need]. rewrite <- Ec. destruct Hl as [[-> ->]|[Nl El]]; [reflexivity|].
        destruct (lookup m (ascii_str "cdata-section-elements")); [congruence|]. rewrite El. reflexivity.
      + unfold after. cbn [c_top c_stack c_aliases c_current c_sheet with_stack with_sheet s_templates s_variables s_keys s_output s_cdata aliases templates variables keys flat_map rev app c0].
        rewrite !app_nil_r. repeat split; auto. exists r. split; [reflexivity|exact Sm].
      + intros [[_ [Q|[]]] _]. rewrite L in Q. vm_compute in Q. discriminate Q.
    - (** namespace-alias *)
      apply ordinary_elem in O as [O OK]. pose proof (keeps_false g keep' O K) as ->.
      set (c0 := Compiler false [] ((u, (q, w)) :: al) au cu sh).
      exists c0. split; [|split].
      + eapply goes_element; [|apply (quiet V c0 HAlias [] kids); [exact Logic.I|exact Hk]|reflexivity].
        unfold start_element, top_element. cbn [c_stack c_top]. rewrite U. change (str_eqb xslt xslt_uri) with true. cbv iota. is_now L.
        unfold alias.
        destruct (undefault_ok g "stylesheet-prefix" p u [(ascii_str "stylesheet-prefix", value_of_q (g_atts g) (ascii_str "stylesheet-prefix"))] Hp) as (_ & _ & _ & v1 & Hv1 & Nv1).
        { intros v Hv. rewrite lookup_cons, seq_refl. apply has_q; [exact O|reflexivity|exact Hv]. }
        destruct (undefault_ok g "result-prefix" q w [(ascii_str "result-prefix", value_of_q (g_atts g) (ascii_str "result-prefix"))] Hq) as (_ & _ & _ & v2 & Hv2 & Nv2).
        { intros v Hv. rewrite lookup_cons, seq_refl. apply has_q; [exact O|reflexivity|exact Hv]. }
        collect [must "stylesheet-prefix"; must "result-prefix"] O U On r Lr. cbv zeta.
        destruct (undefault_ok g "stylesheet-prefix" p u r Hp (proj1 (Lr "stylesheet-prefix"%string ltac:(vocab)))) as (-> & -> & -> & _).
        destruct (undefault_ok g "result-prefix" q w r Hq (proj1 (Lr "result-prefix"%string ltac:(vocab)))) as (-> & -> & -> & _). reflexivity.
      + afterwards.
      + intros [[_ [Q|[]]] _]. rewrite L in Q. vm_compute in Q. discriminate Q.
  Qed.
End Tops.

Section Whole.
  Context {scope X M N P : Type} (V : services (scope := scope) (X := X) (M := M) (N := N) (P := P)).
  Notation compiler := (compiler (X := X) (M := M) (N := N) (P := P)).
  Notation tag := (tag (scope := scope)).
  Notation xml := (xml (scope := scope)).
  Notation declaration := (declaration (X := X) (M := M) (N := N) (P := P)).
  Lemma alias_element : forall A keep (t : xml) u p w, declares V A keep t (DAlias u p w) -> is_xsl t ["namespace-alias"]%string.
  Proof. intros A keep t u p w H. inversion H as [| | | | | | |? ? g ? ? ? ? ? (U & L)]; subst. split; [exact U|]. rewrite L. left. reflexivity. Qed.
  Lemma no_aliases : forall A keep (kids : list xml) ds, Forall2 (declares V A keep) kids ds -> Forall (fun t => ~ is_xsl t ["namespace-alias"]%string) kids -> aliases ds = [].
  Proof.
    intros A keep kids ds H. induction H as [|t d kids ds Ht _ IH]; intro F; [reflexivity|]. inversion F as [|? ? F1 F2]; subst. unfold aliases in *. cbn [flat_map]. rewrite (IH F2).
    destruct d; try reflexivity. exfalso. apply F1. exact (alias_element _ _ _ _ _ _ Ht).
  Qed.
  (** How far the compiler is when the declarations [ds] have been read. *)
  Definition so_far (ds : list declaration) (c : compiler) : Prop :=
    c_top c = false /\ c_stack c = [] /\ c_aliases c = rev (aliases ds) /\ s_templates (c_sheet c) = templates ds /\ s_variables (c_sheet c) = variables ds /\
    s_keys (c_sheet c) = keys ds /\ s_cdata (c_sheet c) = flat_map snd (outputs ds) /\
    match outputs ds, s_output (c_sheet c) with
    | [], None => True
    | [(m, l)], Some m' => same_settings m m'
    | _, _ => False
    end.
  Lemma fresh_name : forall (ds ds' : list declaration) tm, NoDup (named (templates (ds ++ DTemplate tm :: ds'))) ->
    t_name tm = [] \/ ~ In (t_name tm) (map t_name (templates ds)).
  Proof.
    intros ds ds' tm H. destruct (t_name tm) as [|z n] eqn:E; [left; reflexivity|right]. intro I.
    unfold templates in H. rewrite flat_map_app in H. cbn [flat_map] in H. fold (templates ds) in H. unfold named in H. rewrite map_app, filter_app in H. cbn [map app filter] in H.
    rewrite E in H. cbn [empty negb filter] in H. apply NoDup_remove_2 in H. apply H. apply in_or_app. left. apply filter_In. split; [exact I|reflexivity].
  Qed.
  Lemma declare_all : forall A kids ds, NoDup (map fst A) -> (forall u p w, In (u, (p, w)) A -> u <> [] /\ p <> []) ->
    Forall2 (declares V A false) kids ds -> Forall ordinary kids ->
    forall kids0 ds0 c, A = aliases (ds0 ++ ds) -> NoDup (named (templates (ds0 ++ ds))) -> (length (outputs (ds0 ++ ds)) <= 1)%nat ->
    (forall pre t post, kids0 ++ kids = pre ++ t :: post -> content_ t ->
       Forall (fun t => ~ is_xsl t ["namespace-alias"]%string) post /\ (no_current V \/ matching t \/ exists u, In u pre /\ matching u)) ->
    so_far ds0 c -> ((exists u, In u kids0 /\ matching u) -> c_current c = true) ->
    exists c', goes V c (flat_map events kids) c' /\ so_far (ds0 ++ ds) c'.
  Proof.
    intros A kids ds A1 A2 H. induction H as [|t d kids ds Ht Hk IH]; intros O kids0 ds0 c EA ND Lo Ho Sf Hm.
    - exists c. split; [apply goes_nil|]. rewrite app_nil_r. exact Sf.
    - pose proof (Forall_inv O) as O1. pose proof (Forall_inv_tail O) as O2. destruct c as [tp st al au cu sh].
      destruct Sf as (F1 & F2 & F3 & F4 & F5 & F6 & F7 & F8). cbn [c_top c_stack c_aliases c_sheet] in F1, F2, F3, F4, F5, F6, F7, F8. subst tp st al.
      destruct (declare_goes V A A1 A2 t d Ht O1 (rev (aliases ds0)) au cu sh) as (c' & G & Af & Hc).
      + intro Ct. destruct (Ho kids0 t kids eq_refl Ct) as [Na Hn]. split.
        * f_equal. rewrite EA. unfold aliases. rewrite flat_map_app. cbn [flat_map]. fold (aliases ds). rewrite (no_aliases A false kids ds Hk Na).
          destruct d; try (symmetry; apply app_nil_r). exfalso. pose proof (alias_element _ _ _ _ _ _ Ht) as Q. destruct t as [g sub|s]; [|destruct Q].
          destruct Q as [_ [Q|[]]]. destruct Ct as [_ Ct]. rewrite <- Q in Ct. destruct Ct as [Ct|[Ct|[Ct|[]]]]; vm_compute in Ct; discriminate Ct.
        * destruct Hn as [Hn|[Hn|Hn]]; [left; exact Hn|right; right; exact Hn|right; left; exact (Hm Hn)].
      + intros tm ->. rewrite F4. exact (fresh_name ds0 ds tm ND).
      + destruct Af as (B1 & B2 & B3 & B4 & B5 & B6 & B7 & B8). cbn [c_aliases c_current c_sheet] in B3, B4, B5, B6, B7, B8.
        assert (Sf : so_far (ds0 ++ [d]) c').
        { unfold so_far, aliases, templates, variables, keys, outputs in *. rewrite !flat_map_app. rewrite rev_app_distr, B3, B5, B6, B7, F4, F5, F6. cbn [flat_map] in *.
          split; [exact B1|]. split; [exact B2|]. do 4 (split; [reflexivity|]).
          rewrite flat_map_app in Lo. cbn [flat_map] in Lo. rewrite !app_length in Lo.
          destruct d; try (destruct B8 as [-> ->]; rewrite !app_nil_r; split; [exact F7|exact F8]).
          destruct B8 as [(m' & -> & Sm) ->]. cbn [app length] in Lo.
          destruct (flat_map (fun d => match d with DOutput m l => [(m, l)] | _ => [] end) ds0) as [|o os] eqn:Eo; [|cbn [length] in Lo; lia].
          rewrite F7. cbn. rewrite app_nil_r. split; [reflexivity|exact Sm]. }
        destruct (IH O2 (kids0 ++ [t]) (ds0 ++ [d]) c') as (c'' & G' & Sf').
        * rewrite EA, <- app_assoc. reflexivity.
        * rewrite <- app_assoc. exact ND.
        * rewrite <- app_assoc. exact Lo.
        * rewrite <- app_assoc. exact Ho.
        * exact Sf.
        * intros (u & I & Mu). apply in_app_or in I as [I|[<-|[]]]; [apply B4, Hm; exists u; split; assumption|exact (Hc Mu)].
        * exists c''. rewrite <- app_assoc in Sf'. split; [|exact Sf']. cbn [flat_map]. eapply goes_app; [exact G|exact G'].
  Qed.
  Lemma in_second : forall {T U} (R : T -> U -> Prop) l m, Forall2 R l m -> forall y, In y m -> exists x, In x l /\ R x y.
  Proof. intros T U R l m H. induction H as [|x y l m Hx _ IH]; intros z []; [subst; exists x; split; [left; reflexivity|exact Hx]|]. destruct (IH z H) as (w & I & Hw). exists w. split; [right; exact I|exact Hw]. Qed.
  Lemma after_split : forall {T} (l r pre post : list T) t, l ++ r = pre ++ t :: post -> ~ In t l -> exists x, pre = l ++ x /\ r = x ++ t :: post.
  Proof.
    intros T. induction l as [|a l IH]; intros r pre post t E I.
    - exists pre. split; [reflexivity|exact E].
    - destruct pre as [|b pre]; cbn in E; injection E as -> E.
      + exfalso. apply I. left. reflexivity.
      + destruct (IH r pre post t E) as (x & -> & ->); [intro J; apply I; right; exact J|]. exists x. split; reflexivity.
  Qed.
  Theorem compile_says : forall doc s, says V doc s -> agreed V doc -> exists s', compile V (events doc) = Ok s' /\ alike s s'.
  Proof.
    intros doc s H [O Ag]. destruct H as [g kids keep ds Hg On Hv K Hd ND Na Lo|g kids keep ms name uri atts l Nu Hv Em Hn Ha K Hb].
    - apply ordinary_elem in O as [O OK]. pose proof (keeps_false g keep O K) as ->.
      assert (U : g_uri g = xslt) by (destruct Hg as [[U _]|[U _]]; exact U). destruct (Ag U) as (Af & Ap & Ac).
      set (c1 := Compiler false [] [] 1 false no_sheet : compiler).
      assert (S1 : root_element V start_compiler g = Ok c1).
      { unfold root_element. rewrite U. change (str_eqb xslt xslt_uri) with true. cbv zeta iota.
        assert (E : is_ g "stylesheet" || is_ g "transform" = true).
        { unfold is_. destruct Hg as [[_ ->]|[_ ->]]; vm_compute; reflexivity. }
        rewrite E. cbn [negb refuse].
        destruct (gathers g [must "version"; may "extension-element-prefixes"; may "exclude-result-prefixes"; may "id"] _ O U On) as (m & E' & Lm).
        - repeat (apply Forall_cons; [eexists; split; [reflexivity|left; reflexivity]|]). apply Forall_nil.
        - apply Forall_cons; [|repeat (apply Forall_cons; [intro Q; discriminate Q|]); apply Forall_nil].
          intros _. exists "version"%string, (ascii_str "1.0"). split; [reflexivity|]. split; [reflexivity|]. split; [exact Hv|discriminate].
        - rewrite E'. cbn [need]. rewrite (proj1 (Lm "version"%string ltac:(apply in_vocabulary; reflexivity)) _ Hv). cbn [negb]. rewrite seq_refl. cbn [negb refuse].
          assert (Hx : lacks g "extension-element-prefixes").
          { intros a I Ua La. destruct (On a I Ua) as [Q|[Q|[Q|[]]]]; rewrite La in Q; vm_compute in Q; discriminate Q. }
          rewrite (proj2 (Lm "extension-element-prefixes"%string ltac:(apply in_vocabulary; reflexivity)) Hx). reflexivity. }
      destruct (declare_all (aliases ds) kids ds Na) with (kids0 := @nil xml) (ds0 := @nil declaration) (c := c1) as (c2 & G & Sf).
      + intros u p w I. unfold aliases in I. apply in_flat_map in I as (d & Id & I). destruct d; try contradiction. destruct I as [I|[]]. injection I as -> -> ->.
        destruct (in_second _ _ _ Hd _ Id) as (t & It & Ht). inversion Ht as [| | | | | | |? ? g' sub p' ? ? ? Xg On' Hp Hq K' Hk']; subst.
        exact (Ap g' sub _ _ _ _ It Xg Hp Hq).
      + exact Hd.
      + exact OK.
      + reflexivity.
      + exact ND.
      + exact Lo.
      + cbn [app]. intros pre t post E Ct. split.
        * destruct Af as (l & r & El & Fl & Fr). rewrite El in E. destruct (after_split l r pre post t E) as (x & -> & ->).
          { intro I. rewrite Forall_forall in Fl. exact (Fl t I Ct). }
          apply Forall_app in Fr as [_ Fr]. inversion Fr; assumption.
        * destruct Ac as [Ac|(l & r & El & Fl & Fr)]; [left; exact Ac|right]. rewrite El in E. destruct (after_split l r pre post t E) as (x & -> & ->).
          { intro I. rewrite Forall_forall in Fl. exact (Fl t I Ct). }
          destruct x as [|u x]; cbn [app] in Fr; [left; exact Fr|right]. exists u. split; [|exact Fr]. apply in_or_app. right. left. reflexivity.
      + repeat split.
      + intros (u & [] & _).
      + exists (c_sheet c2). cbn [app] in Sf. split.
        * unfold compile. cbn [events]. cbn [run step]. change (start_element V start_compiler g) with (root_element V start_compiler g). rewrite S1. cbn [bind].
          rewrite (G [End]). cbn [run step]. destruct Sf as (_ & Fs & _). unfold end_element. rewrite Fs. reflexivity.
        * destruct Sf as (_ & _ & _ & F4 & F5 & F6 & F7 & F8). unfold alike. cbn [s_templates s_variables s_keys s_output s_cdata]. rewrite F4, F5, F6, F7. repeat split.
          destruct (outputs ds) as [|[m l] [|o os]]; cbn [hd_error option_map fst].
          -- destruct (s_output (c_sheet c2)); [destruct F8|exact Logic.I].
          -- destruct (s_output (c_sheet c2)); [exact F8|destruct F8].
          -- destruct F8.
    - apply ordinary_elem in O as [O OK]. pose proof (keeps_false g keep O K) as ->.
      set (c1 := Compiler false [] [] 1 true no_sheet : compiler).
      assert (St : settled V [] c1) by (split; [reflexivity|split; reflexivity]).
      assert (B : NoDup (map fst (@nil (str * (str * str))))) by constructor.
      assert (B2 : forall u p w, In (u, (p, w)) (@nil (str * (str * str))) -> u <> [] /\ p <> []) by (intros u p w []).
      assert (S1 : root_element V start_compiler g = Ok (with_stack [Box (KRoot ms name uri atts) [] false] c1)).
      { unfold root_element. destruct (str_eqb (g_uri g) xslt_uri) eqn:E; [apply str_eqb_true in E; contradiction|]. cbv zeta iota.
        assert (Ev : root_version (g_atts g) = ascii_str "1.0").
        { destruct Hv as (a & Ia & Ua & La & Va). destruct O as (D & _). clear - Ia Ua La Va D. unfold root_version. induction (g_atts g) as [|b atts IH]; [destruct Ia|].
          inversion D as [|? ? D1 D2]; subst. cbn [find]. destruct (str_eqb xslt_uri (a_uri b) && str_eqb (ascii_str "version") (a_local b)) eqn:E.
          - apply andb_prop in E as [E1 E2]. apply str_eqb_true in E1. apply str_eqb_true in E2. destruct Ia as [->|Ia]; [exact Va|].
            exfalso. apply D1. apply in_map_iff. exists a. rewrite Ua, La, <- E1, <- E2. split; [reflexivity|exact Ia].
          - destruct Ia as [->|Ia]; [|apply IH; assumption]. rewrite Ua, La in E. vm_compute in E. discriminate E. }
        rewrite Ev, seq_refl. cbn [negb refuse]. rewrite Em. cbn [need].
        change (current_again (Compiler false (c_stack (start_compiler (X := X) (M := M) (N := N) (P := P))) (c_aliases (start_compiler (X := X) (M := M) (N := N) (P := P))) (c_auto (start_compiler (X := X) (M := M) (N := N) (P := P)))
          (c_current (start_compiler (X := X) (M := M) (N := N) (P := P))) (c_sheet (start_compiler (X := X) (M := M) (N := N) (P := P))))) with c1.
        rewrite (inline_ok V [] B B2 c1 g (KRoot ms) name uri atts St O Hn Ha). reflexivity. }
      destruct (content_goes V [] B B2) as (HB & _).
      destruct (HB _ _ _ Hb eq_refl OK c1 (KRoot ms name uri atts) [] false [] St Logic.I) as [dn G].
      eexists. split.
      + unfold compile. cbn [events]. cbn [run step]. change (start_element V start_compiler g) with (root_element V start_compiler g). rewrite S1. cbn [bind].
        rewrite (G [End]). reflexivity.
      + repeat split.
  Qed.
End Whole.

(** * No handler is where it cannot work *)
Section Sound.
  Context {scope X M N P : Type} (V : services (scope := scope) (X := X) (M := M) (N := N) (P := P)).
  Notation compiler := (compiler (X := X) (M := M) (N := N) (P := P)).
  Notation handler := (handler (X := X) (M := M) (N := N) (P := P)).
  Notation tag := (tag (scope := scope)).
  Definition in_box (below : list handler) : Prop := match below with Box _ _ _ :: _ => True | _ => False end.
  Definition fits (h : handler) (below : list handler) : Prop :=
    match h with
    | Box (KVariable Passed _ _) _ _ => match below with HApply _ _ _ _ :: _ | HCall _ _ :: _ => True | _ => False end
    | Box (KWhen _) _ _ | Box KOtherwise _ _ => match below with HChoose _ _ _ _ :: _ => True | _ => False end
    | Box (KTemplate _ _ _ _) _ _ | Box (KRoot _ _ _ _) _ _ | Box (KVariable TopVariable _ _) _ _ | Box (KVariable TopParam _ _) _ _ => True
    | HKey _ | HOutput _ _ | HAlias | HForeign _ => True
    | HSort _ => match below with HApply _ _ _ _ :: _ | Box (KForEach _ _) _ _ :: _ => True | _ => False end
    | _ => in_box below
    end.
  Fixpoint well (l : list handler) : Prop := match l with [] => True | h :: l => fits h l /\ well l end.
  Definition fine {T} (Q : T -> Prop) (r : res T) : Prop := match r with Ok a => Q a | Broken => False | _ => True end.
  Lemma fine_need : forall {T U} (Q : U -> Prop) (o : option T) k, (forall a, fine Q (k a)) -> fine Q (need o k).
  Proof. intros T U Q [a|] k H; [apply H|exact Logic.I]. Qed.
  Lemma fine_refuse : forall {U} (Q : U -> Prop) b k, fine Q k -> fine Q (refuse b k).
  Proof. intros U Q [] k H; [exact Logic.I|exact H]. Qed.
  Definition makes (below : list handler) (r : res (handler * compiler)) : Prop := fine (fun p => fits (fst p) below) r.
  Ltac made := repeat first [apply fine_need; intro|apply fine_refuse|exact Logic.I|match goal with
    | |- fine _ (if ?b then _ else _) => destruct b
    | |- fine _ (match ?b with _ => _ end) => destruct b
    end]; try assumption; cbn; auto.
  Lemma push_well : forall below r, makes below r -> well below -> fine (fun c => well (c_stack c)) (push below r).
  Proof. intros below [[h c]| | |] H W; cbn in *; try exact Logic.I; [split; assumption|destruct H]. Qed.
  Lemma inline_makes : forall c (g : tag) k below, (forall n u l, fits (Box (k n u l) [] false) below) -> makes below (inline V c g k).
  Proof. intros c g k below H. unfold inline, makes. apply fine_need. intros [l c']. destruct (inline_name c' g) as [n u]. apply H. Qed.
  Lemma instruction_makes : forall c (g : tag) below r, in_box below -> instruction V c g = Some r -> makes below r.
  Proof.
    intros c g below r B H. unfold instruction in H.
    repeat match type of H with (if ?b then _ else _) = _ => destruct b end; try (injection H as <-); try discriminate H; unfold makes, named_content, variable; made.
  Qed.
  Lemma variable_makes : forall c (g : tag) k below, (forall n e, fits (Box (KVariable k n e) [] false) below) -> makes below (variable V c g k).
  Proof. intros c g k below H. unfold makes, variable. do 3 (apply fine_need; intro). apply H. Qed.
  Lemma sort_makes : forall c (g : tag) below, (forall s, fits (HSort s) below) -> makes below (sort V c g).
  Proof. intros c g below H. unfold makes, sort. do 5 (apply fine_need; intro). apply H. Qed.
  Lemma start_well : forall c (g : tag), well (c_stack c) -> fine (fun c => well (c_stack c)) (start_element V c g).
  Proof.
    intros c g W. unfold start_element. destruct (c_stack c) as [|h below] eqn:E.
    - destruct (c_top c).
      + unfold root_element. cbv zeta. destruct (str_eqb (g_uri g) xslt_uri).
        * made. rewrite E. exact Logic.I.
        * apply fine_refuse, fine_need. intro ms. apply push_well; [|exact Logic.I]. apply inline_makes. intros; exact Logic.I.
      + unfold top_element. destruct (str_eqb (g_uri g) xslt_uri); [|destruct (empty (g_uri g)); cbn; auto].
        repeat match goal with |- fine _ (if ?b then _ else _) => destruct b end; try exact Logic.I; (apply push_well; [|exact Logic.I]); unfold makes.
        * unfold template. made.
        * apply variable_makes. intros; exact Logic.I.
        * apply variable_makes. intros; exact Logic.I.
        * unfold output. made.
        * unfold key_element. made.
        * unfold alias. made.
    - destruct W as [Wh Wb]. destruct h.
      + unfold box_start.
        assert (In1 : forall r, instruction V c g = Some r -> fine (fun c => well (c_stack c)) (push (Box h items true :: below) r)).
        { intros r Hr. apply push_well; [apply (instruction_makes c g); [exact Logic.I|exact Hr]|]. split; assumption. }
        destruct (str_eqb (g_uri g) xslt_uri); [|apply push_well; [apply inline_makes; intros; exact Logic.I|split; assumption]].
        destruct h; try (destruct (instruction V c g) eqn:Ei; [apply In1; reflexivity|exact Logic.I]).
        * destruct (is_ g "param"); [|destruct (instruction V c g) eqn:Ei; [apply In1; reflexivity|exact Logic.I]].
          apply fine_refuse, push_well; [apply variable_makes; intros; exact Logic.I|split; assumption].
        * destruct (is_ g "sort"); [|destruct (instruction V c g) eqn:Ei; [apply In1; reflexivity|exact Logic.I]].
          apply fine_refuse, push_well; [apply sort_makes; intros; exact Logic.I|split; assumption].
      + exact Logic.I.
      + exact Logic.I.
      + destruct (_ && is_ g "sort"); [apply push_well; [apply sort_makes; intros; exact Logic.I|split; assumption]|].
        destruct (_ && is_ g "with-param"); [apply push_well; [apply variable_makes; intros; exact Logic.I|split; assumption]|exact Logic.I].
      + destruct (_ && is_ g "with-param"); [apply push_well; [apply variable_makes; intros; exact Logic.I|split; assumption]|exact Logic.I].
      + exact Logic.I.
      + exact Logic.I.
      + destruct (_ && is_ g "when"); [apply fine_refuse, push_well; [unfold makes; made|split; assumption]|].
        destruct (_ && is_ g "otherwise"); [apply fine_refuse, push_well; [unfold makes; made|split; assumption]|exact Logic.I].
      + exact Logic.I.
      + exact Logic.I.
      + exact Logic.I.
      + apply push_well; [unfold makes, alias; made|exact Wb].
      + split; assumption.
  Qed.
  Lemma add_item_well : forall i below c, in_box below -> well below -> fine (fun c => well (c_stack c)) (add_item i below c).
  Proof. intros i [|[]] c B W; cbn in *; try contradiction. exact W. Qed.
  Lemma end_well : forall c, well (c_stack c) -> fine (fun c => well (c_stack c)) (end_element c).
  Proof.
    intros c W. unfold end_element. destruct (c_stack c) as [|h below] eqn:E; [cbn; rewrite E; exact Logic.I|]. destruct W as [Wh Wb]. destruct h; cbn in Wh.
    - unfold box_end, add_template, add_variable. destruct h; cbn in Wh; try (apply add_item_well; assumption); try (apply fine_refuse; exact Wb).
      + destruct below as [|[] below]; try contradiction; exact Wb.
      + destruct below as [|[] below]; try contradiction; exact Wb.
      + destruct k; try (apply add_item_well; assumption); try exact Wb. destruct below as [|[] below]; try contradiction; exact Wb.
    - apply add_item_well; assumption.
    - apply add_item_well; assumption.
    - apply add_item_well; assumption.
    - apply add_item_well; assumption.
    - apply add_item_well; assumption.
    - apply add_item_well; assumption.
    - apply fine_refuse, add_item_well; assumption.
    - destruct below as [|[h'| | | | | | | | | | | |] below]; try contradiction; [|exact Wb]. destruct h'; try contradiction; exact Wb.
    - exact Wb.
    - exact Wb.
    - exact Wb.
    - cbn. destruct depth as [|[|n]]; [exact Wb|exact Wb|split; [exact Logic.I|exact Wb]].
  Qed.
  Lemma characters_well : forall c s, well (c_stack c) -> fine (fun c => well (c_stack c)) (characters c s).
  Proof.
    intros c s W. unfold characters. destruct (c_stack c) as [|h below] eqn:E; [apply fine_refuse; cbn; rewrite E; exact Logic.I|].
    destruct h; try (apply fine_refuse; cbn; rewrite E; exact W); try (cbn; rewrite E; exact W); try exact W.
    destruct (blank s); [cbn; rewrite E; exact W|]. destruct h; try exact W. destruct select; [exact Logic.I|exact W].
  Qed.
  Lemma run_well : forall l c, well (c_stack c) -> fine (fun c => well (c_stack c)) (run V c l).
  Proof.
    induction l as [|e l IH]; intros c W; [exact W|]. cbn [run].
    assert (H : fine (fun c => well (c_stack c)) (step V c e)) by (destruct e; [apply start_well|apply end_well|apply characters_well]; exact W).
    destruct (step V c e); cbn in *; try exact Logic.I; [apply IH; exact H|destruct H].
  Qed.
  Theorem never_broken : forall l, compile V l <> Broken.
  Proof.
    intros l E. unfold compile in E. pose proof (run_well l start_compiler Logic.I) as H. destruct (run V start_compiler l); cbn in *; try discriminate E. exact H.
  Qed.
End Sound.
