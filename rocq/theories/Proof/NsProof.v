From Verif.Model Require Import Base Containers Text NsSupport.
From Verif.Spec Require Import NsSpec.
From Verif.Proof Require Import Tac ConvertProof ContainersProof.

Definition reserved (p : name) : bool := name_eqb p s_xml || name_eqb p s_xmlns.
Definition op_of (o : nsop) : scope_op :=
  match o with NPush => Enter | NPop => Leave | NDecl p u => Declare p u end.
Definition base_env : env := bind s_xml xml_uri no_env.
Definition base_scopes : scopes := [(base_env, [s_xml])].

Lemma name_eqb_str a b : name_eqb a b = str_eqb a b.
Proof.
  unfold name_eqb. destruct (list_eq_dec Z.eq_dec a b) as [->|N]; symmetry.
  - apply str_eqb_true. reflexivity.
  - apply str_eqb_false. exact N.
Qed.
Lemma existsb_name p h : existsb (name_eqb p) h = true <-> In p h.
Proof.
  rewrite existsb_exists. split.
  - intros (x & I & E). rewrite name_eqb_str in E. apply str_eqb_true in E. congruence.
  - intros I. exists p. split; [exact I|]. rewrite name_eqb_str. apply str_eqb_true. reflexivity.
Qed.

(** The contexts against a stack of dictionaries. *)
Fixpoint rel (st : contexts) (sp : scopes) : Prop :=
  match st, sp with
  | [], [] => True
  | c :: st', (e, h) :: sp' =>
      sorted c /\ (forall p, e p = find_uri st p) /\ (forall p, In p h <-> mm_find p c <> None)
      /\ rel st' sp'
  | _, _ => False
  end.
Lemma rel_current st sp : rel st sp -> forall p, current sp p = find_uri st p.
Proof.
  destruct st as [|c st], sp as [|(e, h) sp]; cbn [rel]; try tauto.
Qed.
Lemma rel_base : rel ns_reset base_scopes.
Proof.
  split; [cbn; split; [intros ? ? []|exact I]|]. split; [|split; [|exact I]].
  - intros p. unfold base_env, bind. rewrite name_eqb_str.
    cbn [mm_insert find_uri mm_find]. destruct (str_eqb s_xml p); reflexivity.
  - intros p. cbn [In mm_insert mm_find]. destruct (str_eqb s_xml p) eqn:E.
    + apply str_eqb_true in E. split; [discriminate|auto].
    + apply str_eqb_false in E. split; [intros [K|[]]; congruence|congruence].
Qed.

Lemma step_first st sp o : rel st sp ->
  match ns_step o st with
  | Val st' => exists sp', scope_step_first reserved (op_of o) sp = Some sp' /\ rel st' sp'
  | UB => scope_step_first reserved (op_of o) sp = None
  | NoFuel => False
  end.
Proof.
  intros R. destruct o as [| |p u]; cbn [ns_step op_of].
  - exists ((current sp, []) :: sp). split; [destruct sp; reflexivity|].
    split; [exact I|]. split; [|split; [|exact R]].
    + intros p. cbn. apply rel_current. exact R.
    + intros p. cbn. split; [tauto|congruence].
  - destruct st as [|c st], sp as [|(e, h) sp]; cbn [rel] in R; try tauto; [reflexivity|].
    cbn [pop_context]. exists sp. split; [reflexivity|]. apply R.
  - unfold declare_prefix. unfold scope_step_first, scope_step.
    assert (Er : reserved p = str_eqb p s_xml || str_eqb p s_xmlns).
    { unfold reserved. rewrite !name_eqb_str. reflexivity. }
    destruct (str_eqb p s_xml || str_eqb p s_xmlns) eqn:E.
    + cbn [obind snd]. exists sp. split; [|exact R]. destruct sp as [|(e, h) sp]; rewrite Er; [reflexivity|].
      destruct (existsb (name_eqb p) h); reflexivity.
    + destruct st as [|c st], sp as [|(e, h) sp]; cbn [rel] in R; try tauto; rewrite Er;
        cbn [obind snd]; [reflexivity|].
      destruct R as (S1 & S2 & S3 & S4).
      destruct (existsb (name_eqb p) h) eqn:EX.
      * exists ((e, h) :: sp). split; [reflexivity|].
        apply existsb_name in EX. apply S3 in EX.
        split; [apply mm_insert_sorted; exact S1|]. split; [|split; [|exact S4]].
        -- intros q. rewrite S2. cbn [find_uri]. rewrite mm_find_insert by exact S1.
           destruct (str_eqb p q) eqn:EQ; [|reflexivity]. apply str_eqb_true in EQ. subst q.
           destruct (mm_find p c); [reflexivity|congruence].
        -- intros q. rewrite S3, mm_find_insert by exact S1.
           destruct (str_eqb p q) eqn:EQ; [|reflexivity]. apply str_eqb_true in EQ. subst q.
           destruct (mm_find p c); [reflexivity|congruence].
      * exists ((bind p u e, p :: h) :: sp). split; [reflexivity|].
        assert (NI : mm_find p c = None).
        { destruct (mm_find p c) eqn:F; [|reflexivity]. exfalso.
          assert (In p h) as K by (apply S3; congruence). apply existsb_name in K. congruence. }
        split; [apply mm_insert_sorted; exact S1|]. split; [|split; [|exact S4]].
        -- intros q. unfold bind. rewrite name_eqb_str. cbn [find_uri].
           rewrite mm_find_insert by exact S1.
           destruct (str_eqb p q) eqn:EQ; [|apply S2]. apply str_eqb_true in EQ. subst q.
           rewrite NI. reflexivity.
        -- intros q. cbn [In]. rewrite S3, mm_find_insert by exact S1.
           destruct (str_eqb p q) eqn:EQ.
           ++ apply str_eqb_true in EQ. subst q. rewrite NI. split; [discriminate|auto].
           ++ apply str_eqb_false in EQ. tauto.
Qed.

Lemma run_first ops : forall st sp, rel st sp ->
  match ns_run ops st with
  | Val st' => exists sp', scope_run (scope_step_first reserved) (map op_of ops) sp = Some sp'
                           /\ rel st' sp'
  | UB => scope_run (scope_step_first reserved) (map op_of ops) sp = None
  | NoFuel => False
  end.
Proof.
  induction ops as [|o ops IH]; intros st sp R; cbn [ns_run map scope_run].
  - exists sp. auto.
  - pose proof (step_first st sp o R) as S. destruct (ns_step o st) as [st1| |]; cbn [obind].
    + destruct S as (sp1 & -> & R1). apply IH. exact R1.
    + rewrite S. reflexivity.
    + destruct S.
Qed.

Lemma once_steps ops : forall sp,
  declared_once reserved ops (map snd sp) ->
  scope_run (scope_step_first reserved) ops sp = scope_run (scope_step reserved) ops sp.
Proof.
  induction ops as [|o ops IH]; intros sp H; [reflexivity|]. cbn [scope_run].
  destruct o as [| |p u].
  - cbn [scope_step_first scope_step]. destruct sp as [|(e, h) sp]; apply IH; exact H.
  - destruct sp as [|(e, h) sp]; [reflexivity|]. cbn [scope_step_first scope_step]. apply IH.
    exact H.
  - destruct sp as [|(e, h) sp].
    + cbn [scope_step_first scope_step]. destruct (reserved p); [|reflexivity].
      apply IH. exact H.
    + cbn [declared_once map snd] in H. destruct H as (H1 & H2).
      cbn [scope_step_first scope_step].
      destruct (reserved p) eqn:E.
      * destruct (existsb (name_eqb p) h); cbn [scope_step]; rewrite ?E; apply IH; exact H2.
      * destruct H1 as [H1|H1]; [discriminate|].
        assert (existsb (name_eqb p) h = false) as ->.
        { destruct (existsb (name_eqb p) h) eqn:X; [|reflexivity]. apply existsb_name in X.
          contradiction. }
        apply IH. exact H2.
Qed.

(** Looking up. *)
Definition lookup (sp : scopes) (p : name) : name :=
  match current sp p with Some u => u | None => [] end.
Lemma lookup_first ops st : ns_run ops ns_reset = Val st ->
  exists sp, scope_run (scope_step_first reserved) (map op_of ops) base_scopes = Some sp
             /\ forall p, get_uri st p = lookup sp p.
Proof.
  intros H. pose proof (run_first ops _ _ rel_base) as R. rewrite H in R.
  destruct R as (sp & E & R). exists sp. split; [exact E|]. intros p.
  unfold get_uri, lookup. rewrite (rel_current _ _ R). reflexivity.
Qed.
Lemma lookup_scoped ops st : declared_once reserved (map op_of ops) [[s_xml]] ->
  ns_run ops ns_reset = Val st ->
  exists sp, scope_run (scope_step reserved) (map op_of ops) base_scopes = Some sp
             /\ forall p, get_uri st p = lookup sp p.
Proof.
  intros D H. destruct (lookup_first ops st H) as (sp & E & L). exists sp. split; [|exact L].
  rewrite <- E. symmetry. apply once_steps. exact D.
Qed.

(** Leaving restores. *)
Lemma ns_run_app a : forall b st, ns_run (a ++ b) st = obind (ns_run a st) (ns_run b).
Proof.
  induction a as [|o a IH]; intros b st; [reflexivity|]. cbn [app ns_run].
  destruct (ns_step o st); cbn [obind]; [apply IH|reflexivity|reflexivity].
Qed.
Lemma map_op_app (l : list nsop) : forall a b, map op_of l = a ++ b ->
  exists x y, l = x ++ y /\ map op_of x = a /\ map op_of y = b.
Proof.
  induction l as [|o l IH]; intros [|c a] b H; cbn in H.
  - exists [], []. auto.
  - discriminate.
  - exists [], (o :: l). auto.
  - injection H as H1 H2. destruct (IH a b H2) as (x & y & -> & X & Y).
    exists (o :: x), y. cbn. rewrite H1, X. auto.
Qed.
Lemma nested_run ops : nested (map op_of ops) -> forall c st,
  exists c', ns_run ops (c :: st) = Val (c' :: st).
Proof.
  remember (map op_of ops) as l eqn:E. intros N. revert ops E.
  induction N as [|p u r N IH|a r N1 IH1 N2 IH2]; intros ops E c st.
  - destruct ops; [|discriminate]. exists c. reflexivity.
  - destruct ops as [|o ops]; [discriminate|]. injection E as E1 E2.
    destruct o; try discriminate. cbn [ns_run ns_step]. unfold declare_prefix.
    destruct (str_eqb p0 s_xml || str_eqb p0 s_xmlns); cbn [obind snd]; apply IH; exact E2.
  - destruct ops as [|o ops]; [discriminate|]. injection E as E1 E2.
    destruct o; try discriminate.
    symmetry in E2. apply map_op_app in E2. destruct E2 as (x & y & -> & X & Y).
    destruct y as [|o y]; [discriminate|]. injection Y as Y1 Y2. destruct o; try discriminate.
    cbn [ns_run ns_step obind]. unfold push_context. rewrite ns_run_app.
    destruct (IH1 x (eq_sym X) [] (c :: st)) as (c' & ->). cbn [obind ns_run ns_step pop_context].
    apply IH2. symmetry. exact Y2.
Qed.
Lemma leave_restores ops st : nested (map op_of ops) ->
  ns_run (NPush :: ops ++ [NPop]) st = Val st.
Proof.
  intros N. cbn [ns_run ns_step obind]. unfold push_context. rewrite ns_run_app.
  destruct (nested_run ops N [] st) as (c' & ->). reflexivity.
Qed.

(** xml stays bound. *)
Lemma keeps_xml ops : forall st d, keeps_base (map op_of ops) d ->
  length st = S d -> find_uri st s_xml = Some xml_uri ->
  Forall sorted st ->
  (forall c, In c st -> mm_find s_xml c = None \/ mm_find s_xml c = Some xml_uri) ->
  mm_find s_xml (last st []) = Some xml_uri ->
  exists st', ns_run ops st = Val st' /\ find_uri st' s_xml = Some xml_uri.
Proof.
  induction ops as [|o ops IH]; intros st d K L F SS A B; [exists st; auto|].
  destruct o as [| |p u]; cbn [map op_of keeps_base] in K; cbn [ns_run ns_step].
  - cbn [obind push_context]. apply (IH _ (S d)); try assumption.
    + cbn. congruence.
    + constructor; [exact I|exact SS].
    + intros c [<-|H]; [left; reflexivity|apply A; exact H].
    + destruct st; [discriminate|exact B].
  - destruct d as [|d]; [contradiction|]. destruct st as [|c st]; [discriminate|].
    cbn [pop_context obind]. apply (IH _ d); try assumption.
    + cbn in L. congruence.
    + destruct st as [|c2 st]; [cbn in L; discriminate|].
      clear - A B. set (z := c2 :: st) in *.
      assert (G : forall z : contexts, z <> [] ->
                (forall c, In c z -> mm_find s_xml c = None \/ mm_find s_xml c = Some xml_uri) ->
                mm_find s_xml (last z []) = Some xml_uri -> find_uri z s_xml = Some xml_uri).
      { clear. induction z as [|c z IH]; intros N A B; [congruence|]. cbn [find_uri].
        destruct (A c (or_introl eq_refl)) as [Q|Q]; rewrite Q; [|reflexivity].
        destruct z as [|c2 z].
        - cbn [last] in B. congruence.
        - apply IH; [discriminate| |exact B]. intros x Hx. apply A. right. exact Hx. }
      apply G; [discriminate| |exact B]. intros x Hx. apply A. right. exact Hx.
    + inversion SS; assumption.
    + intros x Hx. apply A. right. exact Hx.
    + destruct st; [cbn in L; discriminate|exact B].
  - unfold declare_prefix. destruct (str_eqb p s_xml || str_eqb p s_xmlns) eqn:E.
    + cbn [obind snd]. apply (IH _ d); assumption.
    + destruct st as [|c st]; [discriminate|]. cbn [obind snd].
      apply orb_false_iff in E. destruct E as (E & _).
      inversion SS as [|? ? S1 S2]; subst.
      assert (FI : mm_find s_xml (mm_insert p u c) = mm_find s_xml c).
      { rewrite mm_find_insert by exact S1. rewrite E. reflexivity. }
      apply (IH _ d); try assumption.
      * cbn [find_uri]. rewrite FI. exact F.
      * constructor; [apply mm_insert_sorted; exact S1|exact S2].
      * intros x [<-|Hx]; [rewrite FI; apply A; left; reflexivity|apply A; right; exact Hx].
      * destruct st; [cbn [last] in *; rewrite FI; exact B|exact B].
Qed.
Lemma xml_bound ops : keeps_base (map op_of ops) 0 ->
  exists st, ns_run ops ns_reset = Val st /\ get_uri st s_xml = xml_uri.
Proof.
  intros K. destruct (keeps_xml ops ns_reset 0 K) as (st & E & F).
  - reflexivity.
  - reflexivity.
  - constructor; [|constructor]. cbn. split; [intros ? ? []|exact I].
  - intros c [<-|[]]. right. reflexivity.
  - reflexivity.
  - exists st. split; [exact E|]. unfold get_uri. rewrite F. reflexivity.
Qed.

(** Reverse look-up. *)
Lemma ctx_prefix_in u c p : ctx_prefix u c = Some p -> In (p, u) c.
Proof.
  induction c as [|(p', u') c IH]; cbn [ctx_prefix]; [discriminate|].
  destruct (str_eqb u' u) eqn:E; intros H.
  - injection H as <-. apply str_eqb_true in E. left. congruence.
  - right. apply IH. exact H.
Qed.
Lemma ctx_prefix_none u c p : ctx_prefix u c = None -> ~ In (p, u) c.
Proof.
  induction c as [|(p', u') c IH]; cbn [ctx_prefix]; [tauto|].
  destruct (str_eqb u' u) eqn:E; [discriminate|]. apply str_eqb_false in E.
  intros H [K|K]; [congruence|]. exact (IH H K).
Qed.
Definition all_decls (st : contexts) : list (str * str) := concat st.
Lemma find_prefix_in st u p : find_prefix st u = Some p -> In (p, u) (all_decls st).
Proof.
  induction st as [|c st IH]; cbn [find_prefix]; [discriminate|]. unfold all_decls. cbn [concat].
  destruct (ctx_prefix u c) eqn:E; intros H; apply in_or_app.
  - injection H as <-. left. apply ctx_prefix_in. exact E.
  - right. apply IH. exact H.
Qed.
Lemma find_prefix_none st u p : find_prefix st u = None -> ~ In (p, u) (all_decls st).
Proof.
  induction st as [|c st IH]; cbn [find_prefix]; [intros _ []|]. unfold all_decls. cbn [concat].
  destruct (ctx_prefix u c) eqn:E; [discriminate|]. intros H K. apply in_app_or in K.
  destruct K as [K|K]; [exact (ctx_prefix_none _ _ _ E K)|exact (IH H K)].
Qed.
Lemma find_uri_decls st p : find_uri st p = mm_find p (all_decls st).
Proof.
  induction st as [|c st IH]; [reflexivity|]. unfold all_decls in *. cbn [find_uri concat].
  rewrite IH. generalize (concat st). intros m. induction c as [|(k, v) c IHc]; [reflexivity|].
  cbn [mm_find app]. destruct (str_eqb k p); [reflexivity|exact IHc].
Qed.
Lemma nodup_find {V} (m : list (list Z * V)) p u : NoDup (map fst m) -> In (p, u) m ->
  mm_find p m = Some u.
Proof.
  induction m as [|(k, v) m IH]; intros N H; [destruct H|]. cbn [map fst] in N.
  inversion N as [|? ? N1 N2]; subst. cbn [mm_find]. destruct H as [H|H].
  - injection H as -> ->. rewrite (proj2 (str_eqb_true p p)) by reflexivity. reflexivity.
  - destruct (str_eqb k p) eqn:E; [|apply IH; assumption]. apply str_eqb_true in E. subst k.
    exfalso. apply N1. apply in_map_iff. exists (p, u). auto.
Qed.
Lemma mm_insert_keys {V} k (v : V) m x :
  In x (map fst (mm_insert k v m)) <-> x = k \/ In x (map fst m).
Proof.
  rewrite !in_map_iff. split.
  - intros ((a, b) & <- & H). apply mm_insert_in in H. destruct H as [H|H].
    + injection H as -> ->. left. reflexivity.
    + right. exists (a, b). auto.
  - intros [->|((a, b) & <- & H)].
    + exists (k, v). split; [reflexivity|]. apply mm_insert_in. auto.
    + exists (a, b). split; [reflexivity|]. apply mm_insert_in. auto.
Qed.
Lemma mm_insert_nodup {V} k (v : V) m : ~ In k (map fst m) -> NoDup (map fst m) ->
  NoDup (map fst (mm_insert k v m)).
Proof.
  induction m as [|(k', v') m IH]; intros H N; cbn [mm_insert].
  - constructor; [intros []|constructor].
  - destruct (str_ltb k k'); [constructor; assumption|]. cbn [map fst] in *.
    inversion N as [|? ? N1 N2]; subst. constructor.
    + intros K. apply mm_insert_keys in K. destruct K as [K|K]; [|contradiction].
      apply H. left. exact K.
    + apply IH; [|exact N2]. intros K. apply H. right. exact K.
Qed.
Lemma nodup_app_intro {A} (a b : list A) : NoDup a -> NoDup b ->
  (forall x, In x a -> ~ In x b) -> NoDup (a ++ b).
Proof.
  induction a as [|x a IH]; intros Na Nb D; [exact Nb|]. inversion Na as [|? ? N1 N2]; subst.
  cbn [app]. constructor.
  - intros K. apply in_app_or in K. destruct K as [K|K]; [contradiction|].
    exact (D x (or_introl eq_refl) K).
  - apply IH; [assumption|assumption|]. intros y Hy. apply D. right. exact Hy.
Qed.
Lemma nodup_app_elim {A} (a b : list A) : NoDup (a ++ b) ->
  NoDup a /\ NoDup b /\ (forall x, In x a -> ~ In x b).
Proof.
  induction a as [|x a IH]; intros N; cbn [app] in N.
  - split; [constructor|]. split; [exact N|]. intros x [].
  - inversion N as [|? ? N1 N2]; subst. destruct (IH N2) as (A1 & A2 & A3).
    split; [constructor; [|exact A1]; intros K; apply N1; apply in_or_app; auto|].
    split; [exact A2|]. intros y [<-|Hy]; [|apply A3; exact Hy].
    intros K. apply N1. apply in_or_app. auto.
Qed.
(** Under fresh declarations every prefix is declared once in all. *)
Lemma fresh_run ops : forall st st' open,
  declared_fresh reserved (map op_of ops) open ->
  Forall2 (fun c h => forall p, In p (map fst c) <-> In p h) st open ->
  NoDup (map fst (all_decls st)) -> ns_run ops st = Val st' ->
  NoDup (map fst (all_decls st')).
Proof.
  induction ops as [|o ops IH]; intros st st' open D F N H.
  - injection H as <-. exact N.
  - cbn [map declared_fresh] in D. cbn [ns_run] in H. destruct o as [| |p u]; cbn [op_of] in D.
    + apply (IH (push_context st) st' ([] :: open)); try assumption.
      constructor; [intros p; cbn; tauto|exact F].
    + destruct F as [|c h st open Fc F]; [discriminate|]. cbn [ns_step pop_context obind] in H.
      apply (IH st st' open); try assumption.
      unfold all_decls in *. cbn [concat] in N. rewrite map_app in N.
      apply nodup_app_elim in N. apply N.
    + cbn [ns_step] in H. unfold declare_prefix in H.
      assert (Er : reserved p = str_eqb p s_xml || str_eqb p s_xmlns).
      { unfold reserved. rewrite !name_eqb_str. reflexivity. }
      destruct (str_eqb p s_xml || str_eqb p s_xmlns).
      * cbn [obind snd] in H. rewrite Er in D. destruct open as [|h hs].
        -- apply (IH st st' []); assumption.
        -- apply (IH st st' (h :: hs)); try assumption. apply D.
      * destruct F as [|c h st open Fc F]; [discriminate|]. cbn [obind snd] in H.
        destruct D as ([D|D1] & D2); [congruence|]. rewrite Er in D2.
        apply (IH _ _ _ D2) in H; [exact H| |].
        -- constructor; [|exact F]. intros q. rewrite mm_insert_keys, Fc. cbn [In].
           intuition congruence.
        -- unfold all_decls in *. cbn [concat] in *. rewrite map_app in *.
           apply nodup_app_elim in N. destruct N as (N1 & N2 & N3).
           assert (PC : ~ In p (map fst c)).
           { rewrite Fc. intros K. apply D1. apply in_or_app. auto. }
           assert (PS : ~ In p (map fst (concat st))).
           { intros K. apply D1. apply in_or_app. right. clear - F K.
             induction F as [|c h st open Fc F IH]; [destruct K|]. cbn [concat] in *.
             rewrite map_app in K. apply in_app_or in K. apply in_or_app.
             destruct K as [K|K]; [left; apply Fc; exact K|right; apply IH; exact K]. }
           apply nodup_app_intro; [apply mm_insert_nodup; assumption|exact N2|].
           intros x Hx. apply mm_insert_keys in Hx. destruct Hx as [->|Hx]; [exact PS|].
           apply N3. exact Hx.
Qed.
Lemma prefix_usable ops st u : declared_fresh reserved (map op_of ops) [[s_xml]] ->
  ns_run ops ns_reset = Val st ->
  (exists p, find_uri st p = Some u) -> get_uri st (get_prefix st u) = u.
Proof.
  intros D H (p & E).
  assert (N : NoDup (map fst (all_decls st))).
  { apply (fresh_run ops ns_reset st [[s_xml]]); try assumption.
    - constructor; [|constructor]. intros q. reflexivity.
    - cbn. constructor; [intros []|constructor]. }
  rewrite find_uri_decls in E. apply mm_find_in in E.
  unfold get_prefix. destruct (find_prefix st u) as [q|] eqn:F.
  - apply find_prefix_in in F. unfold get_uri. rewrite find_uri_decls.
    rewrite (nodup_find _ q u N F). reflexivity.
  - exfalso. exact (find_prefix_none st u p F E).
Qed.
Lemma prefixes_iff st p : In p (get_prefixes st) <-> p <> [] /\ find_uri st p <> None.
Proof.
  rewrite find_uri_decls. unfold get_prefixes, all_decls.
  assert (E : In p (flat_map (fun c : context => filter (fun p0 => negb (str_eqb p0 [])) (map fst c)) st)
              <-> p <> [] /\ In p (map fst (concat st))).
  { induction st as [|c st IH]; [cbn; tauto|]. cbn [flat_map concat].
    rewrite in_app_iff, IH, map_app, in_app_iff, filter_In, negb_true_iff, str_eqb_false. tauto. }
  rewrite E. split; intros (A & B); (split; [exact A|]).
  - intros K. apply mm_find_none_in in K. contradiction.
  - destruct (in_dec (list_eq_dec Z.eq_dec) p (map fst (concat st))) as [I|I]; [exact I|].
    exfalso. apply B. apply mm_find_none_in. exact I.
Qed.

(** The tracker. *)
Definition ev_of (e : trackev) : elem_ev :=
  match e with TMapping p u => Announce p u | TStart => Open | TEnd => Close end.
Lemma declare_all_spec l : forall c st, sorted c ->
  exists c', declare_all l (c :: st) = Val (c' :: st) /\ sorted c' /\
    forall q, mm_find q c' =
      match mm_find q c with
      | Some w => Some w
      | None => if reserved q then None else mm_find q l
      end.
Proof.
  induction l as [|(p, u) l IH]; intros c st S.
  - exists c. split; [reflexivity|]. split; [exact S|]. intros q. cbn.
    destruct (mm_find q c), (reserved q); reflexivity.
  - cbn [declare_all]. unfold declare_prefix.
    assert (Er : reserved p = str_eqb p s_xml || str_eqb p s_xmlns).
    { unfold reserved. rewrite !name_eqb_str. reflexivity. }
    rewrite <- Er. destruct (reserved p) eqn:R; cbn [obind snd].
    + destruct (IH c st S) as (c' & E & S' & F). exists c'. split; [exact E|]. split; [exact S'|].
      intros q. rewrite F. destruct (mm_find q c); [reflexivity|]. cbn [mm_find].
      destruct (reserved q) eqn:Rq; [reflexivity|].
      destruct (str_eqb p q) eqn:EQ; [|reflexivity]. apply str_eqb_true in EQ. congruence.
    + destruct (IH (mm_insert p u c) st (mm_insert_sorted p u c S)) as (c' & E & S' & F).
      exists c'. split; [exact E|]. split; [exact S'|]. intros q. rewrite F.
      rewrite mm_find_insert by exact S. cbn [mm_find].
      destruct (str_eqb p q) eqn:EQ; [|reflexivity]. apply str_eqb_true in EQ. subst q.
      destruct (mm_find p c); [reflexivity|]. rewrite R. reflexivity.
Qed.
Lemma announce_last pend : forall e q,
  announce reserved pend e q =
  if reserved q then e q
  else match mm_find q (rev pend) with Some u => Some u | None => e q end.
Proof.
  induction pend as [|(p, u) r IH]; intros e q; cbn [announce rev].
  - cbn. destruct (reserved q); reflexivity.
  - rewrite IH.
    assert (FA : mm_find q (rev r ++ [(p, u)]) =
                 match mm_find q (rev r) with Some w => Some w | None =>
                   if str_eqb p q then Some u else None end).
    { generalize (rev r). intros m. induction m as [|(k, v) m IHm]; [reflexivity|].
      cbn [app mm_find]. destruct (str_eqb k q); [reflexivity|exact IHm]. }
    rewrite FA. destruct (reserved p) eqn:Rp.
    + destruct (reserved q) eqn:Rq; [reflexivity|].
      destruct (mm_find q (rev r)); [reflexivity|].
      destruct (str_eqb p q) eqn:EQ; [|reflexivity]. apply str_eqb_true in EQ. congruence.
    + unfold bind. rewrite name_eqb_str. destruct (reserved q) eqn:Rq.
      * destruct (str_eqb p q) eqn:EQ; [|reflexivity]. apply str_eqb_true in EQ. congruence.
      * destruct (mm_find q (rev r)); [reflexivity|]. destruct (str_eqb p q); reflexivity.
Qed.
Fixpoint trel (st : contexts) (s : list env) : Prop :=
  match st, s with
  | [], [] => True
  | c :: st', e :: s' => (forall p, e p = find_uri st p) /\ trel st' s'
  | _, _ => False
  end.
Lemma trel_hd st s : trel st s -> forall p, hd no_env s p = find_uri st p.
Proof. destruct st, s; cbn [trel]; tauto. Qed.
Lemma track_run_spec evs : forall t pend s,
  trel (t_ns t) s -> (forall q, mm_find q (t_buf t) = mm_find q (rev pend)) ->
  match track_run evs t with
  | Val t' => exists pend' s', elem_run reserved (map ev_of evs) pend s = Some (pend', s')
                               /\ trel (t_ns t') s'
  | UB => elem_run reserved (map ev_of evs) pend s = None
  | NoFuel => False
  end.
Proof.
  induction evs as [|e evs IH]; intros t pend s R B.
  - exists pend, s. auto.
  - destruct e as [p u| |]; cbn [track_run track map ev_of elem_run obind].
    + apply IH; [exact R|]. intros q. cbn [t_buf]. rewrite map_find_set, B, rev_app_distr.
      cbn [rev app mm_find]. reflexivity.
    + destruct (declare_all_spec (t_buf t) [] (t_ns t) I) as (c' & E & _ & F).
      unfold push_context. rewrite E. cbn [obind]. apply IH; cbn [t_ns t_buf].
      * split; [|exact R]. intros q. rewrite announce_last. cbn [find_uri]. rewrite F. cbn [mm_find].
        rewrite (trel_hd _ _ R), B. destruct (reserved q); reflexivity.
      * reflexivity.
    + destruct t as [ns buf]. cbn [t_ns t_buf] in *.
      destruct ns as [|c st], s as [|e s]; cbn [trel] in R; try tauto.
      { reflexivity. }
      cbn [pop_context obind]. apply IH; [apply R|exact B].
Qed.
Lemma tracker_scoped evs t : track_run evs tracker0 = Val t ->
  exists pend s, elem_run reserved (map ev_of evs) [] [base_env] = Some (pend, s)
    /\ forall p, find_uri (t_ns t) p = hd no_env s p.
Proof.
  intros H. pose proof (track_run_spec evs tracker0 [] [base_env]) as T. rewrite H in T.
  destruct T as (pend & s & E & R).
  - split; [|exact I]. apply (rel_current _ _ rel_base).
  - reflexivity.
  - exists pend, s. split; [exact E|]. intros p. symmetry. apply trel_hd. exact R.
Qed.

Lemma collect_spec st ps : forall m,
  (forall q u, mm_find q m = Some u -> u = get_uri st q) ->
  forall q, mm_find q (collect st ps m) =
    match mm_find q m with
    | Some u => Some u
    | None => if existsb (str_eqb q) ps then Some (get_uri st q) else None
    end.
Proof.
  induction ps as [|p ps IH]; intros m M q; cbn [collect existsb].
  - destruct (mm_find q m); reflexivity.
  - destruct (mm_find p m) eqn:E.
    + rewrite IH by exact M. destruct (mm_find q m) eqn:E2; [reflexivity|].
      destruct (str_eqb q p) eqn:EQ; [|reflexivity]. apply str_eqb_true in EQ. congruence.
    + rewrite IH.
      * rewrite map_find_set, (str_eqb_sym q p). destruct (str_eqb p q) eqn:EQ.
        -- apply str_eqb_true in EQ. subst q. rewrite E. reflexivity.
        -- destruct (mm_find q m); reflexivity.
      * intros x u. rewrite map_find_set. destruct (str_eqb p x) eqn:EQ; [|apply M].
        apply str_eqb_true in EQ. subst x. congruence.
Qed.
Lemma in_scope_spec t q : mm_find q (in_scope_namespaces t) =
  match q with
  | [] => Some (get_uri (t_ns t) [])
  | _ => find_uri (t_ns t) q
  end.
Proof.
  unfold in_scope_namespaces. rewrite map_find_set. destruct q as [|c q]; [reflexivity|].
  cbn [str_eqb]. rewrite collect_spec by discriminate. cbn [mm_find].
  destruct (existsb (str_eqb (c :: q)) (get_prefixes (t_ns t))) eqn:E.
  - apply existsb_exists in E. destruct E as (x & I & EQ). apply str_eqb_true in EQ. subst x.
    apply prefixes_iff in I. destruct I as (_ & I). unfold get_uri.
    destruct (find_uri (t_ns t) (c :: q)); [reflexivity|congruence].
  - destruct (find_uri (t_ns t) (c :: q)) eqn:F; [|reflexivity]. exfalso.
    assert (In (c :: q) (get_prefixes (t_ns t))) as I.
    { apply prefixes_iff. split; [discriminate|congruence]. }
    assert (existsb (str_eqb (c :: q)) (get_prefixes (t_ns t)) = true).
    { apply existsb_exists. exists (c :: q). split; [exact I|]. apply str_eqb_true. reflexivity. }
    congruence.
Qed.
