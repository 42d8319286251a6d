(** The parser keeps a stack of open elements, whose events nest. *)
From Coq Require Import String.
From Verif.Model Require Import Base Chars Text Attrs XSort HtmlSchema Taggle.
From Verif.Spec Require Import TaggleSpec.
From Verif.Proof Require Import ContainersProof TextProof AttrsProof TaggleProof.
From Coq Require Import List Lia Permutation.
Import ListNotations.
Open Scope Z_scope.

(** * The schema *)
Definition root_type : etype := EType root_name M_ROOT M_EMPTY 0 [] None.
Definition root_elem : elem := Elem root_type [] false.
Inductive reach (sch : list etype) : nat -> etype -> Prop :=
  | reach_here n t : type_contains root_type t = true -> reach sch n t
  | reach_up n t p t' : et_parent t = Some p -> get_type sch p = Some t' -> reach sch n t' -> reach sch (S n) t.
Lemma get_type_app : forall sch x p t, get_type sch p = Some t -> get_type (sch ++ x) p = Some t.
Proof.
  intros sch x p t. unfold get_type. induction sch as [|a sch IH]; cbn; [discriminate|].
  destruct (str_eqb (lower_case (et_name a)) (lower_case p)); auto.
Qed.
Lemma reach_app : forall sch x n t, reach sch n t -> reach (sch ++ x) n t.
Proof. intros sch x n t H. induction H; [apply reach_here; assumption|]. eapply reach_up; eauto. apply get_type_app. assumption. Qed.
Lemma get_type_in : forall sch p t, get_type sch p = Some t -> In t sch /\ lower_case (et_name t) = lower_case p.
Proof. intros sch p t H. unfold get_type in H. apply find_some in H as [I E]. apply str_eqb_true in E. auto. Qed.

Definition type_fine (t : etype) : Prop := (exists p l, parts (et_name t) p l) /\ atts_fine (et_atts t).
Definition is_pcdata (t : etype) : Prop := et_name t = pcdata_name /\ type_contains root_type t = false /\ et_atts t = [].
Definition type_ok (sch : list etype) (t : etype) : Prop :=
  (reach sch 10 t /\ (type_fine t \/ is_pcdata t)) \/ (et_name t = root_name /\ et_parent t = None /\ type_contains root_type t = false).
Definition schema_ok (sch : list etype) : Prop :=
  (10 <= length sch)%nat /\ Forall (type_ok sch) sch /\
  (exists t, get_type sch pcdata_name = Some t /\ et_name t = pcdata_name) /\
  (exists t, get_type sch (ascii_str "html") = Some t /\ type_contains root_type t = true).

(** The schema of HTML, checked. *)
Fixpoint reachb (sch : list etype) (n : nat) (t : etype) : bool :=
  type_contains root_type t ||
  match n with
  | O => false
  | S m => match et_parent t with Some p => match get_type sch p with Some t' => reachb sch m t' | None => false end | None => false end
  end.
Lemma reachb_spec : forall sch n t, reachb sch n t = true -> reach sch n t.
Proof.
  intros sch n. induction n as [|n IH]; intros t H; cbn [reachb] in H; apply orb_prop in H as [H|H]; try (apply reach_here; exact H); [discriminate|].
  destruct (et_parent t) as [p|] eqn:P; [|discriminate]. destruct (get_type sch p) as [t'|] eqn:G; [|discriminate]. eapply reach_up; eauto.
Qed.
Definition name_charb (c : Z) : bool := name_startb c || ((48 <=? c) && (c <=? 57)) || (c =? 45) || (c =? 46).
Definition ncnameb (s : str) : bool := match s with c :: r => name_startb c && forallb name_charb r | [] => false end.
Lemma name_charb_spec : forall c, name_charb c = true -> name_char c.
Proof.
  unfold name_charb, name_char. intros c H. apply orb_prop in H as [H|H]; [apply orb_prop in H as [H|H]; [apply orb_prop in H as [H|H]|]|].
  - left. apply name_startb_spec. exact H.
  - apply andb_prop in H as [A B]. apply Z.leb_le in A, B. lia.
  - apply Z.eqb_eq in H. lia.
  - apply Z.eqb_eq in H. lia.
Qed.
Lemma ncnameb_spec : forall s, ncnameb s = true -> ncname s.
Proof.
  intros [|c r] H; cbn in *; [discriminate|]. apply andb_prop in H as [A B]. split; [apply name_startb_spec; exact A|].
  rewrite forallb_forall in B. apply Forall_forall. intros x I. apply name_charb_spec. auto.
Qed.
Definition attb (a : attr) : bool :=
  ncnameb (a_qname a) && str_eqb (a_local a) (a_qname a) && nothing (a_uri a) && negb (str_eqb (a_qname a) (ascii_str "xmlns")).
Fixpoint distinctb (l : list str) : bool := match l with [] => true | x :: r => negb (existsb (str_eqb x) r) && distinctb r end.
Lemma distinctb_spec : forall l, distinctb l = true -> NoDup l.
Proof.
  induction l as [|x l IH]; cbn; intro H; [constructor|]. apply andb_prop in H as [A B]. constructor; [|apply IH; exact B].
  intro I. apply negb_true_iff in A. rewrite <- not_true_iff_false in A. apply A. apply existsb_exists. exists x. split; [exact I|]. apply str_eqb_true. reflexivity.
Qed.
Definition type_okb (sch : list etype) (t : etype) : bool :=
  (reachb sch 10 t && ((ncnameb (et_name t) && forallb attb (et_atts t) && distinctb (map a_qname (et_atts t))) ||
                       (str_eqb (et_name t) pcdata_name && negb (type_contains root_type t) && match et_atts t with [] => true | _ => false end))) ||
  (str_eqb (et_name t) root_name && match et_parent t with None => true | _ => false end && negb (type_contains root_type t)).
Lemma attb_spec : forall a, attb a = true -> attribute_names a.
Proof.
  intros a H. unfold attb in H. apply andb_prop in H as [H X]. apply andb_prop in H as [H U]. apply andb_prop in H as [Q L].
  apply str_eqb_true in L. exists None, (a_qname a). split; [constructor; apply ncnameb_spec; exact Q|]. split; [exact L|].
  split; [destruct (a_uri a); [reflexivity|discriminate]|]. split; [|discriminate]. intro E. rewrite E in X. discriminate.
Qed.
Lemma type_okb_spec : forall sch t, type_okb sch t = true -> type_ok sch t.
Proof.
  intros sch t H. unfold type_okb in H. apply orb_prop in H as [H|H].
  - apply andb_prop in H as [R H]. left. split; [apply reachb_spec; exact R|]. apply orb_prop in H as [H|H].
    + apply andb_prop in H as [H D]. apply andb_prop in H as [N A]. left. split.
      * exists None, (et_name t). constructor. apply ncnameb_spec. exact N.
      * split; [|apply distinctb_spec; exact D]. rewrite forallb_forall in A. apply Forall_forall. intros a I. apply attb_spec. auto.
    + apply andb_prop in H as [H E]. apply andb_prop in H as [N C]. right. apply str_eqb_true in N. apply negb_true_iff in C. repeat split; auto. destruct (et_atts t); [reflexivity|discriminate].
  - apply andb_prop in H as [H C]. apply andb_prop in H as [N P]. right. apply str_eqb_true in N. apply negb_true_iff in C. repeat split; auto.
    destruct (et_parent t); [discriminate|reflexivity].
Qed.
Definition schema_okb (sch : list etype) : bool :=
  Nat.leb 10 (length sch) && forallb (type_okb sch) sch &&
  match get_type sch pcdata_name with Some t => str_eqb (et_name t) pcdata_name | None => false end &&
  match get_type sch (ascii_str "html") with Some t => type_contains root_type t | None => false end.
Lemma schema_okb_spec : forall sch, schema_okb sch = true -> schema_ok sch.
Proof.
  intros sch H. unfold schema_okb in H. apply andb_prop in H as [H D]. apply andb_prop in H as [H C]. apply andb_prop in H as [A B].
  split; [apply Nat.leb_le; exact A|]. split.
  { rewrite forallb_forall in B. apply Forall_forall. intros t I. apply type_okb_spec. auto. }
  split.
  - destruct (get_type sch pcdata_name) as [t|]; [|discriminate]. exists t. split; [reflexivity|]. apply str_eqb_true. exact C.
  - destruct (get_type sch (ascii_str "html")) as [t|]; [|discriminate]. exists t. auto.
Qed.
Lemma html_schema_ok : schema_ok html_schema.
Proof. apply schema_okb_spec. vm_compute. reflexivity. Qed.
Lemma the_root : forall F, the_elem F html_schema root_name = Some root_elem.
Proof. intros F. unfold the_elem. assert (E : get_type html_schema root_name = Some root_type) by (vm_compute; reflexivity). rewrite E. cbn. unfold new_elem. destruct (fe_default_attributes F); reflexivity. Qed.

(** * Open elements *)
Lemma content_app : forall b c d, content b c -> content b d -> content b (c ++ d).
Proof.
  intros b c d C D. induction C; cbn [app]; try (constructor; assumption); [exact D|].
  rewrite <- app_assoc. constructor; assumption.
Qed.
Lemma prolog_app : forall b c d, prolog b c -> prolog b d -> prolog b (c ++ d).
Proof. intros b c d C D. induction C; cbn [app]; try (constructor; assumption). exact D. Qed.
Definition header : list hevent := [HStartDocument; HLocator; HStartMapping schema_prefix schema_uri].
Inductive opened (F : features) : list elem -> list hevent -> Prop :=
  | opened_root l : prolog (fe_ignorable F) l -> opened F [root_elem] (header ++ l)
  | opened_elem e s l c : fine e -> opened F s l -> content true c -> opened F (e :: s) (l ++ open_events F e ++ c).
Lemma opened_nonempty : forall F s l, opened F s l -> s <> [].
Proof. intros F s l H. destruct H; discriminate. Qed.
Lemma opened_push : forall F s l e, opened F s l -> fine e -> opened F (e :: s) (l ++ open_events F e).
Proof. intros F s l e H E. rewrite <- (app_nil_r (open_events F e)). constructor; [exact E|exact H|constructor]. Qed.
Lemma opened_content : forall F e s l c, opened F (e :: s) l -> s <> [] -> content true c -> opened F (e :: s) (l ++ c).
Proof.
  intros F e s l c H N C. inversion H as [l' P|e' s' l' c' E O C']; subst; [contradiction|].
  rewrite <- !app_assoc. constructor; [exact E|exact O|]. apply content_app; assumption.
Qed.
Lemma opened_misc : forall F s l c, opened F s l -> content true c -> prolog (fe_ignorable F) c -> opened F s (l ++ c).
Proof.
  intros F s l c H C P. inversion H as [l' P'|e' s' l' c' E O C']; subst.
  - rewrite <- app_assoc. constructor. apply prolog_app; assumption.
  - rewrite <- !app_assoc. constructor; [exact E|exact O|]. apply content_app; assumption.
Qed.
Lemma element_of : forall F e c, fine e -> content true c -> element true (open_events F e ++ c ++ close_events F e).
Proof.
  intros F e c E C. unfold open_events, close_events, start_of, end_of. rewrite <- app_assoc. cbn [app].
  apply an_element; [apply declares_of; exact E|exact C|]. apply ends_mappings.
Qed.
Lemma opened_pop : forall F e d s l, opened F (e :: d :: s) l -> s <> [] -> opened F (d :: s) (l ++ close_events F e).
Proof.
  intros F e d s l H N. inversion H as [l' P|e' s' l' c' E O C']; subst.
  rewrite <- !app_assoc. apply opened_content; [exact O|exact N|].
  rewrite <- (app_nil_r (open_events F e ++ c' ++ close_events F e)). constructor; [apply element_of; assumption|constructor].
Qed.
Lemma opened_preclose : forall F s l n, opened F s l -> (n + 1 < length s)%nat -> opened F (preclose_at n s) l.
Proof.
  intros F s l n H. revert n. induction H as [l P|e s l c E O IH C]; intros n L.
  - cbn in L. lia.
  - destruct n as [|n]; cbn [preclose_at].
    + change (open_events F e) with (open_events F (preclose e)). constructor; [exact E|exact O|exact C].
    + constructor; [exact E|apply IH; cbn in L; lia|exact C].
Qed.

(** * The invariant *)
Record core (F : features) (g : taggle) : Prop := {
  c_stack : exists s, tg_stack g = s ++ [root_elem] /\ Forall fine s /\ (s = [] -> tg_saved g = []) /\
              (tg_virgin g = true <-> s = []) /\ (forall s' d, s = s' ++ [d] -> el_preclosed d = false);
  c_saved : Forall fine (tg_saved g);
  c_open : opened F (tg_stack g) (tg_out g);
  c_names : Forall (start_names (fe_namespaces F)) (tg_out g) }.
Definition frame (g g' : taggle) : Prop := tg_schema g' = tg_schema g /\ tg_new g' = tg_new g /\ tg_attname g' = tg_attname g.
Lemma frame_refl : forall g, frame g g.
Proof. intro g. repeat split. Qed.
Lemma frame_trans : forall a b c, frame a b -> frame b c -> frame a c.
Proof. unfold frame. intros a b c (A & B & C) (D & E & G). repeat split; congruence. Qed.
Definition deep (g : taggle) : Prop := (2 <= length (tg_stack g))%nat.
Lemma deep_virgin : forall F g, core F g -> (deep g <-> tg_virgin g = false).
Proof.
  intros F g C. destruct (c_stack F g C) as (s & E & _ & _ & V & _). unfold deep. rewrite E, app_length. cbn [length].
  destruct s as [|a s]; cbn [length].
  - split; [lia|]. intro H. rewrite (proj2 V eq_refl) in H. discriminate.
  - split; [|lia]. intros _. destruct (tg_virgin g); [|reflexivity]. discriminate (proj1 V eq_refl).
Qed.
Lemma mapping_names : forall b l, Forall (start_names b) (map (fun m => HStartMapping (fst m) (snd m)) l).
Proof. intros b l. apply Forall_map. apply Forall_forall. intros. exact Logic.I. Qed.
Lemma push_fields : forall F e g, tg_stack (push F e g) = clean e :: tg_stack g /\ tg_saved (push F e g) = tg_saved g /\ tg_virgin (push F e g) = false /\ frame g (push F e g).
Proof. intros F e g. unfold push. match goal with |- context [if ?c then _ else _] => destruct c end; repeat split. Qed.
Lemma push_core : forall F e g, core F g -> fine e -> el_preclosed e = false \/ deep g ->
  core F (push F e g) /\ frame g (push F e g) /\ deep (push F e g).
Proof.
  intros F e g C E PC. destruct (push_fields F e g) as (S & SV & V & FR). pose proof C as [(s & ES & FS & SS & VV & DD) CS CO CN].
  split; [|split; [exact FR|]].
  - constructor.
    + exists (clean e :: s). rewrite S, ES, V. split; [reflexivity|]. split; [constructor; [apply fine_clean; exact E|exact FS]|].
      split; [discriminate|]. split; [split; discriminate|]. intros s' d EQ. destruct s' as [|x s'].
      * cbn in EQ. injection EQ as <- ->. destruct PC as [PC|D]; [exact PC|]. unfold deep in D. rewrite ES in D. cbn in D. lia.
      * cbn in EQ. injection EQ as _ EQ. eapply DD. exact EQ.
    + rewrite SV. exact CS.
    + rewrite S, push_out. apply opened_push; [exact CO|]. apply fine_clean. exact E.
    + rewrite push_out. apply Forall_app. split; [exact CN|]. unfold open_events. apply Forall_app. split; [apply mapping_names|].
      constructor; [|constructor]. apply start_names_of. apply fine_clean. exact E.
  - unfold deep. rewrite S, ES. cbn. rewrite app_length. cbn. lia.
Qed.
Lemma pop_core : forall F g, core F g -> (3 <= length (tg_stack g))%nat ->
  core F (pop F g) /\ frame g (pop F g) /\ tg_stack (pop F g) = tl (tg_stack g) /\ tg_saved (pop F g) = tg_saved g.
Proof.
  intros F g C L. pose proof C as [(s & ES & FS & SS & VV & DD) CS CO CN].
  destruct s as [|e [|d s]]; [rewrite ES in L; cbn in L; lia|rewrite ES in L; cbn in L; lia|].
  assert (O : tg_out (pop F g) = tg_out g ++ close_events F e) by (eapply pop_out; exact ES).
  assert (T : tg_stack (pop F g) = d :: s ++ [root_elem] /\ tg_saved (pop F g) = tg_saved g /\ tg_virgin (pop F g) = tg_virgin g /\ frame g (pop F g)).
  { unfold pop. rewrite ES. cbn. repeat split. }
  destruct T as (T & SV & V & FR). split; [|split; [exact FR|split; [rewrite T, ES; reflexivity|exact SV]]].
  constructor.
  - exists (d :: s). rewrite T, SV, V. split; [reflexivity|]. split; [inversion FS; assumption|]. split; [discriminate|].
    split; [split; [intro H; apply VV in H; discriminate|discriminate]|]. intros s' d' EQ. apply (DD (e :: s') d'). rewrite EQ. reflexivity.
  - rewrite SV. exact CS.
  - rewrite T, O. cbn in ES. rewrite ES in CO. apply opened_pop in CO; [exact CO|]. destruct s; discriminate.
  - rewrite O. apply Forall_app. split; [exact CN|]. unfold close_events. constructor; [exact Logic.I|]. apply Forall_map. apply Forall_forall. intros. exact Logic.I.
Qed.
Lemma set_saved_core : forall F l g, core F g -> Forall fine l -> deep g -> core F (set_saved l g).
Proof.
  intros F l g [(s & ES & FS & SS & VV & DD) CS CO CN] FL D. constructor; cbn; auto.
  exists s. repeat split; try tauto; auto. intros ->. unfold deep in D. rewrite ES in D. cbn in D. lia.
Qed.
Lemma restartably_pop_core : forall F g, core F g -> (3 <= length (tg_stack g))%nat ->
  core F (restartably_pop F g) /\ frame g (restartably_pop F g) /\ tg_stack (restartably_pop F g) = tl (tg_stack g).
Proof.
  intros F g C L. destruct (pop_core F g C L) as (C' & FR & T & SV). unfold restartably_pop.
  pose proof C as [(s & ES & FS & SS & VV & DD) CS CO CN]. destruct s as [|e s]; [rewrite ES in L; cbn in L; lia|]. cbn in ES. rewrite ES.
  destruct (fe_restart F && has_flag e F_RESTART); [|rewrite T, ES; auto].
  split; [|split; [exact FR|cbn; rewrite T, ES; reflexivity]].
  apply set_saved_core; [exact C'| |].
  - rewrite SV. constructor; [|exact CS]. apply fine_anonymize. inversion FS; assumption.
  - unfold deep. rewrite T, ES. rewrite ES in L. cbn in *. lia.
Qed.
Lemma restart_with_core : forall F x l g, core F g -> deep g -> Forall fine l ->
  core F (restart_with F x l g) /\ frame g (restart_with F x l g) /\ deep (restart_with F x l g).
Proof.
  intros F x l. induction l as [|e l IH]; intros g C D FL; cbn [restart_with].
  - split; [apply set_saved_core; auto|]. split; [repeat split|exact D].
  - destruct (top_contains g e && match x with None => true | Some y => can_contain e y end).
    + inversion FL; subst. destruct (push_core F e g C) as (C' & FR & D'); auto. destruct (IH (push F e g)) as (A & B & E); auto.
      split; [exact A|]. split; [eapply frame_trans; eauto|exact E].
    + split; [apply set_saved_core; auto|]. split; [repeat split|exact D].
Qed.
Lemma restart_core : forall F x g, core F g -> deep g -> core F (restart F x g) /\ frame g (restart F x g) /\ deep (restart F x g).
Proof. intros F x g C D. apply restart_with_core; auto. apply c_saved with F. exact C. Qed.
Lemma pop_until_core : forall F n g, core F g -> core F (pop_until F n g) /\ frame g (pop_until F n g) /\ (deep g -> deep (pop_until F n g)) /\
  (~ deep g -> pop_until F n g = g).
Proof.
  intros F n. induction n as [|n IH]; intros g C; cbn [pop_until]; [auto using frame_refl|].
  destruct (tg_stack g) as [|a [|b [|c s]]] eqn:ES; try (auto using frame_refl).
  assert (L : (3 <= length (tg_stack g))%nat) by (rewrite ES; cbn; lia).
  destruct (restartably_pop_core F g C L) as (C' & FR & T). destruct (IH _ C') as (A & B & D & _).
  split; [exact A|]. split; [eapply frame_trans; eauto|]. split.
  - intros _. apply D. unfold deep. rewrite T, ES. cbn. lia.
  - intros ND. exfalso. apply ND. unfold deep. rewrite ES. cbn. lia.
Qed.
Definition chain_ok (e : elem) : Prop := el_preclosed e = false /\ (fine e \/ el_name e = pcdata_name).
Lemma fine_not_pcdata : forall e, fine e -> str_eqb (el_name e) pcdata_name = false.
Proof.
  intros e ((p & l & P) & _). destruct (parts_find _ _ _ P) as (_ & _ & _ & _ & _ & N60 & _). apply str_eqb_false. intro E. rewrite E in N60.
  inversion N60 as [|x y A B]; subst. apply A. reflexivity.
Qed.
Lemma push_chain_core : forall F chain g, core F g -> Forall chain_ok chain -> deep g \/ (exists e r, chain = e :: r /\ fine e) ->
  core F (push_chain F chain g) /\ frame g (push_chain F chain g) /\ deep (push_chain F chain g).
Proof.
  intros F chain. induction chain as [|e r IH]; intros g C CH D; cbn [push_chain].
  - destruct D as [D|(e & r & E & _)]; [auto using frame_refl|discriminate].
  - inversion CH as [|x y [PC OK] CH']; subst.
    assert (X : let g' := if str_eqb (el_name e) pcdata_name then g else push F e g in core F g' /\ frame g g' /\ deep g').
    { cbn zeta. destruct (str_eqb (el_name e) pcdata_name) eqn:N.
      - destruct D as [D|(e' & r' & E & FI)]; [auto using frame_refl|]. injection E as <- <-. rewrite (fine_not_pcdata e FI) in N. discriminate.
      - destruct OK as [FI|N']; [|rewrite N' in N; rewrite (proj2 (str_eqb_true _ _) eq_refl) in N; discriminate].
        apply push_core; auto. }
    cbn zeta in X. destruct X as (C1 & F1 & D1). destruct (restart_core F (hd_error r) _ C1 D1) as (C2 & F2 & D2).
    destruct (IH _ C2 CH' (or_introl D2)) as (C3 & F3 & D3).
    split; [exact C3|]. split; [|exact D3]. eapply frame_trans; [|exact F3]. eapply frame_trans; [exact F1|exact F2].
Qed.

(** * Rectify *)
Definition climbs (sch : list etype) (e : elem) : Prop :=
  reach sch 10 (el_type e) /\ el_preclosed e = false /\ (fine e \/ (el_name e = pcdata_name /\ type_contains root_type (el_type e) = false)).
Lemma find_place_root : forall e s, can_contain root_elem e = true -> find_place e (s ++ [root_elem]) <> None.
Proof.
  intros e s H. induction s as [|x s IH]; cbn [app find_place].
  - rewrite H. discriminate.
  - destruct (can_contain x e); [discriminate|]. destruct (find_place e (s ++ [root_elem])); [discriminate|contradiction].
Qed.
Lemma new_elem_fine : forall d t, type_fine t -> fine (new_elem d t).
Proof. intros d t [A B]. split; [exact A|]. cbn. destruct d; [exact B|]. split; constructor. Qed.
Lemma raise_ok : forall F sch s, Forall (type_ok sch) sch -> forall n fuel e chain,
  reach sch n (el_type e) -> (n <= fuel)%nat -> el_preclosed e = false ->
  (fine e \/ (el_name e = pcdata_name /\ type_contains root_type (el_type e) = false)) -> Forall chain_ok chain ->
  exists e0 r k, raise fuel F sch (s ++ [root_elem]) chain e = Val (e0 :: r, k) /\ Forall chain_ok (e0 :: r) /\ (s = [] -> fine e0).
Proof.
  intros F sch s OK. induction n as [|n IH]; intros fuel e chain R LE PC FI CH.
  - inversion R as [n t T E1 E2|]; subst.
    assert (FP : find_place e (s ++ [root_elem]) <> None) by (apply find_place_root; exact T).
    destruct fuel; cbn [raise]; destruct (find_place e (s ++ [root_elem])) as [k|] eqn:P; try contradiction;
      (exists e, chain, k; split; [reflexivity|]; split; [constructor; [split; [exact PC|tauto]|exact CH]|]; intros _; destruct FI as [FI|[_ X]]; [exact FI|congruence]).
  - destruct (find_place e (s ++ [root_elem])) as [k|] eqn:P.
    + exists e, chain, k. split; [destruct fuel; cbn [raise]; rewrite P; reflexivity|]. split; [constructor; [split; [exact PC|tauto]|exact CH]|].
      intros ->. cbn in P. unfold can_contain in P. cbn [el_type root_elem] in P. destruct (type_contains root_type (el_type e)) eqn:X; [|discriminate].
      destruct FI as [FI|[_ X']]; [exact FI|congruence].
    + destruct fuel as [|fuel]; [lia|]. cbn [raise]. rewrite P. inversion R as [n' t T E1 E2|n' t p t' EP G R' E1 E2]; subst.
      { exfalso. exact (find_place_root e s T P). }
      rewrite EP, G. apply IH; [exact R'|lia|reflexivity| |constructor; [split; [exact PC|tauto]|exact CH]].
      destruct (get_type_in _ _ _ G) as [I _]. rewrite Forall_forall in OK. destruct (OK t' I) as [[_ [TF|(N & X & _)]]|(N & NP & X)].
      * left. apply new_elem_fine. exact TF.
      * right. split; [exact N|exact X].
      * exfalso. inversion R'; congruence.
Qed.
Record good (F : features) (g : taggle) : Prop := {
  g_core : core F g;
  g_schema : schema_ok (tg_schema g);
  g_new : forall e, tg_new g = Some e -> climbs (tg_schema g) e /\ fine e;
  g_att : tg_attname g = [] \/ exists p l, parts (tg_attname g) p l }.
Lemma core_set_new : forall F x g, core F g -> core F (set_new x g).
Proof. intros F x g [A B C D]. constructor; cbn; auto. Qed.
Lemma good_frame : forall F g g', good F g -> core F g' -> frame g g' -> good F g'.
Proof. intros F g g' [A B C D] C' (E1 & E2 & E3). constructor; rewrite ?E1, ?E2, ?E3; auto. Qed.
Lemma rectify_good : forall F e g, good F g -> climbs (tg_schema g) e -> exists g', rectify F e g = Val g' /\ good F g' /\ deep g' /\ tg_new g' = None.
Proof.
  intros F e g G (R & PC & FI). pose proof G as [C (LEN & OK & _) _ AT]. pose proof C as [(s & ES & _) _ _ _].
  unfold rectify. rewrite ES. destruct (raise_ok F (tg_schema g) s OK 10 (length (tg_schema g)) e [] R LEN PC FI (Forall_nil _)) as (e0 & r & k & E & CH & FE).
  rewrite E. cbn [obind]. destruct (pop_until_core F k g C) as (C1 & F1 & D1 & N1).
  assert (D : deep (pop_until F k g) \/ (exists e1 r1, e0 :: r = e1 :: r1 /\ fine e1)).
  { destruct s as [|a s].
    - right. exists e0, r. auto.
    - left. apply D1. unfold deep. rewrite ES. cbn. rewrite app_length. cbn. lia. }
  destruct (push_chain_core F (e0 :: r) _ C1 CH D) as (C2 & F2 & D2).
  eexists. split; [reflexivity|]. split; [|split; [exact D2|reflexivity]].
  assert (G2 : good F (push_chain F (e0 :: r) (pop_until F k g))) by (eapply good_frame; [exact G|exact C2|eapply frame_trans; eauto]).
  destruct G2 as [X1 X2 X3 X4]. constructor; cbn; auto; [apply core_set_new; exact X1|discriminate].
Qed.
Lemma pcdata_elem : forall F sch, schema_ok sch -> exists e, the_elem F sch pcdata_name = Some e /\ climbs sch e /\ can_contain root_elem e = false.
Proof.
  intros F sch (_ & OK & (t & G & N) & _). unfold the_elem. rewrite G. cbn. eexists. split; [reflexivity|].
  destruct (get_type_in _ _ _ G) as [I _]. rewrite Forall_forall in OK. destruct (OK t I) as [[R [((p & l & P) & _)|(_ & X & A)]]|(N' & _)].
  - exfalso. destruct (parts_find _ _ _ P) as (_ & _ & _ & _ & _ & N60 & _). rewrite N in N60. inversion N60 as [|x y Y B]; subst. apply Y. reflexivity.
  - split; [|exact X]. split; [exact R|]. split; [reflexivity|]. right. split; assumption.
  - exfalso. rewrite N in N'. discriminate N'.
Qed.
Lemma rectify_pcdata_good : forall F g, good F g -> exists g', rectify_pcdata F g = Val g' /\ good F g' /\ deep g' /\ tg_new g' = None.
Proof.
  intros F g G. unfold rectify_pcdata. destruct (pcdata_elem F (tg_schema g) (g_schema F g G)) as (e & -> & CL & _). apply rectify_good; assumption.
Qed.
