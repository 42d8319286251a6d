From Coq Require Import Permutation Decimal DecimalNat.
From Verif.Model Require Import Base Containers Text NsSupport Stream.
From Verif.Spec Require Import TextSpec XmlRead NsTree WriterSpec.
From Verif.Proof Require Import Tac ContainersProof TextProof SaxProof XmlReadProof WriterProof.

(** * Generated prefixes *)
Lemma uint_digits_inj : forall a b, uint_digits a = uint_digits b -> a = b.
Proof. induction a; intros b H; destruct b; cbn in H; try discriminate; try reflexivity; injection H as H; f_equal; auto. Qed.
Lemma auto_inj : forall i j, auto_prefix i = auto_prefix j -> i = j.
Proof. intros i j H. unfold auto_prefix in H. injection H as H. apply Unsigned.to_uint_inj. apply uint_digits_inj. exact H. Qed.
Lemma uint_digits_range : forall a, forallb (fun c => (48 <=? c) && (c <=? 57)) (uint_digits a) = true.
Proof. induction a; cbn; auto. Qed.
Lemma auto_is_like : forall i, auto_like (auto_prefix i) = true.
Proof. intros i. cbn. apply uint_digits_range. Qed.
Lemma digits_names : forall s, forallb (fun c => (48 <=? c) && (c <=? 57)) s = true -> forallb name_char s = true /\ ~ In 58 s.
Proof.
  induction s as [|c s IH]; intros H; [split; [reflexivity|intros []]|]. cbn in H. bsplit. destruct (IH ltac:(assumption)) as (A & B). split.
  - cbn [forallb]. rewrite A. rewrite andb_true_r. unfold name_char, white. cbn [existsb]. repeat rewrite orb_false_r.
    destruct (Z.eqb_spec c 32), (Z.eqb_spec c 9), (Z.eqb_spec c 10), (Z.eqb_spec c 13), (Z.eqb_spec c 47), (Z.eqb_spec c 62), (Z.eqb_spec c 61), (Z.eqb_spec c 60), (Z.eqb_spec c 38), (Z.eqb_spec c 39), (Z.eqb_spec c 34), (Z.eqb_spec c 63), (Z.eqb_spec c 33); try lia; reflexivity.
  - intros [E|E]; [lia|auto].
Qed.
Lemma auto_ncname : forall i, ncname (auto_prefix i).
Proof.
  intros i. destruct (digits_names _ (uint_digits_range (Nat.to_uint i))) as (A & B). split; [split; [discriminate|]|].
  - unfold auto_prefix. cbn [forallb]. rewrite A. reflexivity.
  - unfold auto_prefix. intros [E|E]; [discriminate|auto].
Qed.

(** * The stack of maps *)
Definition entries (st : pstack) : list (str * str) := concat (p_maps st).
Lemma declared_in : forall maps u p, is_uri_declared maps u = Some p -> In (u, p) (concat maps).
Proof.
  induction maps as [|m r IH]; intros u p H; [discriminate|]. cbn [is_uri_declared] in H. cbn [concat]. apply in_or_app.
  destruct (mm_find u m) as [q|] eqn:F; [left; injection H as ->; apply mm_find_in; exact F|right; apply IH; exact H].
Qed.
Lemma declared_none : forall maps u, is_uri_declared maps u = None -> ~ In u (map fst (concat maps)).
Proof.
  induction maps as [|m r IH]; intros u H; [intros []|]. cbn [is_uri_declared] in H. cbn [concat]. rewrite map_app. intros K. apply in_app_or in K.
  destruct (mm_find u m) as [q|] eqn:F; [discriminate|]. destruct K as [K|K]; [|exact (IH u H K)]. apply mm_find_none_in in F. exact (F K).
Qed.
Lemma in_unique : forall {A B} (l : list (A * B)) a b c, NoDup (map fst l) -> In (a, b) l -> In (a, c) l -> b = c.
Proof.
  intros A B l a b c. induction l as [|[x y] l IH]; intros ND I J; [destruct I|]. cbn [map fst] in ND. inversion ND as [|? ? N1 N2]; subst.
  destruct I as [I|I], J as [J|J].
  - congruence.
  - injection I as -> ->. exfalso. apply N1. apply (in_map fst) in J. exact J.
  - injection J as -> ->. exfalso. apply N1. apply (in_map fst) in I. exact I.
  - apply IH; auto.
Qed.
Lemma in_unique2 : forall {A B} (l : list (A * B)) a b c, NoDup (map snd l) -> In (a, c) l -> In (b, c) l -> a = b.
Proof.
  intros A B l a b c. induction l as [|[x y] l IH]; intros ND I J; [destruct I|]. cbn [map snd] in ND. inversion ND as [|? ? N1 N2]; subst.
  destruct I as [I|I], J as [J|J].
  - congruence.
  - injection I as -> ->. exfalso. apply N1. apply (in_map snd) in J. exact J.
  - injection J as -> ->. exfalso. apply N1. apply (in_map snd) in I. exact I.
  - apply IH; auto.
Qed.
Lemma declared_found : forall maps u p, NoDup (map fst (concat maps)) -> In (u, p) (concat maps) -> is_uri_declared maps u = Some p.
Proof.
  intros maps u p ND I. destruct (is_uri_declared maps u) as [q|] eqn:D.
  - f_equal. apply (in_unique (concat maps) u); [exact ND|apply declared_in; exact D|exact I].
  - exfalso. apply (declared_none _ _ D). apply (in_map fst) in I. exact I.
Qed.
Lemma map_set_perm : forall (u p : str) m, mm_find u m = None -> Permutation (map_set u p m) ((u, p) :: m).
Proof.
  intros u p. induction m as [|[k v] m IH]; intros F; [constructor; constructor|]. cbn [mm_find] in F. cbn [map_set].
  destruct (str_eqb k u); [discriminate|]. destruct (str_ltb u k); [reflexivity|]. etransitivity; [apply perm_skip, IH, F|apply perm_swap].
Qed.

Section Scheme.
Variables (tbl : list (str * str)) (dflt : bool).
Hypothesis scheme : scheme_ok tbl dflt.

Definition entry_good (k : nat) (x : str * str) : Prop :=
  In x tbl \/ (exists j, (j < k)%nat /\ snd x = auto_prefix j /\ fst x <> [] /\ fst x <> xml_uri /\ exists q, q <> [] /\ In (fst x, q) tbl).
Definition good_st (st : pstack) : Prop :=
  NoDup (map fst (entries st)) /\ NoDup (map snd (entries st)) /\ Forall (entry_good (p_next st)) (entries st) /\ p_maps st <> [].
(** The name written for [n] where [E] is declared. *)
Definition shows (E : list (str * str)) (attr : bool) (n : dname) (nm : str) : Prop :=
  (d_uri n = [] /\ nm = d_name n) \/
  (d_uri n <> [] /\ exists p, In (d_uri n, p) E /\ nm = with_prefix p (d_local n) /\ (attr = true -> p <> [])).
Definition grows (st st' : pstack) : Prop :=
  tl (p_maps st') = tl (p_maps st) /\ incl (entries st) (entries st') /\ (p_next st <= p_next st')%nat.
Lemma grows_refl : forall st, grows st st. Proof. intros st. split; [reflexivity|]. split; [apply incl_refl|lia]. Qed.
Lemma grows_trans : forall a b c, grows a b -> grows b c -> grows a c.
Proof. intros a b c (A1 & A2 & A3) (B1 & B2 & B3). split; [congruence|]. split; [eapply incl_tran; eauto|lia]. Qed.
Lemma good_mono : forall k k' x, (k <= k')%nat -> entry_good k x -> entry_good k' x.
Proof. intros k k' x L [H|(j & J & R)]; [left; exact H|right; exists j; split; [lia|exact R]]. Qed.

Lemma set_good : forall st u p k, good_st st -> is_uri_declared (p_maps st) u = None -> ~ In p (map snd (entries st)) ->
  (p_next st <= k)%nat -> entry_good k (u, p) -> good_st (set_current st u p k) /\ grows st (set_current st u p k) /\ In (u, p) (entries (set_current st u p k)).
Proof.
  intros st u p k (G1 & G2 & G3 & G4) D NP L E. unfold set_current, good_st, grows, entries in *. destruct (p_maps st) as [|m r] eqn:M; [congruence|].
  cbn [p_maps p_next tl concat] in *. assert (F : mm_find u m = None) by (cbn [is_uri_declared] in D; destruct (mm_find u m); [discriminate|reflexivity]).
  assert (P : Permutation (map_set u p m ++ concat r) ((u, p) :: m ++ concat r)).
  { change ((u, p) :: m ++ concat r) with (((u, p) :: m) ++ concat r). apply Permutation_app_tail, map_set_perm, F. }
  repeat split; try discriminate.
  - apply (Permutation_NoDup (l := map fst ((u, p) :: m ++ concat r))); [apply Permutation_map, Permutation_sym, P|]. cbn [map fst]. constructor; [|exact G1].
    apply (declared_none (m :: r) u D).
  - apply (Permutation_NoDup (l := map snd ((u, p) :: m ++ concat r))); [apply Permutation_map, Permutation_sym, P|]. cbn [map snd]. constructor; assumption.
  - apply (Permutation_Forall (Permutation_sym P)). constructor; [exact E|]. eapply Forall_impl; [|exact G3]. intros a. apply good_mono. exact L.
  - intros x I. apply (Permutation_in _ (Permutation_sym P)). right. exact I.
  - exact L.
  - apply (Permutation_in _ (Permutation_sym P)). left. reflexivity.
Qed.
Lemma tbl_entry : forall u p, In (u, p) tbl -> entry_ok dflt (u, p).
Proof. intros u p I. destruct scheme as (_ & _ & F). rewrite Forall_forall in F. exact (F _ I). Qed.
Lemma tbl_new : forall st u p, good_st st -> is_uri_declared (p_maps st) u = None -> In (u, p) tbl -> ~ In p (map snd (entries st)).
Proof.
  intros st u p (G1 & G2 & G3 & _) D T I. apply in_map_iff in I as ([v q] & E & I). cbn in E. subst q.
  rewrite Forall_forall in G3. destruct (G3 _ I) as [V|(j & _ & A & _)].
  - destruct scheme as (_ & S2 & _). pose proof (in_unique2 tbl u v p S2 T V) as <-. apply (declared_none _ _ D). apply (in_map fst) in I. exact I.
  - cbn in A. destruct (tbl_entry u p T) as (_ & _ & _ & AL & _). rewrite A, auto_is_like in AL. discriminate.
Qed.

Lemma good_uri : forall st u p, good_st st -> In (u, p) (entries st) -> u <> [].
Proof.
  intros st u p (_ & _ & G & _) I. rewrite Forall_forall in G. destruct (G _ I) as [T|(j & _ & _ & A & _)]; [apply (tbl_entry u p T)|exact A].
Qed.
Lemma node_name_good : forall st n (attr : bool), good_st st -> (if attr then attribute_ok tbl n else element_ok tbl dflt n) ->
  good_st (fst (node_name st n attr)) /\ grows st (fst (node_name st n attr)) /\ shows (entries (fst (node_name st n attr))) attr n (snd (node_name st n attr)).
Proof.
  intros st n attr G OK. unfold node_name. destruct (d_uri n) as [|c u'] eqn:U.
  - cbn [fst snd]. split; [exact G|]. split; [apply grows_refl|]. left. auto.
  - rewrite <- U in *. assert (NU : d_uri n <> []) by (rewrite U; discriminate). clear U.
    destruct (is_uri_declared (p_maps st) (d_uri n)) as [p|] eqn:D.
    + cbn [fst snd]. split; [exact G|]. split; [apply grows_refl|]. right. split; [exact NU|]. exists p. pose proof (declared_in _ _ _ D) as I. split; [exact I|]. split; [reflexivity|].
      intros ->. destruct OK as (_ & [(E & _)|(_ & _ & q & Q & T & _)]); [congruence|]. destruct G as (_ & _ & G & _). rewrite Forall_forall in G. destruct (G _ I) as [V|(j & _ & A & _)].
      * destruct scheme as (S1 & _). rewrite (in_unique tbl _ _ _ S1 V T). exact Q.
      * cbn in A. rewrite A. discriminate.
    + destruct (d_prefix n) as [|c0 p0] eqn:P.
      * destruct attr.
        -- cbn [fst snd]. destruct OK as (_ & [(E & _)|(_ & _ & q & Q & T & X)]); [congruence|]. destruct X as [X|[_ X]]; [congruence|].
           destruct (set_good st (d_uri n) (auto_prefix (p_next st)) (S (p_next st)) G D) as (A & B & C).
           ++ intros I. apply in_map_iff in I as ([v r] & E & I). cbn in E. subst r. destruct G as (_ & _ & G & _). rewrite Forall_forall in G.
              destruct (G _ I) as [V|(j & J & E & _)].
              ** destruct (tbl_entry _ _ V) as (_ & _ & _ & AL & _). rewrite auto_is_like in AL. discriminate.
              ** cbn in E. apply auto_inj in E. lia.
           ++ lia.
           ++ right. exists (p_next st). cbn [fst snd]. repeat split; auto; eauto.
           ++ split; [exact A|]. split; [exact B|]. right. split; [exact NU|]. exists (auto_prefix (p_next st)). split; [exact C|]. split; [reflexivity|]. discriminate.
        -- cbn [fst snd]. destruct OK as [(E & _)|(_ & _ & T)]; [congruence|]. rewrite P in T.
           destruct (set_good st (d_uri n) [] (p_next st) G D (tbl_new st _ _ G D T)) as (A & B & C); [lia|left; exact T|].
           split; [exact A|]. split; [exact B|]. right. split; [exact NU|]. exists []. split; [exact C|]. split; [reflexivity|]. discriminate.
      * rewrite <- P in *. assert (NP : d_prefix n <> []) by (rewrite P; discriminate). clear P.
        assert (T : In (d_uri n, d_prefix n) tbl).
        { destruct attr.
          - destruct OK as (_ & [(E & _)|(_ & _ & q & Q & T & X)]); [congruence|]. destruct X as [X|[X _]]; [rewrite X; exact T|congruence].
          - destruct OK as [(E & _)|(_ & _ & T)]; [congruence|exact T]. }
        cbn [fst snd]. destruct (set_good st (d_uri n) (d_prefix n) (p_next st) G D (tbl_new st _ _ G D T)) as (A & B & C); [lia|left; exact T|].
        split; [exact A|]. split; [exact B|]. right. split; [exact NU|]. exists (d_prefix n). split; [exact C|]. split; [reflexivity|]. intros _. exact NP.
Qed.
Lemma shows_mono : forall E E' a n nm, incl E E' -> shows E a n nm -> shows E' a n nm.
Proof. intros E E' a n nm I [H|(U & p & P & R)]; [left; exact H|]. right. split; [exact U|]. exists p. split; [apply I, P|exact R]. Qed.
(** The closing tag: the name is found again. *)
Lemma node_name_again : forall st n a nm, NoDup (map fst (entries st)) -> shows (entries st) a n nm -> node_name st n false = (st, nm).
Proof.
  intros st n a nm ND [(U & ->)|(U & p & I & -> & _)]; unfold node_name.
  - rewrite U. reflexivity.
  - destruct (d_uri n) as [|c u] eqn:E; [congruence|]. rewrite <- E in *. rewrite (declared_found _ _ _ ND I). reflexivity.
Qed.

(** * Attributes *)
Definition written (atts : list (dname * str)) : list (dname * str) := filter (fun x => negb (is_declaration (fst x))) atts.
Lemma stream_attrs_good : forall atts st, good_st st ->
  Forall (fun x => is_declaration (fst x) = true \/ attribute_ok tbl (fst x)) atts ->
  exists pairs, snd (stream_attrs st atts) = render_attrs pairs /\ good_st (fst (stream_attrs st atts)) /\ grows st (fst (stream_attrs st atts)) /\
    Forall2 (fun p x => snd p = snd x /\ shows (entries (fst (stream_attrs st atts))) true (fst x) (fst p)) pairs (written atts).
Proof.
  induction atts as [|[n v] atts IH]; intros st G F.
  - exists []. split; [reflexivity|]. split; [exact G|]. split; [apply grows_refl|constructor].
  - inversion F as [|? ? F1 F2]; subst. cbn [fst] in F1. cbn [stream_attrs written filter fst].
    assert (SD : skipped n = is_declaration n \/ d_name n = []).
    { unfold skipped, is_declaration. destruct (d_name n) as [|c r]; [right; reflexivity|left]. cbn [is_empty orb].
      assert (TE : forall a b, str_eqb a b = text_is a b).
      { intros a b. unfold text_is. destruct (list_eq_dec Z.eq_dec a b) as [->|N]; [apply str_eqb_true; reflexivity|apply str_eqb_false; exact N]. }
      rewrite !TE. reflexivity. }
    destruct (is_declaration n) eqn:DEC.
    + assert (S : skipped n = true). { destruct SD as [SD|SD]; [exact SD|]. unfold skipped. rewrite SD. reflexivity. }
      rewrite S. cbn [negb]. apply (IH st G F2).
    + destruct F1 as [F1|F1]; [discriminate|]. assert (S : skipped n = false) by (destruct SD as [SD|SD]; [exact SD|destruct F1 as (F1 & _); congruence]).
      rewrite S. cbn [negb]. destruct (node_name_good st n true G F1) as (A & B & C). destruct (node_name st n true) as [st1 nm]. cbn [fst snd] in *.
      destruct (IH st1 A F2) as (pairs & O & G2 & GR & FF). destruct (stream_attrs st1 atts) as [st2 out]. cbn [fst snd] in *.
      exists ((nm, v) :: pairs). split; [rewrite O; unfold render_attrs at 2; cbn [flat_map]; unfold render_attr at 1; cbn [fst snd]; rewrite <- !app_assoc; reflexivity|].
      split; [exact G2|]. split; [eapply grows_trans; eauto|]. constructor; [|exact FF]. cbn [fst snd]. split; [reflexivity|]. eapply shows_mono; [|exact C]. apply GR.
Qed.

(** * Names as the reader sees them *)
Lemma at_colon_none : forall s, ~ In 58 s -> at_colon s = None.
Proof.
  induction s as [|c s IH]; intros H; [reflexivity|]. cbn. destruct (Z.eqb_spec c 58) as [->|N]; [exfalso; apply H; left; reflexivity|].
  rewrite IH; [reflexivity|]. intros K. apply H. right. exact K.
Qed.
Lemma at_colon_some : forall p l, ~ In 58 p -> at_colon (p ++ 58 :: l) = Some (p, l).
Proof.
  induction p as [|c p IH]; intros l H; [reflexivity|]. cbn. destruct (Z.eqb_spec c 58) as [->|N]; [exfalso; apply H; left; reflexivity|].
  rewrite IH; [reflexivity|]. intros K. apply H. right. exact K.
Qed.
Lemma split_prefixed : forall p l, (p = [] \/ ncname p) -> ncname l -> split_name (with_prefix p l) = Some (p, l).
Proof.
  intros p l P ((L0 & _) & LC). unfold split_name. destruct p as [|c p].
  - cbn [with_prefix]. rewrite at_colon_none by exact LC. reflexivity.
  - destruct P as [P|(_ & PC)]; [discriminate|]. unfold with_prefix. change ([58] ++ l) with (58 :: l). rewrite at_colon_some by exact PC.
    destruct l as [|d l]; [congruence|]. rewrite at_colon_none by exact LC. reflexivity.
Qed.
Lemma prefixed_name : forall p l, (p = [] \/ ncname p) -> ncname l -> is_name (with_prefix p l).
Proof.
  intros p l P ((L0 & L1) & _). destruct p as [|c p]; [split; auto|]. destruct P as [P|((_ & P1) & _)]; [discriminate|].
  split; [discriminate|]. unfold with_prefix. rewrite !forallb_app, P1, L1. reflexivity.
Qed.
Lemma text_is_false : forall a b, a <> b -> text_is a b = false.
Proof. intros a b N. unfold text_is. destruct (list_eq_dec Z.eq_dec a b); congruence. Qed.
Definition swap (x : str * str) : str * str := (snd x, fst x).
Lemma bound_in : forall E u p, NoDup (map snd E) -> In (u, p) E -> bound (map swap E) p = Some u.
Proof.
  induction E as [|[v q] E IH]; intros u p ND I; [destruct I|]. cbn [map snd] in ND. inversion ND as [|? ? N1 N2]; subst. cbn [map swap snd fst bound].
  destruct I as [I|I].
  - injection I as -> ->. rewrite text_is_refl. reflexivity.
  - rewrite text_is_false; [apply IH; auto|]. intros ->. apply N1. apply (in_map snd) in I. exact I.
Qed.
Lemma bound_default : forall E, ~ In [] (map snd E) -> bound (map swap E) [] = None.
Proof.
  induction E as [|[v q] E IH]; intros N; [reflexivity|]. cbn [map swap snd fst bound]. rewrite text_is_false; [apply IH|].
  - intros K. apply N. right. exact K.
  - intros ->. apply N. left. reflexivity.
Qed.
(** What is known of the prefixes in the stack. *)
Lemma entry_facts : forall st u p, good_st st -> In (u, p) (entries st) ->
  u <> [] /\ (p = [] \/ ncname p) /\ p <> s_xmlns /\ (p = s_xml <-> u = xml_uri) /\ (p = [] -> dflt = true).
Proof.
  intros st u p (_ & _ & G & _) I. rewrite Forall_forall in G. destruct (G _ I) as [T|(j & _ & A & B & C & _)].
  - destruct (tbl_entry _ _ T) as (E1 & E2 & E3 & _ & E4). repeat split; auto; try tauto.
    intros ->. destruct E2 as [[_ E2]|((E2 & _) & _)]; [exact E2|congruence].
  - cbn [fst snd] in *. subst p. split; [exact B|]. split; [right; apply auto_ncname|]. split; [discriminate|]. split; [split; [discriminate|intros E; congruence]|discriminate].
Qed.
Lemma element_resolves : forall st n nm, good_st st -> element_ok tbl dflt n -> shows (entries st) false n nm ->
  is_name nm /\ element_name (map swap (entries st)) nm = Some (d_uri n, local_name n).
Proof.
  intros st n nm G OK SH. unfold local_name. destruct SH as [(U & ->)|(U & p & I & -> & _)].
  - destruct OK as [(_ & N & DF)|(U' & _)]; [|congruence]. rewrite U. split; [apply N|]. unfold element_name.
    change (d_name n) with (with_prefix [] (d_name n)). rewrite split_prefixed by auto. cbn [with_prefix]. rewrite bound_default; [reflexivity|].
    intros K. apply in_map_iff in K as ([v q] & E & K). cbn in E. subst q. destruct (entry_facts st v [] G K) as (_ & _ & _ & _ & X). rewrite X in DF by reflexivity. discriminate.
  - destruct OK as [(U' & _)|(_ & N & _)]; [congruence|]. destruct (entry_facts st _ p G I) as (_ & PN & _).
    assert (L : match d_uri n with [] => d_name n | _ => d_local n end = d_local n) by (destruct (d_uri n); [congruence|reflexivity]). rewrite L.
    split; [apply prefixed_name; auto|]. unfold element_name. rewrite split_prefixed by auto. pose proof (bound_in (entries st) _ p (proj1 (proj2 G)) I) as B.
    destruct p; rewrite B; reflexivity.
Qed.
Lemma attribute_resolves : forall st n nm, good_st st -> attribute_ok tbl n -> is_declaration n = false -> shows (entries st) true n nm ->
  is_name nm /\ attribute_name (map swap (entries st)) nm = Some (d_uri n, local_name n) /\ declares nm = None.
Proof.
  intros st n nm G (_ & OK) ND SH. unfold local_name. destruct SH as [(U & ->)|(U & p & I & -> & NP)].
  - destruct OK as [(_ & N)|(U' & _)]; [|congruence]. rewrite U. split; [apply N|]. unfold attribute_name, declares.
    change (d_name n) with (with_prefix [] (d_name n)). rewrite split_prefixed by auto. cbn [with_prefix]. split; [reflexivity|].
    unfold is_declaration in ND. apply orb_false_iff in ND as [ND _]. rewrite ND. reflexivity.
  - destruct OK as [(U' & _)|(_ & N & _)]; [congruence|]. destruct (entry_facts st _ p G I) as (_ & PN & X & _). specialize (NP eq_refl).
    assert (L : match d_uri n with [] => d_name n | _ => d_local n end = d_local n) by (destruct (d_uri n); [congruence|reflexivity]). rewrite L.
    split; [apply prefixed_name; auto|]. unfold attribute_name, declares. rewrite split_prefixed by auto. rewrite (bound_in (entries st) _ p (proj1 (proj2 G)) I).
    rewrite (text_is_false p s_xmlns X). destruct p; [congruence|]. split; reflexivity.
Qed.
Lemma shows_inj : forall st a b nm, good_st st -> shows (entries st) true a nm -> shows (entries st) true b nm ->
  attribute_ok tbl a -> attribute_ok tbl b -> is_declaration a = false -> is_declaration b = false -> (d_uri a, local_name a) = (d_uri b, local_name b).
Proof.
  intros st a b nm G SA SB OA OB NA NB. destruct (attribute_resolves st a nm G OA NA SA) as (_ & A & _). destruct (attribute_resolves st b nm G OB NB SB) as (_ & B & _). congruence.
Qed.
Lemma names_fresh : forall (l : list (str * str * str)) (x : str * str), ~ In x (map fst l) ->
  existsb (fun y => text_is (fst x) (fst (fst y)) && text_is (snd x) (snd (fst y))) l = false.
Proof.
  intros l x N. destruct (existsb _ l) eqn:EX; [|reflexivity]. apply existsb_exists in EX as (y & I & H). apply andb_true_iff in H as [H1 H2].
  apply text_is_true in H1, H2. exfalso. apply N. apply in_map_iff. exists y. split; [|exact I]. destruct y as [[a b] c], x as [a' b']. cbn in *. congruence.
Qed.
Lemma attributes_resolve : forall st atts pairs, good_st st ->
  Forall (fun x => attribute_ok tbl (fst x) /\ is_declaration (fst x) = false) atts ->
  NoDup (map (fun x => (d_uri (fst x), local_name (fst x))) atts) ->
  Forall2 (fun p x => snd p = snd x /\ shows (entries st) true (fst x) (fst p)) pairs atts ->
  attribute_names (map swap (entries st)) pairs = Some (map (fun x => (d_uri (fst x), local_name (fst x), snd x)) atts) /\
  Forall is_name (map fst pairs) /\ NoDup (map fst pairs) /\ declarations pairs = [] /\ plain pairs = pairs.
Proof.
  intros st atts pairs G F ND FF. induction FF as [|[nm v] [n w] pairs atts (E & SH) FF IH].
  - cbn. repeat split; constructor.
  - inversion F as [|? ? (F1 & F1') F2]; subst. cbn [map fst snd] in *. inversion ND as [|? ? N1 N2]; subst. destruct (IH F2 N2) as (A & B & C & D & P).
    destruct (attribute_resolves st n nm G F1 F1' SH) as (NM & AN & DE). cbn [attribute_names declarations plain filter]. unfold plain in P. rewrite AN, A.
    split; [|split; [constructor; assumption|split; [constructor; [|exact C]|split; [rewrite DE; exact D|]]]].
    + assert (X : ~ In (d_uri n, local_name n) (map fst (map (fun x => (d_uri (fst x), local_name (fst x), snd x)) atts))) by (rewrite map_map; cbn [fst]; exact N1).
      apply names_fresh in X. rewrite X. reflexivity.
    + intros I. apply N1. apply in_map_iff in I as ([nm' v'] & E' & I). cbn in E'. subst nm'.
      clear IH A B C D P ND N1 N2 F. induction FF as [|[nm2 v2] [n2 w2] pairs atts (E2 & SH2) FF IH]; [destruct I|]. inversion F2 as [|? ? (G1 & G1') G2]; subst.
      cbn [map fst snd] in *. destruct I as [I|I]; [|right; apply IH; assumption]. injection I as -> ->. left. symmetry. apply (shows_inj st n n2 nm); assumption.
    + cbn [fst]. rewrite DE. rewrite P. reflexivity.
Qed.

(** * Declarations *)
Definition decl_pair (x : str * str) : str * str := (match snd x with [] => s_xmlns | p => s_xmlns ++ 58 :: p end, fst x).
Lemma decls_render : forall m, flat_map stream_decl m = render_attrs (map decl_pair m).
Proof.
  induction m as [|[u p] m IH]; [reflexivity|]. cbn [flat_map map]. rewrite IH. unfold render_attrs at 2. cbn [flat_map]. f_equal.
  unfold stream_decl, render_attr, decl_pair. cbn [fst snd]. destruct p; reflexivity.
Qed.
Lemma xmlns_ncname : ncname s_xmlns.
Proof. split; [split; [discriminate|reflexivity]|]. intros H. cbn in H. lia. Qed.
Lemma decl_pair_name : forall u p, (p = [] \/ ncname p) -> is_name (fst (decl_pair (u, p))) /\ declares (fst (decl_pair (u, p))) = Some p.
Proof.
  intros u p P. unfold decl_pair. cbn [fst snd]. destruct p as [|c p].
  - split; [apply xmlns_ncname|reflexivity].
  - destruct P as [P|P]; [discriminate|]. change (s_xmlns ++ 58 :: c :: p) with (with_prefix s_xmlns (c :: p)).
    split; [apply prefixed_name; [right; apply xmlns_ncname|exact P]|]. unfold declares. rewrite split_prefixed; [reflexivity|right; apply xmlns_ncname|exact P].
Qed.
Lemma decls_read : forall m, Forall (fun x => snd x = [] \/ ncname (snd x)) m ->
  declarations (map decl_pair m) = map swap m /\ plain (map decl_pair m) = [] /\ Forall is_name (map fst (map decl_pair m)).
Proof.
  induction m as [|[u p] m IH]; intros F; [repeat split; constructor|]. inversion F as [|? ? F1 F2]; subst. cbn [snd] in F1. destruct (IH F2) as (A & B & C).
  destruct (decl_pair_name u p F1) as (N & D). cbn [map declarations plain filter]. unfold plain in B. destruct (decl_pair (u, p)) as [nm v] eqn:E. cbn [fst] in *.
  assert (v = u) as -> by (unfold decl_pair in E; injection E as _ <-; reflexivity). rewrite D, A, B. repeat split. constructor; assumption.
Qed.
Lemma declarations_app : forall a b, declarations (a ++ b) = declarations a ++ declarations b.
Proof. induction a as [|[n v] a IH]; intros b; [reflexivity|]. cbn. rewrite IH. destruct (declares n); reflexivity. Qed.
Lemma decl_names_nodup : forall m, NoDup (map snd m) -> NoDup (map fst (map decl_pair m)).
Proof.
  induction m as [|[u p] m IH]; intros ND; [constructor|]. cbn [map snd] in *. inversion ND as [|? ? N1 N2]; subst. constructor; [|apply IH; exact N2].
  intros I. apply N1. rewrite map_map in I. apply in_map_iff in I as ([v q] & E & I). apply in_map_iff. exists (v, q). split; [|exact I]. cbn [snd].
  unfold decl_pair in E. cbn [fst snd] in E. destruct p as [|c p], q as [|d q]; try reflexivity.
  - exfalso. apply (f_equal (@length Z)) in E. rewrite app_length in E. cbn in E. lia.
  - exfalso. apply (f_equal (@length Z)) in E. rewrite app_length in E. cbn in E. lia.
  - apply app_inv_head in E. congruence.
Qed.
Lemma nodup_app : forall {A} (a b : list A), NoDup a -> NoDup b -> (forall x, In x a -> In x b -> False) -> NoDup (a ++ b).
Proof.
  intros A a b NA NB D. induction NA as [|x a N NA IH]; [exact NB|]. cbn. constructor.
  - intros I. apply in_app_or in I as [I|I]; [exact (N I)|]. apply (D x); [left; reflexivity|exact I].
  - apply IH. intros y I J. apply (D y); [right; exact I|exact J].
Qed.

(** * Trees *)
Definition keep : Z -> bool := fun _ => true.
Section Tree.
Variable ord : list (dname * str) -> list (dname * str).
Hypothesis ord_perm : forall l, Permutation (ord l) l.
Fixpoint stream_kids (st : pstack) (l : list dtree) : pstack * str :=
  match l with
  | [] => (st, [])
  | k :: r => let (st1, a) := stream_node ord [] st k in let (st2, b) := stream_kids st1 r in (st2, a ++ b)
  end.
Lemma stream_elem_eq : forall above st n atts kids, stream_node ord above st (DElem n atts kids) =
  let st0 := PStack (above :: p_maps st) (p_next st) in
  let (st1, nm) := node_name st0 n false in
  let (st2, out) := stream_attrs st1 (ord atts) in
  let start := [60] ++ nm ++ out ++ stream_decls st2 in
  match kids with
  | [] => (pop st2, start ++ [47; 62])
  | _ =>
      let (st3, body) := stream_kids st2 kids in
      let (st4, nm2) := node_name st3 n false in
      (pop st4, start ++ [62] ++ body ++ [60; 47] ++ nm2 ++ [62])
  end.
Proof. reflexivity. Qed.
Fixpoint kids_tokens (l : list dtree) : list ntok := match l with [] => [] | k :: r => tree_tokens k ++ kids_tokens r end.
Fixpoint kids_ok (l : list dtree) : Prop := match l with [] => True | k :: r => expressible tbl dflt k /\ kids_ok r end.
Lemma elem_tokens_eq : forall n atts kids, tree_tokens (DElem n atts kids) =
  NStart (d_uri n) (local_name n) (tree_attrs atts) :: kids_tokens kids ++ [NEnd (d_uri n) (local_name n)].
Proof. reflexivity. Qed.
Lemma elem_ok_eq : forall n atts kids, expressible tbl dflt (DElem n atts kids) =
  (element_ok tbl dflt n /\ Forall (fun x => is_declaration (fst x) = true \/ attribute_ok tbl (fst x)) atts /\ NoDup (map fst (tree_attrs atts)) /\ kids_ok kids).
Proof. reflexivity. Qed.
Fixpoint dtree_rect2 (P : dtree -> Prop) (H : forall n atts kids, Forall P kids -> P (DElem n atts kids))
  (HT : forall s, P (DText s)) (HC : forall s, P (DCData s)) (HM : forall s, P (DComment s)) (HP : forall t d, P (DPI t d))
  (HE : forall n, P (DEntRef n)) (HD : P DDocType) (t : dtree) : P t :=
  match t with
  | DElem n atts kids => H n atts kids ((fix go (l : list dtree) : Forall P l :=
      match l with [] => Forall_nil P | k :: r => Forall_cons k (dtree_rect2 P H HT HC HM HP HE HD k) (go r) end) kids)
  | DText s => HT s | DCData s => HC s | DComment s => HM s | DPI t d => HP t d | DEntRef n => HE n | DDocType => HD
  end.

Definition napp (N : list ntok) (r : option (list ntok)) : option (list ntok) := match r with Some l => Some (N ++ l) | None => None end.
Definition says (st : pstack) (out : str) (want : list ntok) : Prop :=
  exists T N, (forall open toks text, fine keep open toks text -> fine keep open (T ++ toks) (out ++ text)) /\
    (forall scs toks, hd [] scs = map swap (concat (p_maps st)) -> resolve scs (T ++ toks) = napp N (resolve scs toks)) /\
    Forall2 same_token N want.
Definition pushed (above : list (str * str)) (st : pstack) : pstack := PStack (above :: p_maps st) (p_next st).
Definition claim (t : dtree) : Prop := forall above st, good_st (pushed above st) -> expressible tbl dflt t ->
  p_maps (fst (stream_node ord above st t)) = p_maps st /\ (p_next st <= p_next (fst (stream_node ord above st t)))%nat /\
  says st (snd (stream_node ord above st t)) (tree_tokens t).

Lemma napp_app : forall a b r, napp a (napp b r) = napp (a ++ b) r.
Proof. intros a b [l|]; [|reflexivity]. cbn. rewrite app_assoc. reflexivity. Qed.
Lemma says_app : forall st st' a b x y, p_maps st' = p_maps st -> says st a x -> says st' b y -> says st (a ++ b) (x ++ y).
Proof.
  intros st st' a b x y E (T1 & N1 & F1 & R1 & S1) (T2 & N2 & F2 & R2 & S2). exists (T1 ++ T2), (N1 ++ N2). split; [|split].
  - intros open toks text F. rewrite <- !app_assoc. apply F1, F2, F.
  - intros scs toks H. rewrite <- app_assoc, R1, R2 by (rewrite ?E; exact H). apply napp_app.
  - apply Forall2_app; assumption.
Qed.
Lemma says_nil : forall st, says st [] [].
Proof. intros st. exists [], []. split; [auto|]. split; [|constructor]. intros scs toks _. cbn. destruct (resolve scs toks); reflexivity. Qed.
Lemma pushed_good : forall st, good_st st -> good_st (pushed [] st).
Proof. intros st (A & B & C & D). unfold good_st, pushed, entries in *. cbn [p_maps p_next concat app]. split; [exact A|]. split; [exact B|]. split; [exact C|discriminate]. Qed.
Lemma good_next : forall st st', good_st st -> p_maps st' = p_maps st -> (p_next st <= p_next st')%nat -> good_st st'.
Proof.
  intros st st' (A & B & C & D) E L. unfold good_st, entries in *. rewrite E. split; [exact A|]. split; [exact B|]. split; [|exact D].
  eapply Forall_impl; [|exact C]. intros x. apply good_mono. exact L.
Qed.
Lemma kids_claim : forall kids, Forall claim kids -> forall st, good_st st -> kids_ok kids ->
  p_maps (fst (stream_kids st kids)) = p_maps st /\ (p_next st <= p_next (fst (stream_kids st kids)))%nat /\ says st (snd (stream_kids st kids)) (kids_tokens kids).
Proof.
  intros kids F. induction F as [|k r K F IH]; intros st G OK.
  - cbn. split; [reflexivity|]. split; [lia|apply says_nil].
  - destruct OK as (O1 & O2). cbn [stream_kids kids_tokens]. destruct (K [] st (pushed_good st G) O1) as (A & B & C).
    destruct (stream_node ord [] st k) as [st1 a]. cbn [fst snd] in *. destruct (IH st1 (good_next st st1 G A B) O2) as (A2 & B2 & C2).
    destruct (stream_kids st1 r) as [st2 b]. cbn [fst snd] in *. split; [congruence|]. split; [lia|]. eapply says_app; eauto.
Qed.
Lemma tree_attrs_written : forall atts, tree_attrs atts = map (fun x => (d_uri (fst x), local_name (fst x), snd x)) (written atts).
Proof. reflexivity. Qed.
Lemma perm_filter : forall {A} (f : A -> bool) a b, Permutation a b -> Permutation (filter f a) (filter f b).
Proof.
  intros A f a b P. induction P; cbn; [constructor| | |etransitivity; eauto].
  - destruct (f x); [constructor|]; assumption.
  - destruct (f x), (f y); try reflexivity. apply perm_swap.
Qed.
(** The start tag. *)
Lemma start_tag : forall above st n atts, good_st (pushed above st) -> element_ok tbl dflt n ->
  Forall (fun x => is_declaration (fst x) = true \/ attribute_ok tbl (fst x)) atts -> NoDup (map fst (tree_attrs atts)) ->
  let r1 := node_name (pushed above st) n false in
  let r2 := stream_attrs (fst r1) (ord atts) in
  good_st (fst r2) /\ tl (p_maps (fst r2)) = p_maps st /\ (p_next st <= p_next (fst r2))%nat /\
  shows (entries (fst r2)) false n (snd r1) /\
  exists pairs a, snd r2 ++ stream_decls (fst r2) = render_attrs pairs /\ attrs_ok pairs /\
    declarations pairs = map swap (hd [] (p_maps (fst r2))) /\ forallb declaration_ok (declarations pairs) = true /\
    attribute_names (map swap (entries (fst r2))) (plain pairs) = Some a /\ Permutation a (tree_attrs atts).
Proof.
  intros above st n atts G OK FA ND. destruct (node_name_good (pushed above st) n false G OK) as (G1 & GR1 & SH1). cbv zeta.
  set (r1 := node_name (pushed above st) n false) in *. clearbody r1.
  assert (FO : Forall (fun x => is_declaration (fst x) = true \/ attribute_ok tbl (fst x)) (ord atts)) by (apply (Permutation_Forall (Permutation_sym (ord_perm atts))); exact FA).
  destruct (stream_attrs_good (ord atts) (fst r1) G1 FO) as (pairs & OUT & G2 & GR2 & FF).
  set (r2 := stream_attrs (fst r1) (ord atts)) in *. clearbody r2. pose proof (grows_trans _ _ _ GR1 GR2) as (T & I & N). cbn [pushed p_maps tl] in T.
  split; [exact G2|]. split; [exact T|]. split; [exact N|]. split; [eapply shows_mono; [apply GR2|exact SH1]|].
  assert (PW : Permutation (written (ord atts)) (written atts)) by (apply perm_filter, ord_perm).
  destruct (attributes_resolve (fst r2) (written (ord atts)) pairs G2) as (AN & NM & NN & DE & PL).
  - apply Forall_forall. intros x X. apply filter_In in X as [X1 X2]. rewrite Forall_forall in FO. apply negb_true_iff in X2. destruct (FO x X1) as [D|D]; [congruence|auto].
  - rewrite tree_attrs_written, map_map in ND. apply (Permutation_NoDup (l := map (fun x => (d_uri (fst x), local_name (fst x))) (written atts))); [apply Permutation_map, Permutation_sym, PW|exact ND].
  - exact FF.
  - destruct (p_maps (fst r2)) as [|m maps] eqn:PM; [destruct G2 as (_ & _ & _ & X); congruence|]. cbn [tl] in T. subst maps.
    assert (ME : entries (fst r2) = m ++ concat (p_maps st)) by (unfold entries; rewrite PM; reflexivity).
    assert (MF : forall u p, In (u, p) m -> In (u, p) (entries (fst r2))) by (intros u p X; rewrite ME; apply in_or_app; left; exact X).
    assert (MN : Forall (fun x => snd x = [] \/ ncname (snd x)) m).
    { apply Forall_forall. intros [u p] X. cbn [snd]. apply (entry_facts (fst r2) u p G2 (MF u p X)). }
    destruct (decls_read m MN) as (D1 & D2 & D3).
    assert (MD : NoDup (map snd m)).
    { destruct G2 as (_ & G2 & _). rewrite ME, map_app in G2. clear - G2. induction (map snd m) as [|x l IH]; [constructor|]. cbn in G2. inversion G2; subst. constructor; [|auto].
      intros K. apply H1. apply in_or_app. left. exact K. }
    assert (SD : stream_decls (fst r2) = flat_map stream_decl m) by (unfold stream_decls; rewrite PM; reflexivity).
    exists (pairs ++ map decl_pair m), (map (fun x => (d_uri (fst x), local_name (fst x), snd x)) (written (ord atts))).
    rewrite SD, OUT, decls_render, declarations_app, DE, D1. cbn [hd app]. split; [unfold render_attrs; rewrite flat_map_app; reflexivity|].
    split; [|split; [reflexivity|split; [|split]]].
    + split; [rewrite map_app; apply Forall_app; auto|]. rewrite map_app. apply nodup_app; [exact NN|apply decl_names_nodup; exact MD|].
      intros x X Y. apply in_map_iff in X as ([nm v] & E & X). cbn in E. subst nm. rewrite map_map in Y. apply in_map_iff in Y as ([u p] & E & Y).
      assert (X2 : In (x, v) (plain pairs)) by (rewrite PL; exact X). apply filter_In in X2 as [_ X2]. cbn [fst] in X2.
      rewrite Forall_forall in MN. destruct (decl_pair_name u p (MN _ Y)) as (_ & DP). rewrite E in DP. rewrite DP in X2. discriminate.
    + apply forallb_forall. intros [p u] X. apply in_map_iff in X as ([u' p'] & E & X). unfold swap in E. cbn [fst snd] in E. injection E as -> ->.
      destruct (entry_facts (fst r2) u p G2 (MF u p X)) as (E1 & E2 & E3 & E4 & _). unfold declaration_ok. cbn [fst snd]. rewrite (text_is_false p s_xmlns E3). cbn [negb andb].
      assert (EB : Bool.eqb (text_is p s_xml) (text_is u xml_uri) = true).
      { destruct (text_is p s_xml) eqn:Q; [apply text_is_true in Q; apply E4 in Q; subst u; rewrite text_is_refl; reflexivity|].
        destruct (text_is u xml_uri) eqn:Q2; [|reflexivity]. apply text_is_true in Q2. apply E4 in Q2. subst p. rewrite text_is_refl in Q. discriminate. }
      rewrite EB. cbn [andb]. destruct p; [reflexivity|]. destruct u; [congruence|reflexivity].
    + unfold plain. rewrite filter_app. fold (plain pairs). rewrite PL. fold (plain (map decl_pair m)). rewrite D2, app_nil_r. exact AN.
    + rewrite tree_attrs_written. apply Permutation_map. exact PW.
Qed.

(** CDATA sections. *)
Notation M3 := [93; 93; 62].
Lemma marker_starts : forall s, marker s = match starts M3 s with Some _ => true | None => false end.
Proof.
  intros s. destruct s as [|a s]; [reflexivity|]. cbn [starts]. destruct (Z.eqb_spec 93 a) as [<-|N].
  - destruct s as [|b s]; [reflexivity|]. destruct (Z.eqb_spec 93 b) as [<-|N].
    + destruct s as [|c s]; [reflexivity|]. cbn [marker]. rewrite (Z.eqb_sym c). destruct (62 =? c); reflexivity.
    + destruct s as [|c s]; [reflexivity|]. cbn [marker]. rewrite (Z.eqb_sym b). destruct (Z.eqb_spec 93 b); [congruence|]. reflexivity.
  - destruct s as [|b [|c s]]; [reflexivity|reflexivity|]. cbn [marker]. rewrite (Z.eqb_sym a). destruct (Z.eqb_spec 93 a); [congruence|]. reflexivity.
Qed.
Lemma until_none : forall s, until M3 s = None -> ~ contains M3 s.
Proof.
  induction s as [|c s IH]; intros H (a & b & E).
  - destruct a; discriminate.
  - cbn [until] in H. destruct (starts M3 (c :: s)) eqn:S; [discriminate|]. destruct (until M3 s) as [[x y]|] eqn:U; [discriminate|].
    destruct a as [|d a].
    + rewrite E in S. cbn [app] in S. change (93 :: 93 :: 62 :: b) with (M3 ++ b) in S. rewrite starts_app in S. discriminate.
    + injection E as -> E. apply (IH eq_refl). exists a, b. exact E.
Qed.
Lemma until_some : forall s a b, until M3 s = Some (a, b) -> s = a ++ M3 ++ b /\ forall a1 r, s = a1 ++ M3 ++ r -> (length a <= length a1)%nat.
Proof.
  induction s as [|c s IH]; intros a b H; [discriminate|]. cbn [until] in H. destruct (starts M3 (c :: s)) as [r|] eqn:S.
  - injection H as <- <-. split; [exact (starts_some M3 _ _ S)|]. intros. cbn. lia.
  - destruct (until M3 s) as [[x y]|] eqn:U; [|discriminate]. injection H as <- <-. destruct (IH x y eq_refl) as (A & B). split; [cbn; rewrite A; reflexivity|].
    intros a1 r E. destruct a1 as [|d a1].
    + rewrite E in S. cbn [app] in S. change (93 :: 93 :: 62 :: r) with (M3 ++ r) in S. rewrite starts_app in S. discriminate.
    + injection E as _ E. pose proof (B a1 r E). cbn [length]. lia.
Qed.
Lemma no_marker : forall s value start pos, ~ contains M3 s -> cdata_rest value start pos s = skipn start value.
Proof.
  induction s as [|c s IH]; intros value start pos H; [reflexivity|]. cbn [cdata_rest]. rewrite marker_starts. destruct (starts M3 (c :: s)) as [r|] eqn:S.
  - exfalso. apply H. exists [], r. exact (starts_some M3 _ _ S).
  - apply IH. intros (a & b & E). apply H. exists (c :: a), b. rewrite E. reflexivity.
Qed.
Lemma first_marker : forall a b value start pos, (forall a1 r, a ++ M3 ++ b = a1 ++ M3 ++ r -> (length a <= length a1)%nat) -> ~ contains M3 b ->
  cdata_rest value start pos (a ++ M3 ++ b) = firstn (pos + length a + 2) (skipn start value) ++ k_cdata_end ++ k_cdata_start ++ skipn (pos + length a + 2) value.
Proof.
  induction a as [|c a IH]; intros b value start pos F NB.
  - cbn [length]. rewrite Nat.add_0_r. change ([] ++ M3 ++ b) with (93 :: 93 :: 62 :: b). cbn [cdata_rest]. rewrite marker_starts. change (93 :: 93 :: 62 :: b) with (M3 ++ b). rewrite starts_app.
    cbv iota. f_equal. f_equal. f_equal.
    change (if marker (62 :: b) then ?x else cdata_rest value (pos + 2) (S (S (S pos))) b) with (cdata_rest value (pos + 2) (S (S pos)) (62 :: b)).
    assert (NM : ~ contains M3 (93 :: 62 :: b)).
    { intros (x & y & E). destruct x as [|p [|q x]]; [discriminate|discriminate|]. injection E as _ _ E. apply NB. exists x, y. exact E. }
    exact (no_marker (93 :: 62 :: b) value (pos + 2) (S pos) NM).
  - change ((c :: a) ++ M3 ++ b) with (c :: a ++ M3 ++ b). cbn [cdata_rest]. rewrite marker_starts. destruct (starts M3 (c :: a ++ M3 ++ b)) as [r|] eqn:ST.
    + exfalso. apply starts_some in ST. pose proof (F [] r ST). cbn in H. lia.
    + rewrite IH; [|intros a1 r E; pose proof (F (c :: a1) r ltac:(cbn; cbn in E; rewrite E; reflexivity)); cbn in H; lia|exact NB].
      cbn [length]. replace (S pos + length a + 2)%nat with (pos + S (length a) + 2)%nat by lia. reflexivity.
Qed.
Lemma fine_text_eq : forall open toks l1 l2 text, (forall run r, join_acc run (map (keep_text keep) (l1 ++ r)) = join_acc run (map (keep_text keep) (l2 ++ r))) ->
  fine keep open (l1 ++ toks) text -> fine keep open (l2 ++ toks) text.
Proof. intros open toks l1 l2 text H (rs & l & A & B & C & D). exists rs, l. split; [exact A|]. split; [exact B|]. split; [exact C|]. intros run. rewrite D. apply H. Qed.
Lemma filter_keep : forall s : str, filter keep s = s.
Proof. induction s as [|c s IH]; [reflexivity|]. cbn. rewrite IH. reflexivity. Qed.
Lemma cdata_says : forall st s, ~ In 13 s -> one_marker s -> says st (stream_cdata s) [NText s].
Proof.
  intros st s CR OM. exists [TText s], [NText s]. split; [|split; [|repeat constructor]].
  - intros open toks text F. unfold stream_cdata. destruct (until M3 s) as [[a b]|] eqn:U.
    + destruct (until_some s a b U) as (E & FI). pose proof (OM a b E) as NB. subst s. rewrite first_marker; [|exact FI|exact NB].
      cbn [Nat.add skipn]. assert (CUT : a ++ M3 ++ b = (a ++ [93; 93]) ++ 62 :: b) by (rewrite <- app_assoc; reflexivity).
      assert (LEN : (length a + 2)%nat = length (a ++ [93; 93])) by (rewrite app_length; reflexivity).
      rewrite CUT, LEN, firstn_app, skipn_app, Nat.sub_diag, firstn_all, skipn_all. cbn [firstn skipn app]. rewrite app_nil_r.
      assert (CA : ~ contains M3 a).
      { intros (x & y & EA). pose proof (FI x (y ++ M3 ++ b) ltac:(rewrite EA, <- !app_assoc; reflexivity)) as L. apply (f_equal (@length Z)) in EA. rewrite !app_length in EA. cbn in EA. lia. }
      apply (fine_text_eq open toks [TText (a ++ [93; 93]); TText (62 :: b)] [TText ((a ++ [93; 93]) ++ 62 :: b)]).
      { intros run r. cbn [app map keep_text join_acc]. rewrite !filter_keep, <- !app_assoc. reflexivity. }
      replace ((k_cdata_start ++ ((a ++ [93; 93]) ++ k_cdata_end ++ k_cdata_start ++ 62 :: b) ++ k_cdata_end) ++ text)
        with (render (RCData (a ++ [93; 93])) ++ render (RCData (62 :: b)) ++ text) by (cbn [render]; unfold k_cdata_start, k_cdata_end; rewrite <- !app_assoc; reflexivity).
      assert (CRa : ~ In 13 (a ++ [93; 93])) by (intros K; apply CR; rewrite CUT; apply in_or_app; left; exact K).
      assert (CRb : ~ In 13 (62 :: b)) by (intros K; apply CR; rewrite CUT; apply in_or_app; right; exact K).
      apply (fine_cons keep (RCData (a ++ [93; 93])) open open [TText (a ++ [93; 93])]); [|reflexivity|].
      * split; [exact CRa|]. intros K. apply CA. apply (contains_tail [93; 93] 62 [93; 93] a); [intros [|[|[]]]; discriminate|exact K].
      * apply (fine_cons keep (RCData (62 :: b)) open open [TText (62 :: b)]); [|reflexivity|exact F]. split; [exact CRb|].
        intros (x & y & EQ). destruct x as [|z x]; [discriminate|]. injection EQ as _ EQ. apply NB. exists x, y. exact EQ.
    + rewrite no_marker by (apply until_none; exact U). cbn [skipn].
      replace ((k_cdata_start ++ s ++ k_cdata_end) ++ text) with (render (RCData s) ++ text) by reflexivity.
      apply (fine_cons keep (RCData s) open open [TText s]); [|reflexivity|exact F]. split; [exact CR|apply until_none; exact U].
  - intros scs toks _. cbn. destruct (resolve scs toks); reflexivity.
Qed.

Lemma one_piece : forall st k tk nt, raw_ok k -> (forall open, enter open (piece_of k) = Some (open, [tk])) ->
  (forall scs r, resolve scs (tk :: r) = napp [nt] (resolve scs r)) -> same_token nt nt -> says st (render k) [nt].
Proof.
  intros st k tk nt OK EN R S. exists [tk], [nt]. split; [|split; [intros scs toks _; apply R|constructor; [exact S|constructor]]].
  intros open toks text F. apply (fine_cons keep k open open [tk] toks text OK (EN open) F).
Qed.
Lemma tree_claim : forall t, claim t.
Proof.
  apply dtree_rect2; try (intros; intros above st G OK; cbn [stream_node fst snd tree_tokens]; split; [reflexivity|]; split; [lia|]).
  - intros n atts kids IH above st G OK. rewrite elem_ok_eq in OK. destruct OK as (OE & OA & ON & OK).
    destruct (start_tag above st n atts G OE OA ON) as (G2 & TL & NX & SH & pairs & a & OUT & AO & DE & DO & AN & PA).
    rewrite stream_elem_eq, elem_tokens_eq. cbv zeta. fold (pushed above st). destruct (node_name (pushed above st) n false) as [st1 nm]. cbn [fst snd] in *.
    destruct (stream_attrs st1 (ord atts)) as [st2 out]. cbn [fst snd] in *.
    assert (PM : p_maps st2 = hd [] (p_maps st2) :: p_maps st) by (destruct G2 as (_ & _ & _ & NE); destruct (p_maps st2); [congruence|cbn in *; congruence]).
    assert (EN : entries st2 = hd [] (p_maps st2) ++ concat (p_maps st)) by (unfold entries; rewrite PM at 1; reflexivity).
    destruct (element_resolves st2 n nm G2 OE SH) as (NN & ER).
    assert (RS : forall scs toks, hd [] scs = map swap (concat (p_maps st)) -> resolve scs (TStart nm pairs :: toks) =
       napp [NStart (d_uri n) (local_name n) a] (resolve (map swap (entries st2) :: scs) toks)).
    { intros scs toks H. cbn [resolve]. cbv zeta. rewrite DO, H, DE, <- map_app, <- EN, ER, AN. destruct (resolve (map swap (entries st2) :: scs) toks); reflexivity. }
    assert (SK : forall b, Forall2 same_token b (kids_tokens kids) -> Forall2 same_token ([NStart (d_uri n) (local_name n) a] ++ b ++ [NEnd (d_uri n) (local_name n)])
        (NStart (d_uri n) (local_name n) (tree_attrs atts) :: kids_tokens kids ++ [NEnd (d_uri n) (local_name n)])).
    { intros b F2. constructor; [cbn; auto|]. apply Forall2_app; [exact F2|]. repeat constructor. }
    destruct kids as [|k0 kids0] eqn:KE.
    + cbn [fst snd pop p_maps p_next]. split; [exact TL|]. split; [exact NX|].
      exists [TStart nm pairs; TEnd nm], ([NStart (d_uri n) (local_name n) a] ++ [] ++ [NEnd (d_uri n) (local_name n)]). split; [|split].
      * intros open toks text F. replace ((([60] ++ nm ++ out ++ stream_decls st2) ++ [47; 62]) ++ text) with (render (RStart nm pairs true) ++ text).
        { apply (fine_cons keep (RStart nm pairs true) open open [TStart nm pairs; TEnd nm]); [split; assumption|reflexivity|exact F]. }
        cbn [render]. rewrite OUT, <- !app_assoc. reflexivity.
      * intros scs toks H. change ([TStart nm pairs; TEnd nm] ++ toks) with (TStart nm pairs :: TEnd nm :: toks). rewrite RS by exact H. cbn [resolve hd tl]. rewrite ER.
        destruct (resolve scs toks); reflexivity.
      * apply SK. constructor.
    + rewrite <- KE in *. clear KE.
      destruct (kids_claim kids IH st2 G2 OK) as (KM & KN & T & N & TF & TR & TS). destruct (stream_kids st2 kids) as [st3 body]. cbn [fst snd] in *.
      assert (G3 : good_st st3) by (apply (good_next st2 st3 G2 KM KN)).
      assert (SH3 : shows (entries st3) false n nm) by (unfold entries; rewrite KM; exact SH).
      rewrite (node_name_again st3 n false nm (proj1 G3) SH3). cbn [fst snd pop p_maps p_next]. split; [rewrite KM; exact TL|]. split; [lia|].
      exists ([TStart nm pairs] ++ T ++ [TEnd nm]), ([NStart (d_uri n) (local_name n) a] ++ N ++ [NEnd (d_uri n) (local_name n)]). split; [|split].
      * intros open toks text F.
        replace ((([60] ++ nm ++ out ++ stream_decls st2) ++ [62] ++ body ++ [60; 47] ++ nm ++ [62]) ++ text)
          with (render (RStart nm pairs false) ++ body ++ render (REnd nm) ++ text).
        { rewrite <- !app_assoc. apply (fine_cons keep (RStart nm pairs false) open (nm :: open) [TStart nm pairs]); [split; assumption|reflexivity|].
          apply TF. apply (fine_cons keep (REnd nm) (nm :: open) open [TEnd nm]); [exact NN| |exact F]. cbn [piece_of enter]. rewrite text_is_refl. reflexivity. }
        cbn [render]. rewrite <- OUT, <- !app_assoc. reflexivity.
      * intros scs toks H. rewrite <- !app_assoc. change ([TStart nm pairs] ++ ?x) with (TStart nm pairs :: x). rewrite RS by exact H. rewrite TR by reflexivity.
        change ([TEnd nm] ++ toks) with (TEnd nm :: toks). cbn [resolve hd tl]. rewrite ER. destruct (resolve scs toks); [|reflexivity]. cbn [napp]. rewrite <- !app_assoc. reflexivity.
      * apply SK. exact TS.
  - exists [TText s], [NText s]. split; [|split; [|repeat constructor]].
    + intros open toks text F. apply (fine_text keep open toks s text OK F).
    + intros scs toks _. cbn. destruct (resolve scs toks); reflexivity.
  - destruct OK as (A & B). apply cdata_says; assumption.
  - apply (one_piece st (RComment s) (TComment s) (NComment s)); [exact OK|reflexivity| |reflexivity]. intros scs r. cbn. destruct (resolve scs r); reflexivity.
  - destruct d as [|c d].
    + apply (one_piece st (RWide t [32] []) (TPI t []) (NPI t [])); [split; [exact OK|split; [discriminate|split; [reflexivity|intros [X|[]]; discriminate X]]]|reflexivity| |reflexivity]. intros scs r. cbn. destruct (resolve scs r); reflexivity.
    + apply (one_piece st (RPI t (c :: d)) (TPI t (c :: d)) (NPI t (c :: d))); [exact OK|reflexivity| |reflexivity]. intros scs r. cbn. destruct (resolve scs r); reflexivity.
  - destruct OK.
  - apply says_nil.
Qed.
Lemma anc_good : forall anc m, Forall (fun a => d_uri a = [] \/ In (d_uri a, d_prefix a) tbl) anc ->
  good_st (PStack [m] 0) -> good_st (PStack [ancestor_prefixes anc m] 0).
Proof.
  induction anc as [|a anc IH]; intros m F G; [exact G|]. inversion F as [|? ? F1 F2]; subst. cbn [ancestor_prefixes]. apply IH; [exact F2|].
  destruct (d_uri a) as [|c u] eqn:U; [exact G|]. rewrite <- U in *. destruct F1 as [F1|F1]; [congruence|]. destruct (mm_find (d_uri a) m) as [q|] eqn:M; [exact G|].
  assert (D : is_uri_declared (p_maps (PStack [m] 0)) (d_uri a) = None) by (cbn; rewrite M; reflexivity).
  apply (set_good (PStack [m] 0) (d_uri a) (d_prefix a) 0 G D (tbl_new _ _ _ G D F1)); [cbn; lia|left; exact F1].
Qed.
Lemma one_says : forall anc t, Forall (fun a => d_uri a = [] \/ In (d_uri a, d_prefix a) tbl) anc -> expressible tbl dflt t ->
  says (PStack [] 0) (stream_one ord anc t) (tree_tokens t).
Proof.
  intros anc t F OK. apply tree_claim; [|exact OK]. apply (anc_good anc [] F). split; [constructor|]. split; [constructor|]. split; [constructor|discriminate].
Qed.
Lemma fragment_says : forall kids, Forall (expressible tbl dflt) kids -> says (PStack [] 0) (stream_fragment ord kids) (flat_map tree_tokens kids).
Proof.
  intros kids F. induction F as [|k r K F IH]; [apply says_nil|]. cbn [stream_fragment flat_map]. eapply says_app; [|apply one_says; [constructor|exact K]|exact IH]. reflexivity.
Qed.
End Tree.
End Scheme.

(** * Back to texts *)
Lemma resolve_join : forall l scs run, resolve scs (join_acc run l) = match resolve scs l with Some n => Some (njoin_acc run n) | None => None end.
Proof.
  induction l as [|t l IH]; intros scs run.
  - destruct run; reflexivity.
  - destruct t as [n atts|n|s|s|t d].
    + cbn [join_acc]. assert (X : forall r, resolve scs (text_tok run ++ r) = match resolve scs r with Some n => Some (ntext run ++ n) | None => None end)
        by (intros r; destruct run; cbn; destruct (resolve scs r); reflexivity).
      rewrite X. cbn [resolve]. rewrite IH. destruct (forallb declaration_ok (declarations atts)); [|reflexivity].
      destruct (element_name _ n) as [[u x]|]; [|reflexivity]. destruct (attribute_names _ _); [|reflexivity]. destruct (resolve _ l); reflexivity.
    + cbn [join_acc]. assert (X : forall r, resolve scs (text_tok run ++ r) = match resolve scs r with Some n => Some (ntext run ++ n) | None => None end)
        by (intros r; destruct run; cbn; destruct (resolve scs r); reflexivity).
      rewrite X. cbn [resolve]. rewrite IH. destruct (element_name _ n) as [[u x]|]; [|reflexivity]. destruct (resolve _ l); reflexivity.
    + cbn [join_acc resolve]. rewrite IH. destruct (resolve scs l); reflexivity.
    + cbn [join_acc]. assert (X : forall r, resolve scs (text_tok run ++ r) = match resolve scs r with Some n => Some (ntext run ++ n) | None => None end)
        by (intros r; destruct run; cbn; destruct (resolve scs r); reflexivity).
      rewrite X. cbn [resolve]. rewrite IH. destruct (resolve _ l); reflexivity.
    + cbn [join_acc]. assert (X : forall r, resolve scs (text_tok run ++ r) = match resolve scs r with Some n => Some (ntext run ++ n) | None => None end)
        by (intros r; destruct run; cbn; destruct (resolve scs r); reflexivity).
      rewrite X. cbn [resolve]. rewrite IH. destruct (resolve _ l); reflexivity.
Qed.
Lemma njoin_same : forall a b, Forall2 same_token a b -> forall run, Forall2 same_token (njoin_acc run a) (njoin_acc run b).
Proof.
  assert (T : forall run, Forall2 same_token (ntext run) (ntext run)) by (intros [|c r]; repeat constructor).
  intros a b F. induction F as [|x y a b S F IH]; intros run; [apply T|].
  destruct x; destruct y; cbn [same_token] in S; try discriminate; try contradiction; try (injection S as E1 E2; subst); try (injection S as E1; subst); cbn [njoin_acc];
    try (apply Forall2_app; [apply T|]; constructor; [cbn; auto|apply IH]); try apply IH.
  all: destruct S as (-> & -> & P); auto.
Qed.
Lemma says_read : forall out want, says (PStack [] 0) out want ->
  exists l n, read_content_text out = Some l /\ resolve [[]] l = Some n /\ Forall2 same_token n (njoin want).
Proof.
  intros out want (T & N & F & R & S). pose proof (F [] [] [] (fine_nil keep)) as FN. rewrite !app_nil_r in FN.
  destruct (fine_read keep T out FN) as (l & RD & JL & J). unfold keep in J. rewrite !keep_all in J. exists l, (njoin N). split; [exact RD|]. split.
  - rewrite <- JL, J. unfold join. rewrite resolve_join. rewrite <- (app_nil_r T), R by reflexivity. cbn. rewrite app_nil_r. reflexivity.
  - apply njoin_same. exact S.
Qed.
Lemma stream_node_lemma : forall ord tbl dflt anc t, (forall l, Permutation (ord l) l) -> scheme_ok tbl dflt ->
  Forall (fun a => d_uri a = [] \/ In (d_uri a, d_prefix a) tbl) anc -> expressible tbl dflt t ->
  exists l n, read_content_text (stream_one ord anc t) = Some l /\ resolve [[]] l = Some n /\ Forall2 same_token n (njoin (tree_tokens t)).
Proof. intros ord tbl dflt anc t P S A E. apply says_read. eapply one_says; eauto. Qed.
Lemma stream_document_lemma : forall ord tbl dflt kids, (forall l, Permutation (ord l) l) -> scheme_ok tbl dflt ->
  Forall (expressible tbl dflt) kids ->
  exists l n, read_xml (stream_document ord kids) = Some ([(k_version, [49; 46; 48])], l) /\ resolve [[]] l = Some n /\
    Forall2 same_token n (njoin (NText [10] :: flat_map tree_tokens kids)).
Proof.
  intros ord tbl dflt kids P S F. pose proof (fragment_says tbl dflt S ord P kids F) as SF.
  assert (SL : says (PStack [] 0) ([10] ++ stream_fragment ord kids) ([NText [10]] ++ flat_map tree_tokens kids)).
  { eapply says_app; [reflexivity| |exact SF]. apply (one_piece (PStack [] 0) (RChar 10) (TText [10]) (NText [10])); [discriminate|reflexivity| |reflexivity].
    intros scs r. cbn. destruct (resolve scs r); reflexivity. }
  destruct (says_read _ _ SL) as (l & n & RD & RS & SM). exists l, n. split; [|split; assumption]. unfold stream_document.
  assert (E : k_declaration ++ stream_fragment ord kids = [60; 63; 120; 109; 108] ++ render_attrs (declared []) ++ [63; 62] ++ ([10] ++ stream_fragment ord kids)) by reflexivity.
  rewrite E. unfold read_xml. rewrite eol_id.
  - rewrite read_decl_render, RD. reflexivity.
  - destruct SL as (T & N & FN & _). pose proof (FN [] [] [] (fine_nil keep)) as FX. rewrite !app_nil_r in FX.
    intros H. apply in_app_or in H; destruct H as [H|H]; [cbn in H; lia|].
    apply in_app_or in H; destruct H as [H|H]; [revert H; apply render_attrs_cr; apply (proj1 (declared_ok []))|].
    apply in_app_or in H; destruct H as [H|H]; [cbn in H; lia|]. revert H. exact (fine_nocr _ _ _ _ FX).
Qed.

(** * The names of start and end tags, for every tree *)
Lemma mm_find_set : forall (u v p : str) m, mm_find u (map_set v p m) = if str_eqb v u then Some p else mm_find u m.
Proof.
  intros u v p. induction m as [|[k q] m IH]; [reflexivity|]. cbn [map_set mm_find]. destruct (str_eqb k v) eqn:KV.
  - apply str_eqb_true in KV. subst k. cbn [mm_find]. destruct (str_eqb v u); reflexivity.
  - destruct (str_ltb v k); [reflexivity|]. cbn [mm_find]. rewrite IH. destruct (str_eqb k u) eqn:KU; [|reflexivity].
    apply str_eqb_true in KU. subst k. rewrite str_eqb_sym, KV. reflexivity.
Qed.
Definition keeps (st st' : pstack) : Prop :=
  tl (p_maps st') = tl (p_maps st) /\ (p_maps st <> [] -> p_maps st' <> []) /\
  forall u p, is_uri_declared (p_maps st) u = Some p -> is_uri_declared (p_maps st') u = Some p.
Lemma keeps_refl : forall st, keeps st st. Proof. intros st. repeat split; auto. Qed.
Lemma keeps_trans : forall a b c, keeps a b -> keeps b c -> keeps a c.
Proof. intros a b c (A & B & C) (D & E & F). repeat split; [congruence|auto|auto]. Qed.
Lemma set_keeps : forall st u p k, is_uri_declared (p_maps st) u = None -> keeps st (set_current st u p k).
Proof.
  intros st u p k N. unfold set_current. destruct (p_maps st) as [|m r] eqn:M; unfold keeps; rewrite M; cbn [p_maps tl]; repeat split; auto; try discriminate.
  intros v q H. cbn [is_uri_declared] in *. rewrite mm_find_set. destruct (str_eqb u v) eqn:E; [|exact H]. apply str_eqb_true in E. subst v. rewrite H in N. discriminate.
Qed.
Lemma node_name_keeps : forall st n b, keeps st (fst (node_name st n b)).
Proof.
  intros st n b. unfold node_name. destruct (d_uri n) as [|c u] eqn:U; [apply keeps_refl|]. rewrite <- U. destruct (is_uri_declared (p_maps st) (d_uri n)) as [p|] eqn:D; [apply keeps_refl|].
  destruct (d_prefix n) as [|x y]; [destruct b|]; apply set_keeps; exact D.
Qed.
Lemma stream_attrs_keeps : forall atts st, keeps st (fst (stream_attrs st atts)).
Proof.
  induction atts as [|[n v] atts IH]; intros st; [apply keeps_refl|]. cbn [stream_attrs]. destruct (skipped n); [apply IH|].
  pose proof (node_name_keeps st n true) as K. destruct (node_name st n true) as [st1 nm]. pose proof (IH st1) as K2. destruct (stream_attrs st1 atts) as [st2 out]. cbn [fst] in *.
  eapply keeps_trans; eauto.
Qed.
Lemma stream_node_maps : forall ord t above st, p_maps (fst (stream_node ord above st t)) = p_maps st.
Proof.
  intros ord. apply (dtree_rect2 (fun t => forall above st, p_maps (fst (stream_node ord above st t)) = p_maps st)); try reflexivity.
  intros n atts kids F above st. rewrite stream_elem_eq. cbv zeta. pose proof (node_name_keeps (PStack (above :: p_maps st) (p_next st)) n false) as K1.
  destruct (node_name _ n false) as [st1 nm]. pose proof (stream_attrs_keeps (ord atts) st1) as K2. destruct (stream_attrs st1 (ord atts)) as [st2 out]. cbn [fst] in *.
  pose proof (keeps_trans _ _ _ K1 K2) as (K & _ & _). cbn [p_maps tl] in K. destruct kids as [|k0 ks] eqn:KE; [exact K|]. rewrite <- KE in *. clear KE.
  assert (KM : forall l st, Forall (fun t => forall above st, p_maps (fst (stream_node ord above st t)) = p_maps st) l -> p_maps (fst (stream_kids ord st l)) = p_maps st).
  { induction l as [|k l IH]; intros s FL; [reflexivity|]. inversion FL as [|? ? F1 F2]; subst. cbn [stream_kids]. pose proof (F1 [] s) as A. destruct (stream_node ord [] s k) as [s1 a].
    pose proof (IH s1 F2) as B. destruct (stream_kids ord s1 l) as [s2 b]. cbn [fst] in *. congruence. }
  pose proof (KM kids st2 F) as M3. destruct (stream_kids ord st2 kids) as [st3 body]. cbn [fst] in M3. pose proof (node_name_keeps st3 n false) as (K4 & _ & _).
  destruct (node_name st3 n false) as [st4 nm2]. cbn [fst pop p_maps] in *. rewrite K4, M3. exact K.
Qed.
Lemma stream_kids_maps : forall ord l st, p_maps (fst (stream_kids ord st l)) = p_maps st.
Proof.
  intros ord. induction l as [|k l IH]; intros s; [reflexivity|]. cbn [stream_kids]. pose proof (stream_node_maps ord k [] s) as A. destruct (stream_node ord [] s k) as [s1 a].
  pose proof (IH s1) as B. destruct (stream_kids ord s1 l) as [s2 b]. cbn [fst] in *. congruence.
Qed.
Lemma set_found : forall st u p k, p_maps st <> [] -> is_uri_declared (p_maps (set_current st u p k)) u = Some p.
Proof.
  intros st u p k N. unfold set_current. destruct (p_maps st) as [|m r]; [congruence|]. cbn [p_maps is_uri_declared]. rewrite mm_find_set.
  assert (str_eqb u u = true) as -> by (apply str_eqb_true; reflexivity). reflexivity.
Qed.
Lemma node_name_found : forall st n b, p_maps st <> [] -> d_uri n <> [] ->
  exists p, is_uri_declared (p_maps (fst (node_name st n b))) (d_uri n) = Some p /\ snd (node_name st n b) = with_prefix p (d_local n).
Proof.
  intros st n b M U. unfold node_name. destruct (d_uri n) as [|c u] eqn:E; [congruence|]. rewrite <- E in *. destruct (is_uri_declared (p_maps st) (d_uri n)) as [p|] eqn:D; [exists p; auto|].
  destruct (d_prefix n) as [|x y]; [destruct b|]; cbn [fst snd]; eexists; (split; [apply set_found; exact M|reflexivity]).
Qed.
Lemma tags_lemma : forall ord above st n atts kids, kids <> [] -> exists name middle,
  snd (stream_node ord above st (DElem n atts kids)) = [60] ++ name ++ middle ++ [60; 47] ++ name ++ [62] /\
  name = match d_uri n with [] => d_name n | _ => match is_uri_declared (above :: p_maps st) (d_uri n) with Some p => with_prefix p (d_local n) | None => with_prefix (d_prefix n) (d_local n) end end.
Proof.
  intros ord above st n atts kids NK. rewrite stream_elem_eq. cbv zeta. set (st0 := PStack (above :: p_maps st) (p_next st)).
  destruct kids as [|k0 ks] eqn:KE; [congruence|]. rewrite <- KE in *. clear KE NK.
  assert (NM : snd (node_name st0 n false) = match d_uri n with [] => d_name n | _ => match is_uri_declared (above :: p_maps st) (d_uri n) with Some p => with_prefix p (d_local n) | None => with_prefix (d_prefix n) (d_local n) end end).
  { unfold node_name. destruct (d_uri n) as [|c u] eqn:E; [reflexivity|]. rewrite <- E in *. change (p_maps st0) with (above :: p_maps st). destruct (is_uri_declared (above :: p_maps st) (d_uri n)); [reflexivity|].
    destruct (d_prefix n); reflexivity. }
  assert (F1 : d_uri n <> [] -> exists p, is_uri_declared (p_maps (fst (node_name st0 n false))) (d_uri n) = Some p /\ snd (node_name st0 n false) = with_prefix p (d_local n)) by (intros U; apply node_name_found; [discriminate|exact U]).
  assert (U0 : d_uri n = [] -> snd (node_name st0 n false) = d_name n) by (intros U; unfold node_name; rewrite U; reflexivity).
  destruct (node_name st0 n false) as [st1 nm]. cbn [fst snd] in *. pose proof (stream_attrs_keeps (ord atts) st1) as (_ & _ & K2). destruct (stream_attrs st1 (ord atts)) as [st2 out]. cbn [fst] in *.
  pose proof (stream_kids_maps ord kids st2) as M3. destruct (stream_kids ord st2 kids) as [st3 body]. cbn [fst] in M3.
  assert (AG : snd (node_name st3 n false) = nm).
  { unfold node_name. destruct (d_uri n) as [|c u] eqn:E; [cbn; symmetry; apply U0; reflexivity|]. rewrite <- E in *. destruct F1 as (p & D & ->); [rewrite E; discriminate|].
    rewrite M3, (K2 _ _ D). reflexivity. }
  destruct (node_name st3 n false) as [st4 nm2]. cbn [snd] in *. subst nm2. exists nm, ((out ++ stream_decls st2) ++ [62] ++ body). split; [rewrite <- !app_assoc; reflexivity|exact NM].
Qed.
