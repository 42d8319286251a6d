(** Calls that are good, nested and well named give a tree to the reader. *)
From Coq Require Import String Lia ZArith.
From Verif.Model Require Import Base Containers Attrs XSort XOutput XSink.
From Verif.Model Require NsSupport Text.
From Verif.Spec Require Import TextSpec XmlRead XOutputSpec XSinkSpec XResultSpec.
From Verif.Spec Require NsTree.
From Verif.Proof Require Import ContainersProof XOutputText XOutputProof XOutputNames XSinkRead XSinkResult.
From Verif.Proof Require StreamProof.
From Coq Require Import List Bool.
Import ListNotations.
Open Scope Z_scope.

(** * Names *)
Lemma ncname_join : forall p l, (p = [] \/ ncname p) -> ncname l -> is_name (make_name p l).
Proof.
  intros p l P (L & _). destruct P as [->|((P1 & P2) & _)]; [exact L|]. unfold make_name. destruct p as [|c p]; [congruence|]. split; [discriminate|]. rewrite !forallb_app, P2, (proj2 L). reflexivity.
Qed.
Lemma any_name : forall a, any_att a -> is_name (a_qname a).
Proof.
  intros a [(p & E & (P & _) & L & _)|((p, u) & -> & ((P & _) & _) & _)].
  - rewrite E. apply ncname_join; assumption.
  - unfold declaration. cbn [a_qname fst] in *. destruct p as [|c p]; [split; [discriminate|reflexivity]|]. destruct P as [P|((_ & P) & _)]; [discriminate|]. split; [discriminate|]. rewrite forallb_app, P. reflexivity.
Qed.
Lemma at_colon_none : forall s, ~ In 58 s -> NsTree.at_colon s = None.
Proof. induction s as [|c s IH]; cbn; intros N; [reflexivity|]. destruct (Z.eqb_spec c 58); [exfalso; apply N; auto|]. rewrite IH; tauto. Qed.
Lemma at_colon_some : forall p l, ~ In 58 p -> NsTree.at_colon (p ++ 58 :: l) = Some (p, l).
Proof. induction p as [|c p IH]; intros l N; cbn; [reflexivity|]. cbn in N. destruct (Z.eqb_spec c 58); [tauto|]. rewrite IH by tauto. reflexivity. Qed.
Lemma split_make : forall p l, (p = [] \/ ncname p) -> ncname l -> NsTree.split_name (make_name p l) = Some (p, l).
Proof.
  intros p l P ((L1 & _) & L2). unfold NsTree.split_name. destruct P as [->|((P1 & _) & P2)].
  - cbn [make_name]. rewrite at_colon_none by exact L2. reflexivity.
  - unfold make_name. destruct p as [|c p]; [congruence|]. cbn [app]. change (c :: p ++ 58 :: l) with ((c :: p) ++ 58 :: l). rewrite at_colon_some by exact P2. destruct l; [congruence|]. rewrite at_colon_none by exact L2. reflexivity.
Qed.
Lemma text_eqb : forall a b, text_is a b = str_eqb a b.
Proof. intros a b. unfold text_is. destruct (list_eq_dec Z.eq_dec a b) as [->|N]; symmetry; [apply str_eqb_true; reflexivity|apply str_eqb_false; exact N]. Qed.
Lemma ncname_plain : forall p, p = [] \/ ncname p -> plain_name p.
Proof. intros p [->|(_ & N)]; [intros []|exact N]. Qed.

(** * Bindings *)
Lemma bound_concat : forall scs p u, XOutputSpec.bound scs p = u -> u <> [] -> NsTree.bound (concat scs) p = Some u.
Proof.
  induction scs as [|s scs IH]; cbn [XOutputSpec.bound concat]; intros p u B N; [congruence|]. revert B. induction s as [|(q, v) s IHs]; cbn [find app NsTree.bound fst]; intros B; [exact (IH p u B N)|]. rewrite text_eqb. destruct (str_eqb q p); [cbn [snd] in B; congruence|exact (IHs B)].
Qed.
Lemma bound_none : forall scs, Forall (Forall (fun b : str * str => snd b <> [])) scs -> XOutputSpec.bound scs [] = [] -> NsTree.bound (concat scs) [] = None.
Proof.
  intros scs F. induction F as [|s scs H F IH]; cbn [XOutputSpec.bound concat]; intros B; [reflexivity|]. revert B. induction H as [|(q, v) s H Hs IHs]; cbn [find app NsTree.bound fst]; intros B; [exact (IH B)|]. rewrite text_eqb. destruct (str_eqb q []); [cbn [snd] in *; congruence|exact (IHs B)].
Qed.
Definition scopes_good (scs : list (list (str * str))) : Prop := Forall (Forall (fun b : str * str => snd b <> [])) scs.
Lemma element_name_ok : forall scs p l u, scopes_good scs -> (p = [] \/ ncname p) -> ncname l -> (u = [] -> p = []) -> XOutputSpec.bound scs p = u -> NsTree.element_name (concat scs) (make_name p l) = Some (u, l).
Proof.
  intros scs p l u G P L U B. unfold NsTree.element_name. rewrite split_make by assumption. destruct u as [|c u].
  - rewrite (U eq_refl) in *. rewrite bound_none by assumption. reflexivity.
  - apply bound_concat in B; [|discriminate]. destruct p; rewrite B; reflexivity.
Qed.

(** * Attributes *)
Definition pair_of (a : attr) : str * str := (a_qname a, a_value a).
Lemma own_declares : forall a, own_att a -> XOutputSpec.declares a = None /\ NsTree.declares (a_qname a) = None.
Proof.
  intros a (p & E & (P & X) & L & Y & _). split.
  - apply (declares_name p (a_local a) a E); [apply ncname_plain; exact P|exact (proj2 L)|exact X|intros _; exact Y].
  - unfold NsTree.declares. rewrite E, split_make by assumption. rewrite !text_eqb. change NsSupport.s_xmlns with xmlns. destruct p; [rewrite (proj2 (str_eqb_false (a_local a) _) Y); reflexivity|rewrite (proj2 (str_eqb_false _ _) X); reflexivity].
Qed.
Lemma declaration_declares : forall b, binding b -> NsTree.declares (a_qname (declaration b)) = Some (fst b).
Proof.
  intros (p, u) ((P & _) & _). unfold declaration, NsTree.declares. cbn [a_qname fst] in *. destruct p as [|c p]; [vm_compute; reflexivity|]. destruct P as [P|P]; [discriminate|].
  change (ascii_str "xmlns:" ++ c :: p) with (make_name xmlns (c :: p)). rewrite split_make; [|right; split; [split; [discriminate|reflexivity]|vm_compute; intuition discriminate]|exact P]. reflexivity.
Qed.
Lemma declarations_same : forall atts, Forall any_att atts -> NsTree.declarations (map pair_of atts) = XOutputSpec.declared atts.
Proof.
  intros atts F. induction F as [|a atts H F IH]; [reflexivity|]. unfold XOutputSpec.declared in *. cbn [map pair_of NsTree.declarations flat_map]. destruct H as [H|(b & -> & B & N)].
  - destruct (own_declares a H) as (D1 & D2). rewrite D1, D2. exact IH.
  - rewrite declaration_declares by exact B. rewrite declares_declaration, IH. reflexivity.
Qed.
Lemma declared_good : forall atts, Forall any_att atts -> Forall (fun b => binding b /\ fst b <> ascii_str "xml") (XOutputSpec.declared atts).
Proof.
  intros atts F. unfold XOutputSpec.declared. induction F as [|a atts H F IH]; [apply Forall_nil|]. cbn [flat_map]. apply Forall_app. split; [|exact IH]. destruct H as [H|(b & -> & B & N)].
  - rewrite (proj1 (own_declares a H)). apply Forall_nil.
  - rewrite declares_declaration. apply Forall_cons; [|apply Forall_nil]. destruct b; exact (conj B N).
Qed.
Lemma declarations_ok : forall l, Forall (fun b => binding b /\ fst b <> ascii_str "xml") l -> forallb NsTree.declaration_ok l = true.
Proof.
  intros l F. apply forallb_forall. intros (p, u) I. rewrite Forall_forall in F. apply F in I. destruct I as (((P & X) & U & W) & N). cbn [fst snd] in *. unfold NsTree.declaration_ok. cbn [fst snd]. rewrite !text_eqb. change NsSupport.s_xmlns with xmlns. change NsSupport.s_xml with (ascii_str "xml").
  rewrite (proj2 (str_eqb_false p _) X), (proj2 (str_eqb_false p (ascii_str "xml")) N), (proj2 (str_eqb_false u _) W). destruct p, u; try reflexivity; congruence.
Qed.
Lemma attributes_ok : forall scs atts, Forall any_att atts ->
  (forall a, In a atts -> XOutputSpec.declares a = None -> a_uri a = match prefix_of (a_qname a) with [] => [] | p => XOutputSpec.bound scs p end) ->
  NoDup (map fst (plain_atts atts)) ->
  NsTree.attribute_names (concat scs) (NsTree.plain (map pair_of atts)) = Some (plain_atts atts).
Proof.
  intros scs atts F. unfold plain_atts, NsTree.plain. induction F as [|a atts H F IH]; intros B N; [reflexivity|]. cbn [map filter pair_of fst] in *. destruct H as [H|(b & -> & HB & NX)].
  - destruct (own_declares a H) as (D1 & D2). rewrite D1 in *. rewrite D2. cbn [map fst] in N. inversion N as [|x l N1 N2]; subst. cbn [NsTree.attribute_names map pair_of]. rewrite IH; [|intros c I; apply B; right; exact I|exact N2].
    pose proof (B a (or_introl eq_refl) D1) as BA. destruct H as (p & E & (P & X) & L & Y & U).
    assert (PA : NsTree.attribute_name (concat scs) (a_qname a) = Some (a_uri a, a_local a)).
    { unfold NsTree.attribute_name. rewrite E in *. rewrite split_make by assumption. rewrite (proj1 (make_name_parts p (a_local a) (ncname_plain p P) (proj2 L))) in BA. destruct p as [|c p]; [rewrite BA; reflexivity|]. rewrite (bound_concat scs (c :: p) (a_uri a)); [reflexivity|auto|intros Z; specialize (U Z); discriminate]. }
    rewrite PA. cbn [fst snd]. match goal with |- context [existsb ?f ?l] => destruct (existsb f l) eqn:EX end; [|reflexivity]. exfalso. apply existsb_exists in EX. destruct EX as (((u, l), v) & I & T). cbn [fst snd] in T. apply andb_true_iff in T. destruct T as (T1 & T2). rewrite text_eqb in T1, T2. apply str_eqb_true in T1. apply str_eqb_true in T2. subst u l. apply N1. apply in_map_iff. exists (a_uri a, a_local a, v). auto.
  - rewrite declares_declaration in *. rewrite declaration_declares by exact HB. apply IH; [intros c I; apply B; right; exact I|exact N].
Qed.

(** * Events *)
Definition event_ntok (e : event) : list NsTree.ntok :=
  match e with
  | Start q u atts => [NsTree.NStart u (local_of q) (plain_atts atts)]
  | End_ q u => [NsTree.NEnd u (local_of q)]
  | Chars s => [NsTree.NText s]
  | Comment s => [NsTree.NComment s]
  | Pi t d => [NsTree.NPI t (drop_white d)]
  | StartCdata | EndCdata | Escaping _ => []
  end.
Fixpoint suffixes (scs : list (list (str * str))) : list (list (str * str)) := match scs with [] => [[]] | s :: r => concat (s :: r) :: suffixes r end.
Lemma suffixes_hd : forall scs, hd [] (suffixes scs) = concat scs.
Proof. destruct scs; reflexivity. Qed.
Inductive opens : list (str * str) -> list (list (str * str)) -> Prop :=
| OpensNil : opens [] []
| OpensCons : forall q u o s scs, NsTree.element_name (concat (s :: scs)) q = Some (u, local_of q) -> opens o scs -> opens ((q, u) :: o) (s :: scs).
Lemma follow_none : forall evs, fold_left follow evs None = None.
Proof. induction evs; [reflexivity|exact IHevs]. Qed.
Definition started_ok (e : event) : Prop := match e with Start _ _ atts => NoDup (map fst (plain_atts atts)) | _ => True end.
Lemma resolve_events : forall b c evs scs open cd, Forall (event_good b c) evs -> Forall started_ok evs -> all_names_ok scs evs -> scopes_good scs -> opens open scs ->
  fold_left follow evs (Some (open, cd)) = Some ([], false) -> NsTree.resolve (suffixes scs) (flat_map event_tok evs) = Some (flat_map event_ntok evs).
Proof.
  intros b c. induction evs as [|e evs IH]; intros scs open cd G S N SG O F; [reflexivity|]. inversion G as [|x l GE G']; subst x l. inversion S as [|x l SE S']; subst x l. cbn [fold_left] in F.
  destruct (follow (Some (open, cd)) e) as [(open', cd')|] eqn:FE; [|rewrite follow_none in F; discriminate].
  destruct cd; cbn [follow] in FE.
  - destruct e; try discriminate; injection FE as <- <-; cbn [all_names_ok] in N; cbn [flat_map event_tok event_ntok app NsTree.resolve]; rewrite ?(IH scs open _ G' S' N SG O F); reflexivity.
  - destruct e as [q u atts|q u|s| | |s|t d|x]; try discriminate.
    + injection FE as <- <-. cbn [all_names_ok] in N. destruct N as ((N1 & N2 & N3) & N4). destruct GE as ((p & l & E & (P & X) & L & U) & A). cbn [flat_map event_tok event_ntok app NsTree.resolve]. change (map (fun a : attr => (a_qname a, a_value a)) atts) with (map pair_of atts). rewrite declarations_same by exact A.
      pose proof (declared_good atts A) as DG. rewrite (declarations_ok _ DG), suffixes_hd. change (declared atts ++ concat scs) with (concat (declared atts :: scs)).
      assert (SG' : scopes_good (declared atts :: scs)). { apply Forall_cons; [|exact SG]. eapply Forall_impl; [|exact DG]. intros z ((_ & Z & _) & _). exact Z. }
      destruct (make_name_parts p l (ncname_plain p P) (proj2 L)) as (E1 & E2). subst q. rewrite E1 in N1. assert (EN : NsTree.element_name (concat (declared atts :: scs)) (make_name p l) = Some (u, local_of (make_name p l))). { rewrite E2. apply element_name_ok; auto. }
      rewrite EN, (attributes_ok (declared atts :: scs) atts A N2 SE). change (concat (declared atts :: scs) :: suffixes scs) with (suffixes (declared atts :: scs)).
      rewrite (IH (declared atts :: scs) ((make_name p l, u) :: open) false G' S' N4 SG'); [reflexivity|constructor; assumption|exact F].
    + destruct open as [|(q', u') open0]; [discriminate|]. destruct (str_eqb q q' && str_eqb u u') eqn:EQ; [|discriminate]. injection FE as <- <-. apply andb_true_iff in EQ. destruct EQ as (E1 & E2). apply str_eqb_true in E1. apply str_eqb_true in E2. subst q' u'. inversion O as [|q0 u0 o0 s0 scs0 EN O']; subst. cbn [all_names_ok tl] in N. cbn [flat_map event_tok event_ntok app NsTree.resolve]. rewrite suffixes_hd, EN. cbn [suffixes tl]. inversion SG; subst. rewrite (IH scs0 open0 false G' S' N); auto.
    + injection FE as <- <-. cbn [all_names_ok] in N. cbn [flat_map event_tok event_ntok app NsTree.resolve]. rewrite (IH scs open _ G' S' N SG O F). reflexivity.
    + injection FE as <- <-. cbn [all_names_ok] in N. cbn [flat_map event_tok event_ntok app NsTree.resolve]. exact (IH scs open _ G' S' N SG O F).
    + injection FE as <- <-. cbn [all_names_ok] in N. cbn [flat_map event_tok event_ntok app NsTree.resolve]. rewrite (IH scs open _ G' S' N SG O F). reflexivity.
    + injection FE as <- <-. cbn [all_names_ok] in N. cbn [flat_map event_tok event_ntok app NsTree.resolve]. rewrite (IH scs open _ G' S' N SG O F). reflexivity.
    + destruct GE.
Qed.

Lemma comment_both : forall s, XOutputSpec.comment_ok s -> ~ In 13 s -> XmlRead.comment_ok s.
Proof.
  intros s (A & B) N. split; [exact N|]. intros (x & y & E). induction y as [|c y _] using rev_ind.
  - rewrite app_nil_r in E. change [45; 45] with ([45] ++ [45]) in E. rewrite app_assoc in E. apply app_inj_tail in E. destruct E as (E & _). apply B. exists x. exact E.
  - rewrite !app_assoc in E. apply app_inj_tail in E. destruct E as (E & _). apply A. exists x, y. rewrite <- app_assoc in E. exact E.
Qed.
Lemma writable_events : forall b c evs scs open (cd : bool), (b = true -> c = []) -> Forall (event_good b c) evs -> (forall e, In e evs -> match e with Comment s => XOutputSpec.comment_ok s | Pi _ s => XOutputSpec.pi_ok s | _ => True end) ->
  all_names_ok scs evs -> (if cd then c <> [] else True) -> fold_left follow evs (Some (open, cd)) = Some ([], false) -> forall t, ~ In 93 t -> writable (map fst open) (if cd then Some t else None) evs.
Proof.
  intros b c evs. induction evs as [|e evs IH]; intros scs open cd BC G W N CD F t T.
  - cbn in F. injection F as -> ->. reflexivity.
  - inversion G as [|x l GE G']; subst x l. pose proof (W e (or_introl eq_refl)) as WE. assert (W' : forall e, In e evs -> match e with Comment s => XOutputSpec.comment_ok s | Pi _ s => XOutputSpec.pi_ok s | _ => True end) by (intros e0 I; apply W; right; exact I). cbn [fold_left] in F.
    destruct (follow (Some (open, cd)) e) as [(open', cd')|] eqn:FE; [|rewrite follow_none in F; discriminate].
    destruct cd; cbn [follow] in FE.
    + destruct e as [q u atts|q u|s| | |s|tg d|x]; try discriminate; injection FE as <- <-; cbn [all_names_ok] in N; cbn [writable].
      * destruct GE as (G1 & G2). assert (b = false) by (destruct b; [destruct (CD (BC eq_refl))|reflexivity]). split; [exact G1|]. left. assert (X : ~ In 93 (t ++ s)) by (rewrite in_app_iff; intuition). split; [|exact (IH scs open true BC G' W' N CD F _ X)]. intros (p & q & E). apply X. rewrite E. apply in_or_app. right. left. reflexivity.
      * exact (IH scs open false BC G' W' N Logic.I F [] (fun x => x)).
      * destruct GE.
    + destruct e as [q u atts|q u|s| | |s|tg d|x]; try discriminate.
      * injection FE as <- <-. cbn [all_names_ok] in N. destruct N as ((_ & _ & N3) & N4). destruct GE as ((p & l & E & (P & X) & L & U) & A). cbn [writable]. split; [subst q; apply ncname_join; assumption|]. split; [|split; [exact N3|exact (IH _ _ false BC G' W' N4 Logic.I F [] (fun x => x))]]. apply Forall_forall. intros n I. apply in_map_iff in I. destruct I as (a & <- & I). apply any_name. rewrite Forall_forall in A. exact (A a I).
      * destruct open as [|(q', u') open0]; [discriminate|]. destruct (str_eqb q q' && str_eqb u u') eqn:EQ; [|discriminate]. injection FE as <- <-. apply andb_true_iff in EQ. destruct EQ as (E1 & E2). apply str_eqb_true in E1. subst q'. cbn [all_names_ok] in N. cbn [writable map fst]. split; [reflexivity|exact (IH _ _ false BC G' W' N Logic.I F [] (fun x => x))].
      * injection FE as <- <-. cbn [all_names_ok] in N. cbn [writable]. split; [apply GE|exact (IH _ _ false BC G' W' N Logic.I F [] (fun x => x))].
      * injection FE as <- <-. cbn [all_names_ok] in N. cbn [writable]. exact (IH _ _ true BC G' W' N GE F [] (fun x => x)).
      * injection FE as <- <-. cbn [all_names_ok] in N. cbn [writable]. split; [apply comment_both; [exact WE|exact GE]|exact (IH _ _ false BC G' W' N Logic.I F [] (fun x => x))].
      * injection FE as <- <-. cbn [all_names_ok] in N. cbn [writable]. destruct GE as ((T1 & T2) & T3). split; [exact T1|]. split; [exact T2|]. split; [exact T3|]. split; [exact WE|]. exact (IH _ _ false BC G' W' N Logic.I F [] (fun x => x)).
      * destruct GE.
Qed.
(** * The tree *)
Fixpoint weave (ps : list piece) (ss : list started) : list NsTree.ntok :=
  match ps with
  | [] => []
  | PStart l u :: ps => match ss with (l', u', atts) :: ss => NsTree.NStart u' l' atts :: weave ps ss | [] => NsTree.NStart u l [] :: weave ps [] end
  | PEnd l u :: ps => NsTree.NEnd u l :: weave ps ss
  | PText s :: ps => NsTree.NText s :: weave ps ss
  | PComment s :: ps => NsTree.NComment s :: weave ps ss
  | PPi t d :: ps => NsTree.NPI t d :: weave ps ss
  end.
Definition begins (ps : list piece) : nat := length (filter (fun p => match p with PStart _ _ => true | _ => false end) ps).
Lemma begins_app : forall a b, begins (a ++ b) = (begins a + begins b)%nat.
Proof. intros a b. unfold begins. rewrite filter_app, app_length. reflexivity. Qed.
Lemma weave_app : forall a s b t, begins a = length s -> weave (a ++ b) (s ++ t) = weave a s ++ weave b t.
Proof.
  induction a as [|p a IH]; intros s b t E.
  - destruct s; [reflexivity|discriminate].
  - destruct p; cbn [app weave]; unfold begins in E; cbn [filter length] in E; try (rewrite IH by exact E; reflexivity). destruct s as [|((l, u), at_) s]; [discriminate|]. cbn [app]. rewrite IH by (injection E; auto). reflexivity.
Qed.
Lemma weave_flat : forall l, Forall (fun i => begins (denote i) = length (starts i) /\ result_tokens i = weave (denote i) (starts i)) l ->
  begins (flat_map denote l) = length (flat_map starts l) /\ flat_map result_tokens l = weave (flat_map denote l) (flat_map starts l).
Proof.
  intros l F. induction F as [|i l (B & H) F (IB & IH)]; [split; reflexivity|]. cbn [flat_map]. split; [rewrite begins_app, app_length; congruence|]. rewrite weave_app by exact B. congruence.
Qed.
Lemma weave_one : forall i, begins (denote i) = length (starts i) /\ result_tokens i = weave (denote i) (starts i).
Proof.
  intros i. induction i using instruction_ind'; cbn [denote starts result_tokens]; try (split; reflexivity).
  destruct (weave_flat b H) as (B & E). split.
  - change (begins (PStart l u :: flat_map denote b ++ [PEnd l u])) with (S (begins (flat_map denote b ++ [PEnd l u]))). rewrite begins_app, B. cbn. lia.
  - cbn [weave]. f_equal. rewrite E. rewrite <- (app_nil_r (flat_map starts b)) at 2. rewrite weave_app by exact B. reflexivity.
Qed.
Lemma weave_all : forall l, flat_map result_tokens l = weave (flat_map denote l) (flat_map starts l).
Proof. intros l. apply weave_flat. apply Forall_forall. intros i _. apply weave_one. Qed.

Lemma last_colon : forall a b a' b' : str, a ++ 58 :: b = a' ++ 58 :: b' -> ~ In 58 b -> ~ In 58 b' -> b = b'.
Proof.
  induction a as [|c a IH]; intros b a' b' E N N'.
  - destruct a' as [|c' a']; [injection E; auto|]. injection E as _ E. exfalso. apply N. rewrite E. apply in_or_app. right. left. reflexivity.
  - destruct a' as [|c' a']; [|injection E as _ E; exact (IH b a' b' E N N')]. injection E as _ E. exfalso. apply N'. rewrite <- E. apply in_or_app. right. left. reflexivity.
Qed.
Lemma make_name_local : forall p l p' l', make_name p l = make_name p' l' -> plain_name l -> plain_name l' -> l = l'.
Proof.
  intros p l p' l' E N N'. unfold make_name in E. destruct p as [|c p], p' as [|c' p'].
  - exact E.
  - exfalso. apply N. rewrite E. apply in_or_app. right. left. reflexivity.
  - exfalso. apply N'. rewrite <- E. apply in_or_app. right. left. reflexivity.
  - apply (last_colon (c :: p) l (c' :: p') l' E N N').
Qed.
Definition piece_plain (p : piece) : Prop := match p with PStart l _ | PEnd l _ => plain_name l | _ => True end.
Lemma denote_plain : forall b i, printable b i -> Forall piece_plain (denote i).
Proof.
  intros b i. induction i using instruction_ind'; cbn [printable denote]; intros P; try (repeat (apply Forall_cons || apply Forall_nil); exact Logic.I).
  destruct P as (_ & (_ & L) & _ & P). apply Forall_cons; [exact L|]. apply Forall_app. split; [|apply Forall_cons; [exact L|apply Forall_nil]].
  clear L. induction H as [|i b0 H F IH]; [apply Forall_nil|]. cbn [fold_right flat_map] in *. apply Forall_app. destruct P. auto.
Qed.
Lemma spaced_drop : forall s r, spaced s r -> spaced (drop_white s) (drop_white r).
Proof.
  assert (C : forall c s, skip_white (c :: s) = if white c then skip_white s else c :: s). { intros c s. unfold skip_white. cbn [span]. destruct (white c); [|reflexivity]. destruct (span white s); reflexivity. }
  intros s r H. unfold drop_white. induction H as [|c s r H IH|s r H IH]; rewrite ?C.
  - constructor.
  - destruct (white c); [exact IH|]. apply SpacedSame. exact H.
  - exact IH.
Qed.
Lemma found_events : forall b c evs ps, Forall (event_good b c) evs -> Forall piece_plain ps -> Forall2 shows ps (filter is_content evs) -> Forall2 found_as (weave ps (flat_map started_by evs)) (flat_map event_ntok evs).
Proof.
  intros b c evs. induction evs as [|e evs IH]; intros ps G P F.
  - inversion F; subst. constructor.
  - inversion G as [|x l GE G']; subst x l. cbn [filter] in F. destruct (is_content e) eqn:IC.
    + inversion F as [|p e' ps' es SH F' E1 E2]; subst. inversion P as [|x l PP P']; subst x l. specialize (IH ps' G' P' F'). inversion SH; subst; cbn [weave flat_map started_by event_ntok app]; (constructor; [|exact IH]); try reflexivity.
      * destruct GE as (q & m & E & (Q & _) & M). cbn [piece_plain] in PP. rewrite E, (proj2 (make_name_parts q m (ncname_plain q Q) (proj2 M))). cbn [found_as]. f_equal. exact (make_name_local _ _ _ _ E PP (proj2 M)).
      * exact H.
      * split; [reflexivity|]. apply spaced_drop. exact H.
    + specialize (IH ps G' P F). destruct e; try discriminate; exact IH.
Qed.
Lemma found_refl : forall x, match x with NsTree.NComment _ | NsTree.NPI _ _ => True | _ => found_as x x end.
Proof. intros []; exact Logic.I || reflexivity. Qed.
Lemma found_join : forall a b, Forall2 found_as a b -> forall run, Forall2 found_as (NsTree.njoin_acc run a) (NsTree.njoin_acc run b).
Proof.
  assert (T : forall run, Forall2 found_as (NsTree.ntext run) (NsTree.ntext run)). { intros []; [constructor|]. constructor; [reflexivity|constructor]. }
  intros a b F. induction F as [|x y a b S F IH]; intros run; [exact (T run)|].
  destruct x; destruct y; cbn [found_as] in S; try discriminate; try contradiction; try (injection S as E1 E2; subst); try (injection S as E1; subst); cbn [NsTree.njoin_acc]; try (apply Forall2_app; [exact (T run)|]; constructor; [first [exact S|reflexivity]|apply IH]); try apply IH.
Qed.
(** * Attributes have different names *)
Lemma put_in : forall u l v acc x, In x (map fst (put u l v acc)) -> x = (u, l) \/ In x (map fst acc).
Proof.
  intros u l v acc x. induction acc as [|((u', l'), v') acc IH]; cbn [put map fst In]; [intuition|]. destruct (str_eqb u' u && str_eqb l' l); cbn [map fst In]; [tauto|]. intros [H|H]; [tauto|]. destruct (IH H); tauto.
Qed.
Lemma put_nodup : forall u l v acc, NoDup (map fst acc) -> NoDup (map fst (put u l v acc)).
Proof.
  intros u l v acc. induction acc as [|((u', l'), v') acc IH]; cbn [put map fst]; intros N; [constructor; [intros []|constructor]|]. inversion N as [|x y N1 N2]; subst. destruct (str_eqb u' u && str_eqb l' l) eqn:E; cbn [map fst]; [constructor; assumption|]. constructor; [|exact (IH N2)]. intros I. apply put_in in I. destruct I as [I|I]; [|exact (N1 I)]. injection I as -> ->. rewrite !(proj2 (str_eqb_true _ _) eq_refl) in E. discriminate.
Qed.
Lemma leading_nodup : forall body acc, NoDup (map fst acc) -> NoDup (map fst (leading body acc)).
Proof. induction body as [|i body IH]; intros acc N; [exact N|]. destruct i; cbn [leading]; auto. apply IH. apply put_nodup. exact N. Qed.
Lemma starts_nodup : forall i s, In s (starts i) -> NoDup (map fst (snd s)).
Proof.
  intros i. induction i using instruction_ind'; cbn [starts]; intros s I; try destruct I as [<-|I]; try (destruct I; fail).
  - cbn [snd]. apply leading_nodup. constructor.
  - apply in_flat_map in I. destruct I as (i & I & J). rewrite Forall_forall in H. exact (H i I s J).
Qed.

Lemma result_lemma : forall r b l cdata s, Forall (consistent r) l -> Forall (printable b) l -> (b = true -> cdata = []) -> flat_map result_tokens l <> [] ->
  is_setting "indent" "yes" s = false -> is_setting "method" "text" s = false -> settings_ok s ->
  exists text d t toks n, sink_text s (o_events (executes l (new_output false true cdata))) = Some text /\ read_document text = Some (d, t, toks) /\
    NsTree.resolve [[]] toks = Some n /\ Forall2 found_as (NsTree.njoin ((if omits s then [] else [NsTree.NText [10]]) ++ flat_map result_tokens l)) n.
Proof.
  intros r b l cdata s CO PR BC NE I M SO. destruct (balanced_lemma l true cdata) as (BA & _ & SH). pose proof (written_lemma l true cdata) as WR. destruct (names_lemma r l cdata CO) as (NA & ST). pose proof (results_good b cdata l true PR) as EG.
  remember (o_events (executes l (new_output false true cdata))) as evs eqn:EV. clear EV. unfold balanced in BA.
  assert (W : writable [] None evs). { apply (writable_events b cdata evs [] [] false BC EG WR NA Logic.I BA [] (fun x => x)). }
  destruct (sink_exact s evs I M SO W) as (text & TX & RD).
  assert (SOK : Forall started_ok evs).
  { apply Forall_forall. intros e J. destruct e as [q u atts| | | | | | |]; try exact Logic.I. cbn [started_ok]. assert (K : In (local_of q, u, plain_atts atts) (flat_map starts l)). { rewrite <- ST. apply in_flat_map. exists (Start q u atts). split; [exact J|left; reflexivity]. } apply in_flat_map in K. destruct K as (i & _ & K). exact (starts_nodup i _ K). }
  pose proof (resolve_events b cdata evs [] [] false EG SOK NA (Forall_nil _) OpensNil BA) as RS. change (suffixes []) with [[] : list (str * str)] in RS.
  assert (PP : Forall piece_plain (flat_map denote l)). { apply Forall_forall. intros p J. apply in_flat_map in J. destruct J as (i & J & K). rewrite Forall_forall in PR. pose proof (denote_plain b i (PR i J)) as D. rewrite Forall_forall in D. exact (D p K). }
  pose proof (found_events b cdata evs _ EG PP SH) as FE. rewrite ST, <- weave_all in FE.
  assert (EX : existsb writes evs = true). { destruct (existsb writes evs) eqn:EX; [reflexivity|]. exfalso. apply NE. assert (N : flat_map event_ntok evs = []). { clear - EX. induction evs as [|e evs IH]; [reflexivity|]. cbn [existsb] in EX. apply orb_false_iff in EX. destruct EX as (E1 & E2). destruct e; try discriminate. exact (IH E2). } rewrite N in FE. inversion FE. reflexivity. }
  exists text, (expected_decl s evs), (expected_doctype s evs), (join (expected_toks s evs)).
  exists (NsTree.njoin ((if omits s then [] else [NsTree.NText [10]]) ++ flat_map event_ntok evs)). split; [exact TX|]. split; [exact RD|]. split.
  - unfold join. rewrite StreamProof.resolve_join. unfold expected_toks. rewrite EX. cbn [negb]. rewrite orb_false_r. destruct (omits s); cbn [app NsTree.resolve]; rewrite RS; reflexivity.
  - unfold NsTree.njoin. apply found_join. destruct (omits s); [exact FE|]. constructor; [reflexivity|exact FE].
Qed.
