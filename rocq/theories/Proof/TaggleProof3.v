(** Every call of the scanner keeps the parser well. *)
From Coq Require Import String.
From Verif.Model Require Import Base Chars Text Attrs XSort HtmlSchema Taggle.
From Verif.Spec Require Import TextSpec TaggleSpec.
From Verif.Proof Require Import ContainersProof TextProof AttrsProof TaggleProof TaggleProof2.
From Coq Require Import List Lia Permutation.
Import ListNotations.
Open Scope Z_scope.

(** * Splitting a declaration *)
Definition solid (c : Z) : Prop := is_space (wide c) = false.
Fixpoint well (l : str) : Prop :=
  match l with [] => True | c :: r => well r /\ (is_space (wide c) = true -> match r with d :: _ => solid d | [] => False end) end.
Lemma byte_solid : forall c, 0 <= c < 256 -> white c = false -> solid c.
Proof.
  intros c R W. unfold solid. assert (A : forallb (fun c => implb (is_space (wide c)) (white c)) (map Z.of_nat (seq 0 256)) = true) by (vm_compute; reflexivity).
  rewrite forallb_forall in A. assert (I : In c (map Z.of_nat (seq 0 256))).
  { apply in_map_iff. exists (Z.to_nat c). split; [lia|]. apply in_seq. lia. }
  specialize (A c I). rewrite W in A. destruct (is_space (wide c)); [discriminate|reflexivity].
Qed.
Lemma words_solid : forall s w, bytes s -> Forall solid w -> Forall (fun x => x <> [] /\ Forall solid x) (words_acc w s).
Proof.
  induction s as [|c s IH]; intros w B W; cbn [words_acc].
  - destruct w; [constructor|]. constructor; [split; [discriminate|exact W]|constructor].
  - inversion B; subst. destruct (white c) eqn:E.
    + destruct w; [apply IH; [assumption|constructor]|]. constructor; [split; [discriminate|exact W]|]. apply IH; [assumption|constructor].
    + apply IH; [assumption|]. apply Forall_app. split; [exact W|]. constructor; [apply byte_solid; assumption|constructor].
Qed.
Lemma well_word : forall w r, Forall solid w -> well r -> well (w ++ r).
Proof.
  induction w as [|c w IH]; intros r W R; cbn; [exact R|]. inversion W as [|x y SC W']; subst. split; [apply IH; assumption|].
  intro E. unfold solid in SC. congruence.
Qed.
Lemma well_spaced : forall ws, Forall (fun x => x <> [] /\ Forall solid x) ws -> well (spaced ws) /\ (spaced ws = [] \/ exists c r, spaced ws = c :: r /\ solid c).
Proof.
  induction ws as [|w ws IH]; intro H; [split; [exact Logic.I|left; reflexivity]|].
  inversion H as [|x y [NE W] H']; subst. destruct w as [|c w]; [contradiction|]. pose proof W as W0. inversion W as [|x y SC W']; subst.
  destruct ws as [|w2 ws].
  - cbn [spaced]. split; [rewrite <- (app_nil_r (c :: w)); apply well_word; [exact W0|exact Logic.I]|]. right. exists c, w. auto.
  - change (spaced ((c :: w) :: w2 :: ws)) with ((c :: w) ++ 32 :: spaced (w2 :: ws)). destruct (IH H') as [A [E|(d & r & E & D)]].
    + exfalso. inversion H' as [|x y [NE2 _] _]; subst. cbn in E. destruct ws; destruct w2; try contradiction; discriminate.
    + split; [|right; exists c, (w ++ 32 :: spaced (w2 :: ws)); auto]. apply well_word; [exact W0|]. cbn [well]. split; [exact A|]. intros _. rewrite E. exact D.
Qed.
Lemma split_from_ok : forall v rest i s sq dq last splits, well rest ->
  (s = None -> sq = false /\ dq = false /\ exists c r, rest = c :: r /\ solid c) ->
  exists l, split_from v rest i s sq dq last splits = Val l.
Proof.
  intros v rest. induction rest as [|c r IH]; intros i s sq dq last splits W S; cbn [split_from].
  - destruct s as [k|]; [eexists; reflexivity|]. destruct (S eq_refl) as (_ & _ & c & r & E & _). discriminate.
  - destruct W as [W WC].
    assert (NN : match s with None => Some i | _ => s end <> None) by (destruct s; discriminate).
    destruct (negb dq && (c =? 39) && negb (last =? 92)); [apply IH; [exact W|intro E; contradiction]|].
    destruct (negb sq && (c =? 34) && negb (last =? 92)); [apply IH; [exact W|intro E; contradiction]|].
    destruct (negb sq && negb dq) eqn:Q.
    + apply andb_prop in Q as [Q1 Q2]. apply negb_true_iff in Q1, Q2. destruct (is_space (wide c)) eqn:SP.
      * destruct s as [k|].
        -- cbn [substr obind]. apply IH; [exact W|]. intros _. split; [exact Q1|]. split; [exact Q2|]. specialize (WC eq_refl). destruct r as [|d r]; [destruct WC|]. exists d, r. auto.
        -- exfalso. destruct (S eq_refl) as (_ & _ & c' & r' & E & D). injection E as <- <-. unfold solid in D. congruence.
      * destruct (Z.eqb_spec c 32) as [->|N]; [discriminate SP|]. apply IH; [exact W|]. intro E; contradiction.
    + apply IH; [exact W|]. intros E. destruct (S E) as (A & B & _). rewrite A, B in Q. discriminate.
Qed.
Lemma split_words_ok : forall s, bytes s -> exists l, split_words s = Val l.
Proof.
  intros s B. unfold split_words. rewrite normalize_whitespace_spec. cbn [obind]. destruct (spaced (words s)) as [|c r] eqn:E; [eexists; reflexivity|].
  destruct (well_spaced (words s) (words_solid s [] B (Forall_nil _))) as [W _]. rewrite E in W. apply split_from_ok; [exact W|discriminate].
Qed.

(** * Events *)
Lemma tell_misc : forall F c g, good F g -> content true c -> prolog (fe_ignorable F) c -> Forall (start_names (fe_namespaces F)) c -> good F (tell c g).
Proof.
  intros F c g [[CS CV CO CN] B C D] CC P N. constructor; auto. constructor; auto.
  - cbn. apply opened_misc; assumption.
  - cbn. apply Forall_app. auto.
Qed.
Lemma tell_content : forall F c g, good F g -> deep g -> content true c -> Forall (start_names (fe_namespaces F)) c -> good F (tell c g).
Proof.
  intros F c g [[CS CV CO CN] B C D] DP CC N. constructor; auto. constructor; auto.
  - cbn. unfold deep in DP. destruct (tg_stack g) as [|e [|d s]]; cbn in DP; try lia. apply opened_content; [exact CO|discriminate|exact CC].
  - cbn. apply Forall_app. auto.
Qed.
Lemma good_same : forall F g g', good F g -> tg_stack g' = tg_stack g -> tg_saved g' = tg_saved g -> tg_virgin g' = tg_virgin g -> tg_out g' = tg_out g -> frame g g' -> good F g'.
Proof.
  intros F g g' G E1 E2 E3 E4 FR. eapply good_frame; [exact G| |exact FR]. destruct G as [[CS CV CO CN] _ _ _].
  constructor; rewrite ?E1, ?E2, ?E3, ?E4; auto.
Qed.
Ltac same := eapply good_same; [eassumption|try reflexivity..|repeat split].

(** * End tags *)
Lemma pop_n_core : forall F n g, core F g -> (n + 2 <= length (tg_stack g))%nat ->
  core F (pop_n F n g) /\ frame g (pop_n F n g) /\ length (tg_stack (pop_n F n g)) = (length (tg_stack g) - n)%nat.
Proof.
  intros F n. induction n as [|n IH]; intros g C L; cbn [pop_n].
  - split; [exact C|]. split; [apply frame_refl|]. lia.
  - destruct (restartably_pop_core F g C) as (C1 & F1 & T); [lia|].
    assert (L1 : length (tg_stack (restartably_pop F g)) = (length (tg_stack g) - 1)%nat) by (rewrite T; destruct (tg_stack g); cbn; lia).
    destruct (IH _ C1) as (C2 & F2 & L2); [lia|]. split; [exact C2|]. split; [eapply frame_trans; eauto|]. lia.
Qed.
Lemma pop_preclosed_core : forall F l g, core F g -> l = tg_stack g -> deep g ->
  core F (pop_preclosed F l g) /\ frame g (pop_preclosed F l g) /\ deep (pop_preclosed F l g).
Proof.
  intros F l. induction l as [|e r IH]; intros g C E D; cbn [pop_preclosed]; [auto using frame_refl|].
  destruct (el_preclosed e) eqn:PC; [|auto using frame_refl].
  pose proof C as [(s & ES & _ & _ & _ & DD) _ _ _]. rewrite <- E in ES.
  assert (L : (3 <= length (tg_stack g))%nat).
  { rewrite <- E. destruct s as [|d [|d2 s]]; cbn in ES; injection ES as -> ->.
    - discriminate PC.
    - rewrite (DD [] d eq_refl) in PC. discriminate.
    - cbn. rewrite app_length. cbn. lia. }
  destruct (pop_core F g C L) as (C1 & F1 & T & _). destruct (IH (pop F g) C1) as (C2 & F2 & D2).
  - rewrite T, <- E. reflexivity.
  - unfold deep. rewrite T. destruct (tg_stack g); cbn in *; lia.
  - split; [exact C2|]. split; [eapply frame_trans; eauto|exact D2].
Qed.
Lemma preclose_at_app : forall n s t, (n < length s)%nat -> preclose_at n (s ++ t) = preclose_at n s ++ t.
Proof.
  induction n as [|n IH]; intros [|e s] t L; cbn in *; try lia; [reflexivity|]. f_equal. apply IH. lia.
Qed.
Lemma preclose_fine : forall n s, Forall fine s -> Forall fine (preclose_at n s).
Proof. induction n as [|n IH]; intros [|e s] H; cbn; try constructor; inversion H; subst; auto. Qed.
Lemma preclose_length : forall n s, length (preclose_at n s) = length s.
Proof. induction n as [|n IH]; intros [|e s]; cbn; auto. Qed.
Lemma preclose_core : forall F n g, core F g -> (n + 2 < length (tg_stack g))%nat -> core F (set_stack (preclose_at n (tg_stack g)) g).
Proof.
  intros F n g [(s & ES & FS & SS & VV & DD) CS CO CN] L. constructor; cbn; auto.
  - rewrite ES in *. rewrite app_length in L. cbn in L. exists (preclose_at n s). split; [apply preclose_at_app; lia|].
    split; [apply preclose_fine; exact FS|]. split; [intro E; apply (f_equal (@length elem)) in E; rewrite preclose_length in E; cbn in E; lia|].
    split. { split; [intro V; apply VV in V; subst s; cbn in L; lia|intro E; apply (f_equal (@length elem)) in E; rewrite preclose_length in E; cbn in E; lia]. }
    intros s' d E. assert (DL : s = [] \/ exists s0 d0, s = s0 ++ [d0]) by (destruct (rev s) as [|d0 s0] eqn:RV; [left; apply (f_equal (@rev elem)) in RV; rewrite rev_involutive in RV; exact RV|right; exists (rev s0), d0; apply (f_equal (@rev elem)) in RV; rewrite rev_involutive in RV; exact RV]).
    destruct DL as [->|(s0 & d0 & ->)].
    { cbn in L. lia. }
    rewrite app_length in L. cbn in L. rewrite preclose_at_app in E by lia. apply app_inj_tail in E as [_ <-]. apply (DD s0 d0). reflexivity.
  - apply opened_preclose; [exact CO|lia].
Qed.
Lemma close_tag_good : forall F n g, good F g -> good F (close_tag F n g).
Proof.
  intros F n g G. unfold close_tag. destruct (find_open n (tg_stack g)) as [[k noforce]|]; [|exact G].
  destruct (Nat.leb_spec (length (tg_stack g)) (k + 2)) as [L|L]; [exact G|].
  pose proof (g_core F g G) as C.
  assert (X : let g' := if noforce then set_stack (preclose_at k (tg_stack g)) g else pop F (pop_n F k g) in core F g' /\ frame g g' /\ deep g').
  { cbn zeta. destruct noforce.
    - split; [apply preclose_core; assumption|]. split; [repeat split|]. unfold deep. cbn. rewrite preclose_length. lia.
    - destruct (pop_n_core F k g C) as (C1 & F1 & L1); [lia|]. destruct (pop_core F _ C1) as (C2 & F2 & T & _); [lia|].
      split; [exact C2|]. split; [eapply frame_trans; eauto|]. unfold deep. rewrite T. destruct (tg_stack (pop_n F k g)); cbn in *; lia. }
  cbn zeta in *. destruct X as (C1 & F1 & D1). destruct (pop_preclosed_core F _ _ C1 eq_refl D1) as (C2 & F2 & D2).
  destruct (restart_core F None _ C2 D2) as (C3 & F3 & _). eapply good_frame; [exact G|exact C3|]. eapply frame_trans; [|exact F3]. eapply frame_trans; eauto.
Qed.
Lemma set_new_none_good : forall F g, good F g -> good F (set_new None g).
Proof. intros F g [A B C D]. constructor; cbn; auto; [apply core_set_new; exact A|discriminate]. Qed.
Lemma etag_basic_good : forall F s g, good F g -> good F (etag_basic F s g).
Proof.
  intros F s g G. unfold etag_basic. pose proof (set_new_none_good F g G) as G'.
  destruct s as [|c s].
  - destruct (tg_stack (set_new None g)); [exact G'|]. apply close_tag_good. exact G'.
  - destruct (get_type (tg_schema (set_new None g)) (make_name F (c :: s))); [|exact G']. apply close_tag_good. exact G'.
Qed.
Lemma set_cdata_good : forall F b g, good F g -> good F (set_cdata b g).
Proof. intros F b g G. same. Qed.
Lemma etag_good : forall F s g, good F g -> good F (etag F s g).
Proof.
  intros F s g G. unfold etag. destruct (tg_stack g) as [|e r] eqn:ES; [apply etag_basic_good; exact G|].
  destruct (fe_cdata F && has_flag e F_CDATA && negb (str_eqb (lower_case s) (lower_case (el_name e)))) eqn:Q; [|apply etag_basic_good; exact G].
  apply set_cdata_good. apply tell_content; [exact G| |repeat constructor|repeat (constructor; [exact Logic.I|]); constructor].
  pose proof (g_core F g G) as [(st & E & _) _ _ _]. rewrite ES in E. destruct st as [|x st].
  - cbn in E. injection E as -> ->. rewrite andb_false_r in Q. discriminate.
  - cbn in E. injection E as <- ->. unfold deep. rewrite ES. cbn. rewrite app_length. cbn. lia.
Qed.

(** * Start tags *)
Lemma no60_lower : forall s, Forall (fun c => c <> 60) s -> Forall (fun c => c <> 60) (lower_case s).
Proof. intros s H. apply Forall_map. eapply Forall_impl; [|exact H]. intros c N. unfold lower. destruct ((65 <=? c) && (c <=? 90)) eqn:E; [|exact N]. apply andb_prop in E as [A B]. apply Z.leb_le in A, B. lia. Qed.
Lemma made_type : forall F sch s t, schema_ok sch -> bytes s -> get_type sch (make_name F s) = Some t -> reach sch 10 t /\ type_fine t.
Proof.
  intros F sch s t (_ & OK & _) B G. destruct (get_type_in _ _ _ G) as [I E]. destruct (make_name_parts F s B) as (p & l & P).
  destruct (parts_find _ _ _ P) as (_ & _ & _ & _ & _ & N60 & _). apply no60_lower in N60. rewrite <- E in N60.
  rewrite Forall_forall in OK. destruct (OK t I) as [[R [TF|(N & _)]]|(N & _)]; [auto| |]; exfalso; rewrite N in N60; inversion N60 as [|x y A _]; apply A; reflexivity.
Qed.
Lemma gi_good : forall F s g, good F g -> bytes s -> exists g', gi F s g = Val g' /\ good F g'.
Proof.
  intros F s g G B. unfold gi. destruct (tg_new g) eqn:NW; [eexists; split; [reflexivity|exact G]|].
  pose proof G as [C SO N A]. destruct (get_type (tg_schema g) (make_name F s)) as [t|] eqn:T.
  - destruct (made_type F _ _ _ SO B T) as [R TF]. eexists. split; [reflexivity|]. constructor; cbn; auto; [apply core_set_new; exact C|].
    intros e E. injection E as <-. assert (FI : fine (new_elem (fe_default_attributes F) t)) by (apply new_elem_fine; exact TF).
    split; [|exact FI]. split; [exact R|]. split; [reflexivity|]. left. exact FI.
  - destruct (fe_ignore_bogons F); [eexists; split; [reflexivity|exact G]|].
    eexists. split; [reflexivity|].
    set (t := EType (make_name F s) _ _ _ _ _).
    assert (TF : type_fine t) by (split; [apply make_name_parts; exact B|split; constructor]).
    destruct SO as (LEN & OK & (tp & GP & NP) & (th & GH & CH)).
    assert (R : reach (tg_schema g ++ [t]) 10 t).
    { unfold t. destruct (fe_root_bogons F).
      - apply reach_here. vm_compute. reflexivity.
      - eapply reach_up; [reflexivity|apply get_type_app; exact GH|]. apply reach_here. exact CH. }
    assert (SO' : schema_ok (tg_schema g ++ [t])).
    { split; [rewrite app_length; lia|]. split.
      - apply Forall_app. split.
        + eapply Forall_impl; [|exact OK]. intros x [[RX HX]|HX]; [left; split; [apply reach_app; exact RX|exact HX]|right; exact HX].
        + constructor; [|constructor]. left. split; [exact R|]. left. exact TF.
      - split; [exists tp|exists th]; split; try assumption; apply get_type_app; assumption. }
    constructor; cbn; auto.
    + destruct C as [X1 X2 X3 X4]. constructor; cbn; auto.
    + intros e E. injection E as <-. assert (FI : fine (new_elem (fe_default_attributes F) t)) by (apply new_elem_fine; exact TF).
      split; [|exact FI]. split; [exact R|]. split; [reflexivity|]. left. exact FI.
Qed.
Lemma put_attribute_good : forall F v g, good F g -> exists g', put_attribute v g = Val g' /\ good F g'.
Proof.
  intros F v g G. unfold put_attribute. destruct (tg_new g) as [e|] eqn:NW; [|eexists; split; [reflexivity|exact G]].
  destruct (tg_attname g) as [|c n] eqn:AN; [eexists; split; [reflexivity|exact G]|].
  pose proof G as [C SO N A]. destruct (N e NW) as [(R & PC & FI) [FN FA]].
  destruct A as [A|A]; [rewrite AN in A; discriminate|]. rewrite AN in A.
  destruct (set_attribute_fine (el_atts e) (c :: n) [] v FA A) as (l & -> & FL). cbn [obind]. eexists. split; [reflexivity|].
  constructor; cbn; auto.
  - destruct C as [X1 X2 X3 X4]. constructor; cbn; auto.
  - intros e' E. injection E as <-. assert (F' : fine (Elem (el_type e) l (el_preclosed e))) by (split; assumption).
    split; [|exact F']. split; [exact R|]. split; [exact PC|]. left. exact F'.
Qed.
Lemma aname_good : forall F s g, good F g -> bytes s -> exists g', aname F s g = Val g' /\ good F g'.
Proof.
  intros F s g G B. unfold aname. destruct (tg_new g) eqn:NW; [|eexists; split; [reflexivity|exact G]].
  eexists. split; [reflexivity|]. destruct G as [C SO N A]. constructor; cbn; auto.
  - destruct C as [X1 X2 X3 X4]. constructor; cbn; auto.
  - right. destruct (make_name_parts F s B) as (p & l & P). eapply lower_parts. exact P.
Qed.
Lemma stagc_good : forall F s g, good F g -> exists g', stagc F s g = Val g' /\ good F g'.
Proof.
  intros F s g G. unfold stagc. destruct (tg_new g) as [e|] eqn:NW; [|eexists; split; [reflexivity|exact G]].
  destruct (g_new F g G e NW) as [CL _]. destruct (rectify_good F e g G CL) as (g' & -> & G' & _). cbn [obind]. eexists. split; [reflexivity|].
  destruct (tg_stack g'); [exact G'|]. destruct (et_model (el_type e0) =? M_EMPTY); [apply etag_basic_good|]; exact G'.
Qed.
Lemma stage_good : forall F s g, good F g -> exists g', stage F s g = Val g' /\ good F g'.
Proof.
  intros F s g G. unfold stage. destruct (tg_new g) as [e|] eqn:NW; [|eexists; split; [reflexivity|exact G]].
  destruct (g_new F g G e NW) as [CL _]. destruct (rectify_good F e g G CL) as (g' & -> & G' & _). cbn [obind]. eexists. split; [reflexivity|].
  apply etag_basic_good. exact G'.
Qed.

(** * The rest *)
Lemma pcdata_good : forall F s g, good F g -> exists g', pcdata F s g = Val g' /\ good F g'.
Proof.
  intros F s g G. unfold pcdata. destruct s as [|c s]; [eexists; split; [reflexivity|exact G]|].
  match goal with |- context [if ?q then _ else _] => destruct q end.
  - eexists. split; [reflexivity|]. destruct (fe_ignorable F) eqn:IG; [|exact G].
    apply tell_misc; [exact G|repeat constructor|rewrite IG; repeat constructor|repeat constructor].
  - destruct (rectify_pcdata_good F g G) as (g' & -> & G' & D & _). cbn [obind]. eexists. split; [reflexivity|].
    apply tell_content; [exact G'|exact D|repeat constructor|repeat constructor].
Qed.
Lemma entity_good : forall F s g, good F g -> good F (entity s g).
Proof. intros F s g G. same. Qed.
Lemma pitarget_good : forall F s g, good F g -> good F (pitarget F s g).
Proof. intros F s g G. unfold pitarget. destruct (tg_new g); [exact G|]. same. Qed.
Lemma pi_good : forall F s g, good F g -> good F (pi s g).
Proof.
  intros F s g G. unfold pi. destruct (tg_new g); [exact G|]. destruct (tg_pi g) as [|c t]; [exact G|].
  destruct (str_eqb (lower_case (c :: t)) (ascii_str "xml")); [exact G|].
  assert (G1 : good F (tell [HInstruction (c_string (c :: t)) (c_string (drop_mark s))] g)) by (apply tell_misc; [exact G|repeat constructor|repeat constructor|repeat constructor]).
  same.
Qed.
Lemma cmnt_good : forall F s g, good F g -> good F (cmnt s g).
Proof. intros F s g G. apply tell_misc; [exact G|repeat constructor|repeat constructor|repeat constructor]. Qed.
Lemma decl_good : forall F s g, good F g -> bytes s -> exists g', decl s g = Val g' /\ good F g'.
Proof.
  intros F s g G B. unfold decl. destruct (split_words_ok s B) as (v & ->). cbn [obind].
  destruct (str_eqb (nth 0 v []) (ascii_str "DOCTYPE")); [|eexists; split; [reflexivity|exact G]].
  destruct (tg_doctype g); [eexists; split; [reflexivity|exact G]|].
  assert (G1 : good F (set_doctype true g)) by same.
  destruct (nth 1 v []) as [|c n]; [eexists; split; [reflexivity|exact G1]|].
  eexists. split; [reflexivity|]. apply tell_misc; [exact G1|repeat constructor|repeat constructor|repeat constructor].
Qed.

(** * The end *)
Lemma pop_rest_spec : forall F l g, tg_stack g = l -> core F g -> deep g ->
  exists d s out, pop_rest F l g = set_stack [root_elem] s /\ tg_out s = out ++ close_events F d /\ opened F [d; root_elem] out /\ Forall (start_names (fe_namespaces F)) out.
Proof.
  intros F l. induction l as [|e l IH]; intros g E C D; [unfold deep in D; rewrite E in D; cbn in D; lia|].
  destruct l as [|d l]; [unfold deep in D; rewrite E in D; cbn in D; lia|]. destruct l as [|x l].
  - cbn [pop_rest]. pose proof C as [(s & ES & _) _ CO CN]. rewrite E in ES. destruct s as [|a [|b s]]; cbn in ES; injection ES; intros; subst; try discriminate.
    + exists a, (pop F g), (tg_out g). rewrite E in CO. split; [|split; [eapply pop_out; exact E|auto]].
      unfold pop. rewrite E. reflexivity.
    + destruct s; discriminate.
  - destruct (pop_core F g C) as (C1 & _ & T & _); [rewrite E; cbn; lia|]. change (pop_rest F (e :: d :: x :: l) g) with (pop_rest F (d :: x :: l) (pop F g)).
    apply IH; [rewrite T, E; reflexivity|exact C1|]. unfold deep. rewrite T, E. cbn. lia.
Qed.
Lemma eof_document : forall F g, good F g -> exists g' l, eof F g = Val g' /\
  tg_out g' = HStartDocument :: HLocator :: l /\ document true (fe_ignorable F) (HStartDocument :: l) /\ Forall (start_names (fe_namespaces F)) (tg_out g').
Proof.
  intros F g G. unfold eof.
  assert (X : exists g1, (if tg_virgin g then rectify_pcdata F g else Val g) = Val g1 /\ good F g1 /\ deep g1).
  { destruct (tg_virgin g) eqn:V.
    - destruct (rectify_pcdata_good F g G) as (g1 & E & G1 & D & _). exists g1. auto.
    - exists g. split; [reflexivity|]. split; [exact G|]. apply (deep_virgin F g (g_core F g G)). exact V. }
  destruct X as (g1 & -> & G1 & D). cbn [obind]. destruct (pop_rest_spec F (tg_stack g1) g1 eq_refl (g_core F g1 G1) D) as (d & s & out & -> & EO & O & N).
  inversion O as [|e' s' l' c' FE O' C']; subst. inversion O' as [pre P|e2 s2 l2 c2 FE2 O2 C2]; subst; [|destruct (opened_nonempty _ _ _ O2 eq_refl)].
  eexists. exists (HStartMapping schema_prefix schema_uri :: pre ++ (open_events F d ++ c' ++ close_events F d) ++ [HEndMapping schema_prefix; HEndDocument]).
  split; [reflexivity|]. split; [|split].
  - cbn [tg_out tell set_stack]. rewrite EO. unfold header. cbn [app]. rewrite <- !app_assoc. reflexivity.
  - apply a_document; [exact P|]. apply element_of; assumption.
  - cbn [tg_out tell set_stack]. rewrite EO. apply Forall_app. split; [apply Forall_app; split; [exact N|]|repeat constructor].
    unfold close_events. constructor; [exact Logic.I|]. apply Forall_map. apply Forall_forall. intros. exact Logic.I.
Qed.
Lemma setup_good : forall F b, good F (setup F b).
Proof.
  intros F b. unfold setup. rewrite the_root. constructor; cbn [tg_schema tg_new tg_attname].
  - constructor; cbn [tg_stack tg_saved tg_virgin tg_out].
    + exists []. repeat split; auto. intros s' d E. destruct s'; discriminate.
    + constructor.
    + rewrite <- (app_nil_r [HStartDocument; HLocator; HStartMapping schema_prefix schema_uri]). apply opened_root. constructor.
    + repeat constructor.
  - exact html_schema_ok.
  - discriminate.
  - left. reflexivity.
Qed.
