(** Stylesheets in several documents compile to the stylesheets of their import tree. *)
From Coq Require Import String.
From Verif.Model Require Import Base Attrs XSort XSheet Precedence XInclude.
From Verif.Spec Require Import XSheetSpec PrecedenceSpec XIncludeSpec.
From Verif.Proof Require Import Tac ContainersProof XSheetProof PrecedenceProof XIncludeProof.
From Coq Require Import List Lia Sorting.Sorted.
Import ListNotations.
Open Scope Z_scope.

Lemma nodup_left : forall T (a b : list T), NoDup (a ++ b) -> NoDup a.
Proof.
  intros T a b H. induction a as [|x a IH]; [constructor|]. cbn [app] in H. inversion H as [|? ? H1 H2]; subst. constructor; [|exact (IH H2)].
  intro I. apply H1. apply in_or_app. left. exact I.
Qed.

Lemma sorted_nodup : forall l, StronglySorted (fun a b => prec_lt (code a) (code b) = true) l -> NoDup l.
Proof.
  intros l Q. induction Q as [|a r _ IH F]; constructor; [|exact IH]. intro I. rewrite Forall_forall in F. specialize (F a I). rewrite lt_irrefl in F. discriminate F.
Qed.
Scheme module_min := Minimality for module Sort Prop with contents_min := Minimality for contents Sort Prop.

Section Sheets.
  Context {scope X M N P : Type} (V : services (scope := scope) (X := X) (M := M) (N := N) (P := P)).
  Context (current : no_current V).
  Notation xml := (xml (scope := scope)).
  Notation heard := (heard (scope := scope)).
  Notation piece := (piece (scope := scope)).
  Notation compiler := (compiler (X := X) (M := M) (N := N) (P := P)).
  Notation declaration := (declaration (X := X) (M := M) (N := N) (P := P)).
  Notation sheets := (sheets (X := X) (M := M) (N := N) (P := P)).
  Notation down := (sheets_step V).
  Notation play := (play down sheets_begin).
  Notation tagged := (tagged (T := piece)).

  (** * Steps *)
  Lemma step_ok : forall b p c e c', step V c e = Ok c' -> takes down (Sheets b p c) p e = Done (Sheets b p c').
  Proof.
    intros b p c e c' H. unfold takes, sheets_step, turn. cbn [z_prec]. rewrite prec_eq_refl. cbv iota. cbn [z_compiler z_before z_prec].
    destruct e as [g| |s]; try (rewrite H; reflexivity). unfold named_again. cbn [z_compiler].
    destruct (c_stack c) as [|h below] eqn:Es; [rewrite H; reflexivity|]. destruct h; try (rewrite H; reflexivity). destruct h; try (rewrite H; reflexivity).
    destruct below; [|rewrite H; reflexivity]. destruct (taken _ _); [|rewrite H; reflexivity].
    cbn [step] in H. unfold end_element in H. rewrite Es in H. cbn [box_end] in H. unfold add_template, refuse in H. match type of H with (if ?q then _ else _) = _ => destruct q; [discriminate H|] end. injection H as <-. reflexivity.
  Qed.
  Definition idle (c : compiler) : Prop := c_stack c = [].
  Lemma white_step : forall c s, idle c -> white s -> step V c (Characters s) = Ok c.
  Proof. intros c s I W. cbn [step]. unfold characters. rewrite I. rewrite (proj1 (white_blank s) W). reflexivity. Qed.
  Lemma white_takes : forall b p c s, idle c -> white s -> takes_text down (Sheets b p c) p s = Done (Sheets b p c).
  Proof. intros b p c s I W. unfold takes_text. destruct s; [reflexivity|]. apply step_ok, white_step; assumption. Qed.

  (** * The events of an element *)
  Definition event_of (e : heard) : event (scope := scope) := match e with HStart g => Start g | HEnd _ _ => End | XInclude.HText s => Characters s end.
  Lemma events_of : forall t : xml, map event_of (reports t) = events t.
  Proof.
    fix go 1. intros [g kids|s]; [|reflexivity]. cbn [reports events]. cbn [map event_of]. rewrite map_app. cbn [map event_of]. do 2 f_equal.
    induction kids as [|k kids IH]; [reflexivity|]. cbn [flat_map]. rewrite map_app, go, IH. reflexivity.
  Qed.
  Definition texts (text : str) : list (event (scope := scope)) := match text with [] => [] | _ => [Characters text] end.
  Lemma text_first : forall b p c text l c', run V c (texts text ++ l) = Ok c' -> exists c1, takes_text down (Sheets b p c) p text = Done (Sheets b p c1) /\ run V c1 l = Ok c'.
  Proof.
    intros b p c text l c' H. destruct text as [|z text]; [exists c; split; [reflexivity|exact H]|]. cbn [texts app run] in H. destruct (step V c (Characters (z :: text))) as [c1| | |] eqn:E; cbn [bind] in H; try discriminate H.
    exists c1. split; [|exact H]. unfold takes_text. apply step_ok. exact E.
  Qed.
  Lemma play_one : forall e b p c text l c', run V c (texts text ++ e :: l) = Ok c' ->
    exists c2, run V c2 l = Ok c' /\ forall rest, play ((Tells e, p) :: rest) (Sheets b p c) text = play rest (Sheets b p c2) [].
  Proof.
    intros e b p c text l c' H. destruct (text_first b p c text _ c' H) as (c1 & E1 & E2). cbn [run] in E2. destruct (step V c1 e) as [c2| | |] eqn:Es; cbn [bind] in E2; try discriminate E2.
    exists c2. split; [exact E2|]. intro rest. cbn [XIncludeSpec.play]. rewrite E1. cbn [next]. rewrite (step_ok b p c1 e c2 Es). reflexivity.
  Qed.
  Lemma play_run : forall u l evs text b p c c' rest, spaced_out (evs ++ [HEnd u l]) -> (text <> [] -> match evs with XInclude.HText _ :: _ => False | _ => True end) ->
    run V c (texts text ++ map event_of (evs ++ [HEnd u l])) = Ok c' ->
    play (tagged p (map piece_of (evs ++ [HEnd u l])) ++ rest) (Sheets b p c) text = play rest (Sheets b p c') [].
  Proof.
    intros u l evs. induction evs as [|e evs IH]; intros text b p c c' rest Sp T H.
    - cbn [app map event_of] in H. destruct (play_one End b p c text [] c' H) as (c2 & E2 & E). cbn [run] in E2. injection E2 as ->. cbn [app map piece_of PrecedenceProof.tagged]. rewrite E. reflexivity.
    - destruct e as [g|u' l'|s]; cbn [app map event_of] in H; cbn [app map piece_of PrecedenceProof.tagged].
      + destruct (play_one (Start g) b p c text _ c' H) as (c2 & E2 & E). rewrite E. apply (IH [] b p c2 c' rest); [exact Sp|congruence|exact E2].
      + destruct (play_one End b p c text _ c' H) as (c2 & E2 & E). rewrite E. apply (IH [] b p c2 c' rest); [exact Sp|congruence|exact E2].
      + assert (text = []) as -> by (destruct text; [reflexivity|exfalso; apply T; discriminate]). cbn [texts app XIncludeSpec.play] in *.
        cbn [spaced_out] in Sp. destruct Sp as (N0 & N1 & Sp). apply (IH s b p c c' rest Sp).
        * intros _. destruct evs as [|e evs]; [exact Logic.I|]. cbn [app] in N1. destruct e; exact N1 || exact Logic.I.
        * destruct s; [congruence|]. exact H.
  Qed.

  (** * Pieces that give declarations *)
  Definition ready (ds : list declaration) (c : compiler) : Prop := so_far ds c /\ aliases ds = [].
  Definition gives (ps : list piece) (ds : list declaration) : Prop :=
    aliases ds = [] /\
    forall b p c ds0 text, ready ds0 c -> white text -> sound (ds0 ++ ds) ->
    exists c' text', ready (ds0 ++ ds) c' /\ white text' /\ forall rest, play (tagged p ps ++ rest) (Sheets b p c) text = play rest (Sheets b p c') text'.
  Lemma aliases_app : forall a b : list declaration, aliases (a ++ b) = aliases a ++ aliases b. Proof. intros. apply flat_map_app. Qed.
  Lemma sound_left : forall a b : list declaration, sound (a ++ b) -> sound a.
  Proof.
    intros a b [H1 H2]. unfold sound. unfold templates, named, outputs in *. rewrite flat_map_app in H1, H2. rewrite map_app, filter_app in H1. rewrite app_length in H2. split; [exact (nodup_left _ _ _ H1)|lia].
  Qed.
  Lemma gives_nil : gives [] [].
  Proof. split; [reflexivity|]. intros b p c ds0 text R W S. exists c, text. rewrite app_nil_r in *. repeat split; try assumption; apply R. Qed.
  Lemma gives_app : forall p1 d1 p2 d2, gives p1 d1 -> gives p2 d2 -> gives (p1 ++ p2) (d1 ++ d2).
  Proof.
    intros p1 d1 p2 d2 [A1 G1] [A2 G2]. split; [rewrite aliases_app, A1, A2; reflexivity|]. intros b p c ds0 text R W S. rewrite app_assoc in S.
    destruct (G1 b p c ds0 text R W (sound_left _ _ S)) as (c1 & t1 & R1 & W1 & E1). destruct (G2 b p c1 (ds0 ++ d1) t1 R1 W1 S) as (c2 & t2 & R2 & W2 & E2).
    exists c2, t2. rewrite <- app_assoc in R2. split; [exact R2|]. split; [exact W2|]. intro rest. rewrite tagged_app, <- app_assoc, E1, E2. reflexivity.
  Qed.
  Lemma ready_idle : forall ds c, ready ds c -> idle c. Proof. intros ds c [(_ & I & _) _]. exact I. Qed.
  Lemma gives_spells : forall w, Forall white w -> gives (map Spells w) [].
  Proof.
    intros w F. induction F as [|s w Hs _ IH]; [apply gives_nil|]. change (map Spells (s :: w)) with ([Spells (scope := scope) s] ++ map Spells w). apply (gives_app _ [] _ []); [|exact IH].
    split; [reflexivity|]. intros b p c ds0 text R W S. exists c, (text ++ s). rewrite app_nil_r in *. split; [exact R|]. split; [apply Forall_app; split; assumption|reflexivity].
  Qed.
  Lemma gives_own : forall t d, own_element V t d -> gives (map piece_of (reports t)) [d].
  Proof.
    intros t d (D & O & A & Sp & _). destruct t as [g kids|s].
    - split; [exact A|]. intros b p c ds0 text [R A0] W S.
      assert (A00 : aliases (ds0 ++ [d]) = []) by (rewrite aliases_app, A0, A; reflexivity).
      destruct (declare_all V [] [Elem g kids] [d]) with (kids0 := @nil xml) (ds0 := ds0) (c := c) as (c' & G & R').
      + constructor.
      + intros u q w [].
      + constructor; [exact D|constructor].
      + constructor; [exact O|constructor].
      + symmetry. exact A00.
      + apply S.
      + apply S.
      + intros pre t post E Ct. destruct pre as [|x pre]; [|destruct pre; discriminate E]. cbn in E. injection E as <- <-. split; [constructor|left; exact current].
      + exact R.
      + intros (u & [] & _).
      + exists c', []. split; [split; [exact R'|exact A00]|]. split; [constructor|]. intro rest. specialize (G []). cbn [flat_map] in G. rewrite !app_nil_r in G. cbn [run] in G.
        assert (E : play (tagged p (map piece_of (reports (Elem g kids))) ++ rest) (Sheets b p c) text = play (tagged p (map piece_of (reports (Elem g kids))) ++ rest) (Sheets b p c) []).
        { cbn [reports map piece_of PrecedenceProof.tagged app XIncludeSpec.play]. rewrite white_takes; [reflexivity|apply R|exact W]. }
        rewrite E. cbn [reports] in *. change (HStart g :: flat_map reports kids ++ [HEnd (g_uri g) (g_local g)]) with ((HStart g :: flat_map reports kids) ++ [HEnd (g_uri g) (g_local g)]).
        apply play_run; [exact Sp|congruence|]. rewrite <- G. cbn [app]. change (HStart g :: flat_map reports kids ++ [HEnd (g_uri g) (g_local g)]) with (reports (Elem g kids)). rewrite events_of. reflexivity.
    - inversion D as [? ? St| | | | | | |]; subst. destruct St as (s' & Es & W & _). injection Es as <-.
      split; [reflexivity|]. intros b p c ds0 text [R A0] W0 S. exists c, (text ++ s).
      split; [|split; [apply Forall_app; split; assumption|reflexivity]]. split; [|rewrite aliases_app, A0; reflexivity].
      unfold so_far, aliases, templates, variables, keys, outputs in *. rewrite !flat_map_app. cbn [flat_map]. rewrite !app_nil_r. exact R.
  Qed.
  Lemma gives_asks : forall g, joins g -> gives [Asks g] [].
  Proof.
    intros g J. split; [reflexivity|]. intros b p c ds0 text R W S. exists c, []. rewrite app_nil_r in *. split; [exact R|]. split; [constructor|]. intro rest.
    cbn [PrecedenceProof.tagged map app XIncludeSpec.play]. rewrite white_takes; [|exact (ready_idle _ _ R)|exact W]. cbn [next].
    unfold sheets_step, turn. cbn [z_prec]. rewrite prec_eq_refl. cbv iota. cbn [z_compiler z_before z_prec step]. unfold start_element. rewrite (ready_idle _ _ R). destruct R as [(Tp & _) _]. rewrite Tp.
    unfold top_element. assert (E : str_eqb (g_uri g) xslt_uri = true /\ is_ g "import" || is_ g "include" = true).
    { destruct J as [[U L]|[U L]]; unfold is_; rewrite U, L; split; vm_compute; reflexivity. }
    destruct E as [-> ->]. reflexivity.
  Qed.

  (** * Documents *)
  Definition top (c : compiler) : compiler := Compiler true [] (c_aliases c) (c_auto c) (c_current c) (c_sheet c).
  Lemma begin_top : forall b p c, idle c -> sheets_begin (Sheets b p c) = Sheets b p (top c).
  Proof. intros b p c I. unfold sheets_begin. cbn [z_compiler z_before z_prec]. rewrite I. reflexivity. Qed.
  Lemma root_starts : forall c g, c_top c = false -> idle c -> root_tag g -> step V (top c) (Start g) = Ok c.
  Proof.
    intros c g Tp I (Hg & On & Hv & O). cbn [step]. unfold start_element. cbn [top c_stack c_top].
    assert (U : g_uri g = xslt) by (destruct Hg as [[U _]|[U _]]; exact U).
    unfold root_element. rewrite U. change (str_eqb xslt xslt_uri) with true. cbv zeta iota.
    assert (E : is_ g "stylesheet" || is_ g "transform" = true).
    { unfold is_. destruct Hg as [[_ ->]|[_ ->]]; vm_compute; reflexivity. }
    rewrite E. cbn [negb refuse].
    destruct (gathers g [must "version"; may "extension-element-prefixes"; may "exclude-result-prefixes"; may "id"] _ O U On) as (m & E' & Lm).
    - repeat (apply Forall_cons; [eexists; split; [reflexivity|left; reflexivity]|]). apply Forall_nil.
    - apply Forall_cons; [|repeat (apply Forall_cons; [intro Q; discriminate Q|]); apply Forall_nil].
      intros _. exists "version"%string, (ascii_str "1.0"). split; [reflexivity|]. split; [reflexivity|]. split; [exact Hv|discriminate].
    - rewrite E'. cbn [need]. rewrite (proj1 (Lm "version"%string ltac:(apply in_vocabulary; reflexivity)) _ Hv). cbn [negb]. rewrite seq_refl. cbn [negb refuse].
      assert (Hx : lacks g "extension-element-prefixes").
      { intros a Ia Ua La. destruct (On a Ia Ua) as [Q|[Q|[Q|[]]]]; rewrite La in Q; vm_compute in Q; discriminate Q. }
      rewrite (proj2 (Lm "extension-element-prefixes"%string ltac:(apply in_vocabulary; reflexivity)) Hx). cbn [empty negb refuse].
      unfold idle in I. destruct c as [tp st al au cu sh]. cbn in *. subst. reflexivity.
  Qed.
  Definition one_document (ps : list piece) (ds : list declaration) : Prop :=
    exists g inner, ps = Tells (Start g) :: inner ++ [Tells End] /\ root_tag g /\ gives inner ds.
  Lemma end_idle : forall c, idle c -> step V c End = Ok c.
  Proof. intros c I. cbn [step]. unfold end_element. rewrite I. reflexivity. Qed.
  Lemma document_plays : forall ps ds, one_document ps ds -> forall b p c ds0 text, ready ds0 c -> white text -> sound (ds0 ++ ds) ->
    exists c', ready (ds0 ++ ds) c' /\ forall rest, play (tagged p ps ++ rest) (Sheets b p (top c)) text = play rest (Sheets b p c') [].
  Proof.
    intros ps ds (g & inner & -> & Rg & [_ G]) b p c ds0 text R W S. destruct (G b p c ds0 [] R) as (c' & t' & R' & W' & E); [constructor|exact S|].
    exists c'. split; [exact R'|]. intro rest. change (Tells (Start g) :: inner ++ [Tells End]) with ([Tells (Start g)] ++ inner ++ [Tells End]). rewrite !tagged_app, <- !app_assoc. cbn [PrecedenceProof.tagged map app XIncludeSpec.play].
    rewrite white_takes; [|reflexivity|exact W]. cbn [next]. rewrite (step_ok b p (top c) (Start g) c); [|apply root_starts; [apply R|exact (ready_idle _ _ R)|exact Rg]]. cbn [next].
    fold (tagged p inner). rewrite E. cbn [PrecedenceProof.tagged map app XIncludeSpec.play]. rewrite white_takes; [|exact (ready_idle _ _ R')|exact W']. cbn [next].
    rewrite (step_ok b p c' End c'); [reflexivity|]. apply end_idle. exact (ready_idle _ _ R').
  Qed.
  Lemma gives_document : forall ps ds, one_document ps ds -> gives (Begins :: ps) ds.
  Proof.
    intros ps ds O. split; [destruct O as (g & inner & _ & _ & [A _]); exact A|]. intros b p c ds0 text R W S.
    destruct (document_plays ps ds O b p c ds0 text R W S) as (c' & R' & E). exists c', []. split; [exact R'|]. split; [constructor|]. intro rest.
    change (Begins :: ps) with ([Begins (scope := scope)] ++ ps). rewrite tagged_app, <- app_assoc. cbn [PrecedenceProof.tagged map app XIncludeSpec.play]. rewrite begin_top by exact (ready_idle _ _ R). apply E.
  Qed.
  (** A document of another precedence. *)
  Lemma turned : forall b p0 p (c : compiler), p0 <> p -> turn p (Sheets b p0 c) = Sheets (b ++ [(p0, c_sheet c)]) p (with_sheet no_sheet c).
  Proof. intros b p0 p c Np. unfold turn. cbn [z_prec z_before z_compiler]. destruct (prec_eq p p0) eqn:E; [apply prec_eq_ok in E; congruence|]. reflexivity. Qed.
  Lemma turn_twice : forall b p0 p (c : compiler), p0 <> p -> turn p (turn p (Sheets b p0 c)) = turn p (Sheets b p0 c).
  Proof. intros b p0 p c Np. rewrite turned by exact Np. unfold turn. cbn [z_prec]. rewrite prec_eq_refl. reflexivity. Qed.
  Lemma takes_turn : forall b p0 p c e, p0 <> p -> takes down (Sheets b p0 c) p e = takes down (turn p (Sheets b p0 c)) p e.
  Proof. intros b p0 p c e Np. unfold takes, sheets_step. rewrite turn_twice by exact Np. reflexivity. Qed.
  Lemma other_document : forall ps ds, one_document ps ds -> forall b p0 p c ds0 text, p0 <> p -> ready ds0 c -> white text -> sound ds ->
    exists c', ready ds c' /\ forall rest, play (tagged p (Begins :: ps) ++ rest) (Sheets b p0 c) text = play rest (Sheets (b ++ [(p0, c_sheet c)]) p c') [].
  Proof.
    intros ps ds O b p0 p c ds0 text Np R W S. set (c1 := with_sheet no_sheet c).
    assert (R1 : ready [] c1).
    { split; [|reflexivity]. destruct R as [(T1 & T2 & T3 & _) T4]. rewrite T4 in T3. unfold so_far. cbn [c1 with_sheet c_top c_stack c_aliases c_sheet]. repeat split; try assumption. }
    destruct (document_plays ps ds O (b ++ [(p0, c_sheet c)]) p c1 [] text R1 W S) as (c' & R' & E). cbn [app] in R'. exists c'. split; [exact R'|]. intro rest. rewrite <- (E rest).
    change (Begins :: ps) with ([Begins (scope := scope)] ++ ps). rewrite tagged_app, <- app_assoc. cbn [PrecedenceProof.tagged map app XIncludeSpec.play]. rewrite begin_top by exact (ready_idle _ _ R).
    destruct O as (g & inner & -> & _). cbn [PrecedenceProof.tagged map app XIncludeSpec.play].
    assert (Et : turn p (Sheets b p0 (top c)) = Sheets (b ++ [(p0, c_sheet c)]) p (top c1)) by (rewrite turned by exact Np; reflexivity).
    destruct text as [|z text]; cbn [takes_text next].
    - rewrite takes_turn by exact Np. rewrite Et. reflexivity.
    - rewrite takes_turn by exact Np. rewrite Et. reflexivity.
  Qed.

  (** * The tree *)
  Inductive trees : tree piece -> tree declaration -> Prop :=
  | Trees : forall ps ds l m, one_document ps ds -> Forall2 trees l m -> trees (Tree (Begins :: ps) l) (Tree ds m).
  Definition pair_ (x : address * list piece) (y : address * list declaration) : Prop := fst x = fst y /\ exists ps, snd x = Begins :: ps /\ one_document ps (snd y).
  Lemma forall2_rev : forall A B (R : A -> B -> Prop) l m, Forall2 R l m -> Forall2 R (rev l) (rev m).
  Proof. intros A B R l m H. induction H; [constructor|]. cbn [rev]. apply Forall2_app; [assumption|constructor; [assumption|constructor]]. Qed.
  Lemma trees_visit : forall t u, trees t u -> forall a, Forall2 pair_ (visit a t) (visit a u).
  Proof.
    fix go 3. intros t u [ps ds l m O F] a. rewrite !visit_eq. apply Forall2_app.
    - clear O. generalize 0%nat. revert l m F. fix all 3. intros l m F. destruct F as [|x y l m Hx F]; intro i; [constructor|]. cbn [visit_all]. apply Forall2_app; [apply go; exact Hx|apply all; exact F].
    - constructor; [|constructor]. split; [reflexivity|]. exists ps. split; [reflexivity|exact O].
  Qed.
  Definition result (x : address * list declaration) (y : precedence * sheet) : Prop := fst y = code (fst x) /\ alike (sheet_of (snd x)) (snd y).
  Lemma ready_alike : forall ds c, ready ds c -> alike (sheet_of ds) (c_sheet c).
  Proof.
    intros ds c [(_ & _ & _ & F4 & F5 & F6 & F7 & F8) _]. unfold alike, sheet_of. cbn [s_templates s_variables s_keys s_output s_cdata]. rewrite F4, F5, F6, F7. repeat split.
    destruct (outputs ds) as [|[m l] [|o os]]; cbn [hd_error option_map fst].
    - destruct (s_output (c_sheet c)); [destruct F8|exact Logic.I].
    - destruct (s_output (c_sheet c)); [exact F8|destruct F8].
    - destruct F8.
  Qed.
  Lemma all_documents : forall l m, Forall2 pair_ l m -> Forall (fun x => sound (snd x)) m -> forall a b c ds, NoDup (a :: map fst m) -> ready ds c ->
    exists z extra, play (concat (map (fun x => map (fun t => (t, code (fst x))) (snd x)) l)) (Sheets b (code a) c) [] = Done (z, []) /\ all_sheets z = b ++ (code a, c_sheet c) :: extra /\ Forall2 result m extra.
  Proof.
    intros l m F. induction F as [|[a1 ps1] [a2 ds2] l m [E (ps & Ep & O)] _ IH]; intros S a b c ds ND R.
    - exists (Sheets b (code a) c), []. split; [reflexivity|]. split; [reflexivity|constructor].
    - cbn [fst snd] in E, Ep, O. subst a1 ps1. pose proof (Forall_inv S) as S1. pose proof (Forall_inv_tail S) as S2. cbn [snd] in S1. cbn [map fst] in ND. inversion ND as [|? ? N1 N2]; subst.
      assert (Np : code a <> code a2). { intro Q. apply code_inj in Q. apply N1. left. symmetry. exact Q. }
      destruct (other_document ps ds2 O b (code a) (code a2) c ds [] Np R ltac:(constructor) S1) as (c' & R' & Ec).
      destruct (IH S2 a2 (b ++ [(code a, c_sheet c)]) c' ds2 N2 R') as (z & extra & Ez & Ea & Fe).
      exists z, ((code a2, c_sheet c') :: extra). split; [|split].
      + cbn [map concat fst snd]. fold (tagged (code a2) (Begins :: ps)). rewrite Ec. exact Ez.
      + rewrite Ea, <- app_assoc. reflexivity.
      + constructor; [|exact Fe]. split; [reflexivity|]. apply ready_alike. exact R'.
  Qed.

  (** * From documents to pieces *)
  Context (world : str -> option xml) (absolute : str -> str -> str).
  Notation unfolds := (unfolds (given_world world) absolute).
  Notation items := (list (item piece)).
  Definition follows (its : items) (ds : list (item declaration)) : Prop :=
    Forall2 trees (concat (map imported_of its)) (concat (map imported_of ds)) /\ list_sum (map documents its) = list_sum (map documents ds).
  Definition shows (main : bool) (chain : list str) (base : str) (t : xml) (ds : list (item declaration)) : Prop :=
    exists its, unfolds main chain base (reports t) its /\ one_document (concat (map own_of its)) (concat (map own_of ds)) /\ follows its ds.
  Definition shows_all (main : bool) (chain : list str) (base : str) (kids : list xml) (ds : list (item declaration)) : Prop :=
    exists its, (forall tail ti, unfolds main chain base tail ti -> unfolds main chain base (flat_map reports kids ++ tail) (its ++ ti)) /\
      gives (concat (map own_of its)) (concat (map own_of ds)) /\ follows its ds.
  Lemma plain_unfolds : forall main chain base evs tail ti, Forall plain_event evs -> unfolds main chain base tail ti ->
    unfolds main chain base (evs ++ tail) (map (fun e => Declares (piece_of e)) evs ++ ti).
  Proof. intros main chain base evs tail ti F. induction F as [|e evs He _ IH]; intro U; [exact U|]. cbn [app map]. apply U_plain; [exact He|exact (IH U)]. Qed.
  Lemma owns_plain : forall evs : list heard, concat (map own_of (map (fun e => Declares (piece_of e)) evs)) = map piece_of evs.
  Proof. induction evs as [|e evs IH]; [reflexivity|]. cbn. f_equal. exact IH. Qed.
  Lemma imports_plain : forall evs : list heard, concat (map imported_of (map (fun e => Declares (piece_of e)) evs)) = [].
  Proof. induction evs as [|e evs IH]; [reflexivity|]. exact IH. Qed.
  Lemma counts_plain : forall evs : list heard, list_sum (map documents (map (fun e => Declares (piece_of e)) evs)) = O.
  Proof. induction evs as [|e evs IH]; [reflexivity|]. exact IH. Qed.
  Lemma reports_white : forall l, flat_map (reports (scope := scope)) (map Txt l) = map XInclude.HText l.
  Proof. induction l as [|s l IH]; [reflexivity|]. cbn. f_equal. exact IH. Qed.
  Lemma owns_app : forall T (a b : list (item T)), concat (map own_of (a ++ b)) = concat (map own_of a) ++ concat (map own_of b). Proof. intros. rewrite map_app. apply concat_app. Qed.
  Lemma imports_app : forall T (a b : list (item T)), concat (map imported_of (a ++ b)) = concat (map imported_of a) ++ concat (map imported_of b). Proof. intros. rewrite map_app. apply concat_app. Qed.
  Lemma counts_app : forall T (a b : list (item T)), list_sum (map documents (a ++ b)) = (list_sum (map documents a) + list_sum (map documents b))%nat. Proof. intros. rewrite map_app. apply list_sum_app. Qed.
  Lemma given : forall h doc, world h = Some doc -> given_world world h = Some (Doc (reports doc) true).
  Proof. intros h doc H. unfold given_world. rewrite H. reflexivity. Qed.

  Lemma shown : forall main chain base t ds, module V world absolute main chain base t ds -> shows main chain base t ds.
  Proof.
    apply (module_min scope X M N P V world absolute shows shows_all).
    - intros main chain base g kids ds Rg _ (its & U & G & F & C).
      exists (Declares (Tells (Start g)) :: its ++ [Declares (Tells End)]). split; [|split].
      + cbn [reports]. apply (U_plain _ _ main chain base (HStart g)).
        * cbn [plain_event]. intros [[_ Q]|[_ Q]]; destruct Rg as ([[_ L]|[_ L]] & _); rewrite L in Q; vm_compute in Q; discriminate Q.
        * apply U. apply (U_plain _ _ main chain base (HEnd (g_uri g) (g_local g))); [exact Logic.I|apply U_end].
      + exists g, (concat (map own_of its)). split; [|split; assumption]. cbn [map concat own_of app]. rewrite owns_app. reflexivity.
      + split.
        * cbn [map concat imported_of app]. rewrite imports_app. cbn [map concat imported_of app]. rewrite app_nil_r. exact F.
        * change (list_sum (map documents (its ++ [Declares (Tells End)])) = list_sum (map documents ds)). rewrite counts_app. cbn. rewrite Nat.add_0_r. exact C.
    - intros main chain base. exists []. split; [intros tail ti U; exact U|]. split; [apply gives_nil|]. split; [constructor|reflexivity].
    - intros main chain base t d kids ds O _ (its & U & G & F & C).
      exists (map (fun e => Declares (piece_of e)) (reports t) ++ its). split; [|split; [|split]].
      + intros tail ti Ut. cbn [flat_map]. rewrite <- !app_assoc. apply plain_unfolds; [|apply U; exact Ut].
        destruct O as (_ & _ & _ & _ & J). apply Forall_forall. intros [g| |] I; try exact Logic.I. exact (J g I).
      + rewrite owns_app, owns_plain. cbn [map concat own_of]. apply gives_app; [|exact G]. apply gives_own. exact O.
      + rewrite imports_app, imports_plain. cbn [map concat imported_of app]. exact F.
      + rewrite counts_app, counts_plain. exact C.
    - intros main chain base g h sub doc kids ds inner Rf Nh W _ (its0 & U0 & O0 & F0 & C0) Ws Wm _ (its & U & G & F & C).
      exists ((if main then [Declares (Asks g)] else map (fun s => Declares (Spells s)) sub) ++ Includes (Declares Begins :: its0) :: its).
      assert (Xg : xsl g "include") by apply Rf. split; [|split; [|split]].
      + intros tail ti Ut. cbn [flat_map reports]. rewrite reports_white. destruct Xg as [-> ->]. rewrite <- !app_assoc. cbn [app]. rewrite <- !app_assoc. cbn [app].
        apply (U_include _ _ main chain base g h sub (reports doc)); [exact Rf|exact Nh|apply given; exact W|exact U0|exact Ws|exact Wm|]. apply U. exact Ut.
      + rewrite owns_app. cbn [map concat own_of]. change (concat (map own_of ds)) with ([] ++ concat (map own_of ds)).
        replace (concat (map own_of inner) ++ [] ++ concat (map own_of ds)) with ([] ++ (concat (map own_of inner) ++ concat (map own_of ds))) by reflexivity.
        apply gives_app.
        * destruct main; cbn [map concat own_of app]; [apply gives_asks; left; exact Xg|].
          replace (concat (map own_of (map (fun s => Declares (Spells s)) sub))) with (map (Spells (scope := scope)) sub); [apply gives_spells; exact Ws|].
          clear. induction sub as [|s sub IH]; [reflexivity|]. cbn. f_equal. exact IH.
        * apply gives_app; [|exact G]. cbn [map concat own_of app]. apply gives_document. exact O0.
      + rewrite imports_app. cbn [map concat imported_of app].
        replace (concat (map imported_of (if main then [Declares (Asks g)] else map (fun s => Declares (Spells (scope := scope) s)) sub))) with (@nil (tree piece)).
        * cbn [app]. apply Forall2_app; assumption.
        * destruct main; [reflexivity|]. clear. induction sub as [|s sub IH]; [reflexivity|]. exact IH.
      + rewrite counts_app.
        replace (list_sum (map documents (if main then [Declares (Asks g)] else map (fun s => Declares (Spells (scope := scope) s)) sub))) with O.
        * change (S (list_sum (map documents (Declares Begins :: its0))) + list_sum (map documents its) = S (list_sum (map documents inner)) + list_sum (map documents ds))%nat. rewrite <- C0, <- C. reflexivity.
        * destruct main; [reflexivity|]. clear. induction sub as [|s sub IH]; [reflexivity|]. exact IH.
    - intros main chain base g h sub doc kids ds inner Rf Nh W _ (its0 & U0 & O0 & F0 & C0) Ws Wm _ (its & U & G & F & C).
      exists ((if main then [Declares (Asks g)] else []) ++ Imports (Declares Begins :: its0) :: map (fun s => Declares (Spells s)) sub ++ its).
      assert (Xg : xsl g "import") by apply Rf. split; [|split; [|split]].
      + intros tail ti Ut. cbn [flat_map reports]. rewrite reports_white. destruct Xg as [-> ->]. rewrite <- !app_assoc. cbn [app]. rewrite <- !app_assoc. cbn [app].
        apply (U_import _ _ main chain base g h sub (reports doc)); [exact Rf|exact Nh|apply given; exact W|exact U0|exact Ws|exact Wm|]. apply U. exact Ut.
      + rewrite owns_app. cbn [map concat own_of]. change ([] ++ concat (map own_of ds)) with ([] ++ [] ++ concat (map own_of ds)).
        apply gives_app.
        * destruct main; cbn [map concat own_of app]; [apply gives_asks; right; exact Xg|apply gives_nil].
        * change ([] ++ concat (map own_of (map (fun s => Declares (Spells (scope := scope) s)) sub ++ its))) with (concat (map own_of (map (fun s => Declares (Spells (scope := scope) s)) sub ++ its))). rewrite owns_app. apply gives_app; [|exact G].
          replace (concat (map own_of (map (fun s => Declares (Spells s)) sub))) with (map (Spells (scope := scope)) sub); [apply gives_spells; exact Ws|].
          clear. induction sub as [|s sub IH]; [reflexivity|]. cbn. f_equal. exact IH.
      + rewrite imports_app. cbn [map concat imported_of]. rewrite imports_app.
        replace (concat (map imported_of (map (fun s => Declares (Spells (scope := scope) s)) sub))) with (@nil (tree piece)) by (clear; induction sub as [|s sub IH]; [reflexivity|exact IH]).
        replace (concat (map imported_of (if main then [Declares (Asks g)] else []))) with (@nil (tree piece)) by (destruct main; reflexivity). cbn [app].
        constructor; [|exact F]. constructor; [exact O0|exact F0].
      + rewrite counts_app.
        replace (list_sum (map documents (if main then [Declares (Asks g)] else []))) with O by (destruct main; reflexivity).
        change (S (list_sum (map documents (Declares Begins :: its0))) + list_sum (map documents (map (fun s => Declares (Spells (scope := scope) s)) sub ++ its)) = S (list_sum (map documents inner)) + list_sum (map documents ds))%nat.
        rewrite counts_app. replace (list_sum (map documents (map (fun s => Declares (Spells (scope := scope) s)) sub))) with O by (clear; induction sub as [|s sub IH]; [reflexivity|exact IH]).
        rewrite <- C0, <- C. reflexivity.
  Qed.
  Theorem compiles : forall base main items n ok, module V world absolute true [] base main items ->
    Forall (fun x => sound (snd x)) (visit [] (tree_of items)) -> (list_sum (map documents items) <= n)%nat ->
    exists l, compile_sheets V n (given_world world) absolute base (Doc (reports main) ok) = Done l /\
      Forall2 result (rev (visit [] (tree_of items))) l.
  Proof.
    intros base main items n ok Mo S L. destruct (shown _ _ _ _ _ Mo) as (its & U & O & F & C).
    pose proof (compiled_all (sheets_step V) sheets_begin (given_world world) absolute base (reports main) its n no_sheets ok U) as K. unfold many in K. rewrite C in K. specialize (K L). cbv zeta in K.
    unfold tree_of in *. rewrite visit_eq in S |- *. rewrite visit_eq, rev_app_distr in K. rewrite rev_app_distr. cbn [rev app] in K |- *. cbn [map concat fst snd] in K.
    apply Forall_app in S as [S1 S2]. apply Forall_inv in S2. cbn [snd] in S2.
    assert (R0 : ready [] (Compiler false [] [] 1 false no_sheet : compiler)) by (repeat split).
    destruct (document_plays _ _ O [] (code []) (Compiler false [] [] 1 false no_sheet) [] [] R0 ltac:(constructor) S2) as (c' & R' & E). cbn [app] in R'.
    assert (Fl : Forall2 pair_ (rev (visit_all [] 0 (concat (map imported_of its)))) (rev (visit_all [] 0 (concat (map imported_of items))))).
    { apply forall2_rev. revert F. generalize 0%nat. clear. intros i F. revert i. induction F as [|x y l m Hx _ IH]; intro i; [constructor|]. cbn [visit_all]. apply Forall2_app; [apply trees_visit; exact Hx|apply IH]. }
    destruct (all_documents _ _ Fl) with (a := @nil nat) (b := @nil (precedence * sheet (X := X) (M := M) (N := N) (P := P))) (c := c') (ds := concat (map own_of items)) as (z & extra & Ez & Ea & Fe).
    - apply Forall_rev. exact S1.
    - pose proof (tree_rises _ items) as Q. unfold tree_of in Q. rewrite visit_eq, map_app in Q. cbn [map fst] in Q. rewrite map_rev.
      assert (ND : NoDup (map fst (visit_all [] 0 (concat (map imported_of items))) ++ [[]])).
      { exact (sorted_nodup _ Q). }
      apply NoDup_rev in ND. rewrite rev_app_distr in ND. exact ND.
    - exact R'.
    - exists (all_sheets z).
      assert (Pl : play (concat (map (fun x => map (fun t => (t, code (fst x))) (snd x)) (([], concat (map own_of its)) :: rev (visit_all [] 0 (concat (map imported_of its)))))) (sheets_begin no_sheets) [] = Done (z, [])).
      { cbn [map concat fst snd]. rewrite <- Ez. exact (E _). }
      split.
      + unfold compile_sheets. cbn [map concat fst snd] in Pl. rewrite Pl in K. rewrite K by discriminate. reflexivity.
      + rewrite Ea. cbn [app]. constructor; [|exact Fe]. split; [reflexivity|]. apply ready_alike. exact R'.
  Qed.
End Sheets.
