(** The declaration and the document type of a result; reading a whole result. *)
From Coq Require Import String.
From Verif.Model Require Import Base Containers Attrs Text Uri XSort XOutput XSink.
From Verif.Spec Require Import TextSpec XmlRead XSinkSpec.
From Verif.Proof Require Import Tac ContainersProof TextProof XmlReadProof WriterProof XSinkProof.
From Coq Require Import List Lia Bool.
Import ListNotations.
Open Scope Z_scope.

(** * Settings *)
Lemma value_setting : forall n s, setting (ascii_str n) s = value n s.
Proof.
  intros n s. unfold setting, value. induction s as [|(a, b) s IH]; [reflexivity|]. cbn [mm_find find fst]. destruct (str_eqb a (ascii_str n)); [reflexivity|exact IH].
Qed.
Lemma omits_setting : forall s, is_setting "omit-xml-declaration" "yes" s = omits s.
Proof. intros. unfold is_setting, omits. rewrite value_setting. reflexivity. Qed.

(** * The first node *)
Definition decl_attrs (s : list (str * str)) : list (str * str) :=
  (ascii_str "version", match value "version" s with [] => ascii_str "1.0" | v => v end)
  :: match value "standalone" s with [] => [] | v => [(ascii_str "standalone", v)] end.
Definition doctype_text (d : option doctype) : str :=
  match d with
  | None => []
  | Some (q, p, sys) => ascii_str "<!DOCTYPE " ++ q ++ [10] ++ (match p with None => ascii_str "  SYSTEM " | Some p => ascii_str "  PUBLIC " ++ quoted p ++ [32] end) ++ quoted sys ++ ascii_str ">" ++ [10]
  end.
Definition doctype_at (s : list (str * str)) (e : event) : option doctype :=
  match e, value "doctype-system" s with
  | Start q _ _, (_ :: _) as sys => Some (q, match value "doctype-public" s with [] => None | p => Some p end, sys)
  | _, _ => None
  end.
Definition root_name (e : event) : str := match e with Start q _ _ => q | _ => [] end.
Lemma decl_attrs_ok : forall s, attrs_ok (decl_attrs s).
Proof.
  intros s. assert (A : is_name (ascii_str "version")) by (split; [discriminate|reflexivity]). assert (B : is_name (ascii_str "standalone")) by (split; [discriminate|reflexivity]).
  unfold decl_attrs. destruct (value "standalone" s); split; cbn [map fst].
  - apply Forall_cons; [assumption|apply Forall_nil].
  - repeat constructor. intros [].
  - repeat (apply Forall_cons; [assumption|]). apply Forall_nil.
  - constructor; [intros [E|[]]; discriminate E|]. constructor; [intros []|constructor].
Qed.
Definition first_text (s : list (str * str)) (d : option doctype) : str :=
  ascii_str "<?xml" ++ render_attrs (decl_attrs s) ++ [63; 62] ++ [10] ++ doctype_text d.
Lemma decl_first : forall e k, settings_ok (k_settings k) -> is_setting "method" "text" (k_settings k) = false -> omits (k_settings k) = false ->
  match e with Start q _ _ => q <> [] | _ => True end ->
  decl (root_name e) k = (first_text (k_settings k) (doctype_at (k_settings k) e), with_root true k).
Proof.
  intros e k SO M O Q. unfold decl. rewrite M, omits_setting, O, !value_setting. cbn [orb]. destruct SO as (V & T & _). unfold first_text. f_equal.
  assert (VE : attribute_escape (match value "version" (k_settings k) with [] => ascii_str "1.0" | v => v end) = match value "version" (k_settings k) with [] => ascii_str "1.0" | v => v end).
  { destruct (value "version" (k_settings k)) as [|c v]; [reflexivity|]. destruct V as [V|V]; [discriminate|]. apply decl_attr_plain. exact V. }
  assert (TE : match value "standalone" (k_settings k) with [] => [] | _ => ascii_str " standalone=" ++ quoted (value "standalone" (k_settings k)) end = render_attrs (match value "standalone" (k_settings k) with [] => [] | v => [(ascii_str "standalone", v)] end)).
  { destruct (value "standalone" (k_settings k)) as [|c v]; [reflexivity|]. destruct T as [T|T]; [discriminate|]. cbn [render_attrs flat_map]. unfold render_attr. cbn [fst snd]. rewrite decl_attr_plain by exact T. rewrite app_nil_r. reflexivity. }
  assert (DE : match root_name e with [] => [] | _ => match value "doctype-system" (k_settings k) with [] => [] | _ => ascii_str "<!DOCTYPE " ++ root_name e ++ [10] ++ (match value "doctype-public" (k_settings k) with [] => ascii_str "  SYSTEM " ++ quoted (value "doctype-system" (k_settings k)) | _ => ascii_str "  PUBLIC " ++ quoted (value "doctype-public" (k_settings k)) ++ [32] ++ quoted (value "doctype-system" (k_settings k)) end) ++ ascii_str ">" ++ [10] end end = doctype_text (doctype_at (k_settings k) e)).
  { unfold doctype_at. destruct e; try reflexivity. cbn [root_name]. destruct qname as [|c q]; [congruence|]. destruct (value "doctype-system" (k_settings k)) as [|d sys]; [reflexivity|]. cbn [doctype_text]. destruct (value "doctype-public" (k_settings k)); rewrite <- ?app_assoc; reflexivity. }
  unfold decl_attrs, render_attrs. cbn [flat_map]. fold (render_attrs (match value "standalone" (k_settings k) with [] => [] | v => [(ascii_str "standalone", v)] end)). rewrite <- TE. unfold render_attr. cbn [fst snd]. rewrite VE.
  match goal with |- ?l = _ => replace l with (ascii_str "<?xml version=" ++ quoted (match value "version" (k_settings k) with [] => ascii_str "1.0" | v => v end) ++ match value "standalone" (k_settings k) with [] => [] | _ => ascii_str " standalone=" ++ quoted (value "standalone" (k_settings k)) end ++ ascii_str "?>" ++ [10] ++ doctype_text (doctype_at (k_settings k) e)) end.
  - unfold quoted. rewrite <- !app_assoc. reflexivity.
  - rewrite <- DE. do 5 f_equal.
Qed.
Lemma event_first : forall e k, k_root k = false -> k_empty k = false -> settings_ok (k_settings k) -> is_setting "method" "text" (k_settings k) = false -> omits (k_settings k) = false ->
  match e with Start q _ _ => q <> [] | EndCdata | Escaping _ => False | _ => True end ->
  sink_event e k = match sink_event e (with_root true k) with Some (t, k1) => Some (first_text (k_settings k) (doctype_at (k_settings k) e) ++ t, k1) | None => None end.
Proof.
  intros e k R E SO M O X. assert (D : decl_if_first (root_name e) k = (first_text (k_settings k) (doctype_at (k_settings k) e), with_root true k)).
  { unfold decl_if_first. rewrite R. apply decl_first; auto. destruct e; try exact Logic.I; exact X. }
  assert (DT : forall q, decl_if_first q (with_root true k) = ([], with_root true k)) by reflexivity.
  destruct e; try contradiction; cbn [sink_event root_name] in *; unfold close_if_empty; change (k_empty (with_root true k)) with (k_empty k); rewrite ?E, ?D, ?DT; change (k_empty (with_root true k)) with (k_empty k); rewrite ?E; cbn [app]; try reflexivity.
  - destruct (write_indent (with_root true k)) as (i, k1). cbn [app]. reflexivity.
  - destruct (outdent false (with_root true k)) as (i, k1). reflexivity.
  - destruct (characters_text s (with_root true k)); rewrite ?app_nil_r; reflexivity.
Qed.
Definition started_ok (e : event) : Prop := match e with Start q _ _ => q <> [] | EndCdata => False | _ => True end.
Lemma run_first : forall evs k e, find writes evs = Some e -> started_ok e -> k_root k = false -> k_empty k = false -> settings_ok (k_settings k) -> is_setting "method" "text" (k_settings k) = false -> omits (k_settings k) = false ->
  sink_run evs k = match sink_run evs (with_root true k) with Some (t, k1) => Some (first_text (k_settings k) (doctype_at (k_settings k) e) ++ t, k1) | None => None end.
Proof.
  induction evs as [|x evs IH]; intros k e F OK R E SO M O; [discriminate|]. cbn [find] in F. destruct (writes x) eqn:W.
  - injection F as <-. cbn [sink_run]. rewrite (event_first x k R E SO M O) by (destruct x; try exact OK; discriminate). destruct (sink_event x (with_root true k)) as [(t, k1)|]; [|reflexivity].
    destruct (sink_run evs k1) as [(t', k2)|]; [|reflexivity]. rewrite app_assoc. reflexivity.
  - destruct x; try discriminate. cbn [sink_run sink_event]. rewrite (IH (with_disable disable k) e F OK R E SO M O). cbn [with_disable k_settings].
    change (with_root true (with_disable disable k)) with (with_disable disable (with_root true k)). change (with_root true (Sink disable (k_cdata k) (k_empty k) (k_root k) (k_indent k) (k_again k) (k_settings k) (k_runaway k))) with (with_disable disable (with_root true k)).
    destruct (sink_run evs (with_disable disable (with_root true k))) as [(t', k2)|]; reflexivity.
Qed.
Lemma run_silent : forall evs k, existsb writes evs = false -> exists k', sink_run evs k = Some ([], k') /\ k_runaway k' = k_runaway k.
Proof.
  induction evs as [|x evs IH]; intros k W; [exists k; auto|]. cbn [existsb] in W. apply orb_false_iff in W. destruct W as (W1 & W2). destruct x; try discriminate.
  destruct (IH (with_disable disable k) W2) as (k' & E & R). exists k'. cbn [sink_run sink_event]. rewrite E. split; [reflexivity|exact R].
Qed.

(** * Reading *)
Lemma read_decl_attrs : forall atts r, attrs_ok atts -> atts <> [] -> read_decl ([60; 63; 120; 109; 108] ++ render_attrs atts ++ [63; 62] ++ r) = Some (atts, r).
Proof.
  intros atts r A NE. unfold read_decl. rewrite starts_app.
  pose proof (read_attrs_render atts (S (length (render_attrs atts ++ [63; 62] ++ r))) ([63; 62] ++ r) A eq_refl) as R.
  destruct (render_attrs atts ++ [63; 62] ++ r) as [|c t] eqn:E.
  - destruct atts as [|(a, b) l]; [congruence|]. cbn in E. discriminate.
  - assert (c = 32) as ->. { destruct atts as [|(a, b) l]; [congruence|]. cbn in E. injection E as E _. congruence. }
    change (white 32) with true. cbv iota. rewrite R; [reflexivity|]. rewrite <- E, app_length. lia.
Qed.
Lemma skip_white_app : forall w r, forallb white w = true -> skip_white (w ++ r) = skip_white r.
Proof.
  induction w as [|c w IH]; intros r W; [reflexivity|]. cbn [forallb] in W. bsplit. unfold skip_white in *. cbn [app span]. rewrite H. rewrite <- IH by assumption. destruct (span white (w ++ r)). reflexivity.
Qed.
Lemma no_doctype : forall f open toks text, fine f open toks text -> starts (ascii_str "<!DOCTYPE") (skip_white text) = None.
Proof.
  intros f open toks text (rs & l & -> & O & _). change (ascii_str "<!DOCTYPE") with [60; 33; 68; 79; 67; 84; 89; 80; 69]. induction rs as [|k rs IH]; [reflexivity|]. inversion O as [|? ? Ok Or]; subst. cbn [flat_map].
  assert (NW : forall x s, white x = false -> skip_white (x :: s) = x :: s) by (intros x s X; unfold skip_white; cbn [span]; rewrite X; reflexivity).
  assert (NL : forall x s, x <> 60 -> starts [60; 33; 68; 79; 67; 84; 89; 80; 69] (x :: s) = None) by (intros x s X; cbn [starts]; destruct (Z.eqb_spec 60 x); [congruence|reflexivity]).
  destruct k; cbn [render].
  - cbn [app]. rewrite NW by reflexivity. destruct n as [|c n]; [destruct Ok as ((N & _) & _); congruence|]. cbn [app starts]. change (60 =? 60) with true. cbv iota. destruct (Z.eqb_spec 33 c) as [<-|]; [|reflexivity]. destruct Ok as ((_ & N) & _). discriminate N.
  - reflexivity.
  - unfold text_escape1. destruct (Z.eqb_spec c 60); [cbn [app]; rewrite NW by reflexivity; apply NL; discriminate|]. destruct (Z.eqb_spec c 62); [cbn [app]; rewrite NW by reflexivity; apply NL; discriminate|]. destruct (Z.eqb_spec c 38); [cbn [app]; rewrite NW by reflexivity; apply NL; discriminate|].
    cbn [app]. destruct (white c) eqn:Wc.
    + change (c :: flat_map render rs) with ([c] ++ flat_map render rs). rewrite skip_white_app by (cbn; rewrite Wc; reflexivity). apply IH. exact Or.
    + rewrite NW by exact Wc. apply NL. exact n.
  - reflexivity.
  - reflexivity.
  - reflexivity.
  - reflexivity.
Qed.
Lemma until_quote : forall s r, ~ In 34 s -> read_literal (quoted s ++ r) = Some (s, r).
Proof. intros s r N. unfold quoted. rewrite <- !app_assoc. cbn [app read_literal]. change ((34 =? 34) || (34 =? 39)) with true. cbv iota. apply until_char. exact N. Qed.
Lemma read_doctype_text : forall q p sys r, is_name q -> (match p with Some p => ~ In 34 p | None => True end) -> ~ In 34 sys ->
  read_doctype ([10] ++ doctype_text (Some (q, p, sys)) ++ r) = Some (Some (q, p, sys), [10] ++ r).
Proof.
  intros q p sys r Q P S. unfold read_doctype. rewrite skip_white_app by reflexivity. cbn [doctype_text]. rewrite <- !app_assoc.
  set (rest := (match p with None => ascii_str "  SYSTEM " | Some p => ascii_str "  PUBLIC " ++ quoted p ++ [32] end) ++ quoted sys ++ ascii_str ">" ++ [10] ++ r).
  rewrite skip_white_id by reflexivity. change (ascii_str "<!DOCTYPE " ++ q ++ [10] ++ rest) with (ascii_str "<!DOCTYPE" ++ [32] ++ q ++ [10] ++ rest). rewrite starts_app. cbn [some_white app]. change (white 32) with true. cbv iota.
  destruct q as [|c q]; [destruct Q as (Q & _); congruence|]. destruct (name_not_white _ c q Q eq_refl) as (Wc & _). change (32 :: (c :: q) ++ 10 :: rest) with (32 :: (c :: q ++ 10 :: rest)). rewrite skip_white_one by exact Wc. change (c :: q ++ 10 :: rest) with ((c :: q) ++ 10 :: rest). rewrite read_name_app; [|exact Q|reflexivity]. cbn [some_white]. change (white 10) with true. cbv iota.
  change (10 :: rest) with ([10] ++ rest). rewrite skip_white_app by reflexivity.
  assert (QW : forall s t, quoted s ++ t = 34 :: s ++ 34 :: t) by (intros; unfold quoted; cbn [app]; rewrite <- app_assoc; reflexivity).
  destruct p as [p|]; unfold rest.
  - change ((ascii_str "  PUBLIC " ++ quoted p ++ [32]) ++ quoted sys ++ ascii_str ">" ++ [10] ++ r) with (ascii_str "  PUBLIC" ++ ([32] ++ quoted p ++ [32]) ++ quoted sys ++ ascii_str ">" ++ [10] ++ r).
    change (ascii_str "  PUBLIC") with ([32; 32] ++ ascii_str "PUBLIC"). rewrite <- !app_assoc. rewrite skip_white_app by reflexivity. rewrite skip_white_id by reflexivity.
    unfold read_external. rewrite starts_app. change (starts (ascii_str "SYSTEM") (ascii_str "PUBLIC" ++ ?x)) with (@None (list Z)). cbv iota. cbn [some_white app]. change (white 32) with true. cbv iota.
    change (32 :: quoted p ++ ?x) with ([32] ++ quoted p ++ x). rewrite skip_white_app by reflexivity. rewrite skip_white_id by (rewrite QW; reflexivity). rewrite until_quote by exact P. cbn [some_white]. change (white 32) with true. cbv iota.
    change (32 :: quoted sys ++ ?x) with ([32] ++ quoted sys ++ x). rewrite skip_white_app by reflexivity. rewrite skip_white_id by (rewrite QW; reflexivity). rewrite until_quote by exact S. rewrite skip_white_id by reflexivity. reflexivity.
  - change (ascii_str "  SYSTEM " ++ quoted sys ++ ascii_str ">" ++ [10] ++ r) with ([32; 32] ++ ascii_str "SYSTEM" ++ [32] ++ quoted sys ++ ascii_str ">" ++ [10] ++ r).
    rewrite skip_white_app by reflexivity. rewrite skip_white_id by reflexivity. unfold read_external. rewrite starts_app. cbn [some_white app]. change (white 32) with true. cbv iota.
    change (32 :: quoted sys ++ ?x) with ([32] ++ quoted sys ++ x). rewrite skip_white_app by reflexivity. rewrite skip_white_id by (rewrite QW; reflexivity). rewrite until_quote by exact S. rewrite skip_white_id by reflexivity. reflexivity.
Qed.

Lemma first_nocr : forall s e, settings_ok s -> match e with Start q _ _ => is_name q | _ => True end -> ~ In 13 (first_text s (doctype_at s e)).
Proof.
  intros s e (V & T & P1 & P2 & S1 & S2) Q H. unfold first_text in H. rewrite !in_app_iff in H. destruct H as [H|[H|[H|[H|H]]]].
  - vm_compute in H. intuition discriminate.
  - revert H. apply render_attrs_cr. apply (proj1 (decl_attrs_ok s)).
  - cbn in H. intuition discriminate.
  - cbn in H. intuition discriminate.
  - unfold doctype_at in H. destruct e; try contradiction. destruct (value "doctype-system" s) as [|c sys] eqn:ES; [contradiction|]. cbn [doctype_text] in H. rewrite !in_app_iff in H.
    destruct H as [H|[H|[H|[H|[H|[H|H]]]]]].
    + vm_compute in H. intuition discriminate.
    + revert H. apply name_no; [exact Q|reflexivity].
    + cbn in H. intuition discriminate.
    + destruct (value "doctype-public" s) as [|d p].
      * vm_compute in H. intuition discriminate.
      * unfold quoted in H. rewrite !in_app_iff in H. destruct H as [H|[[H|[H|H]]|H]]; try (vm_compute in H; intuition discriminate). exact (P2 H).
    + unfold quoted in H. rewrite !in_app_iff in H. destruct H as [H|[H|H]]; try (vm_compute in H; intuition discriminate). exact (S2 H).
    + vm_compute in H. intuition discriminate.
    + cbn in H. intuition discriminate.
Qed.
Lemma first_writable : forall evs e, find writes evs = Some e -> writable [] None evs -> started_ok e /\ match e with Start q _ _ => is_name q | _ => True end.
Proof.
  induction evs as [|x evs IH]; intros e F W; [discriminate|]. cbn [find] in F. destruct (writes x) eqn:E.
  - injection F as <-. destruct x; cbn [writable] in W; cbn [started_ok]; auto. destruct W as (W & _). split; [apply W|exact W].
  - destruct x; try discriminate. cbn [writable] in W. destruct W as (_ & W). exact (IH e F W).
Qed.
Lemma new_ok : forall f s, (is_setting "indent" "yes" s = false \/ forall c, white c = true -> f c = false) -> no_decl_left (with_root true (new_sink s)) /\ state_ok f PNone [] (with_root true (new_sink s)) /\ (omits s = true -> state_ok f PNone [] (new_sink s)).
Proof.
  intros f s F. assert (I : indent_ok f 0 (new_sink s)). { unfold indent_ok, new_sink. cbn [k_indent k_again]. destruct (is_setting "indent" "yes" s); [right; split; [reflexivity|destruct F; [discriminate|assumption]]|left; auto]. }
  split; [left; reflexivity|]. split; [repeat split; [left; reflexivity|exact I]|]. intros O. repeat split; [|exact I]. right. cbn [new_sink k_settings]. rewrite omits_setting, O. apply orb_true_r.
Qed.
Theorem sink_reads : forall f s evs, (is_setting "indent" "yes" s = false \/ forall c, white c = true -> f c = false) -> is_setting "method" "text" s = false -> settings_ok s -> writable [] None evs ->
  exists text l, sink_text s evs = Some text /\ read_document text = Some (expected_decl s evs, expected_doctype s evs, l) /\ join l = l /\
    join (map (keep_text f) l) = join (map (keep_text f) (expected_toks s evs)).
Proof.
  intros f s evs Hf M SO W. destruct (new_ok f s Hf) as (_ & N1 & N2). unfold sink_text, read_document, expected_decl, expected_doctype, expected_toks. destruct (omits s) eqn:O.
  - cbn [orb app]. destruct (claim_all f evs PNone [] (new_sink s) (Forall_nil _) Logic.I (N2 eq_refl) W) as (text & k' & R & RA & F). cbn [pend_toks pend_text app] in F. rewrite R, RA.
    destruct (fine_read _ _ _ F) as (l & RL & JL & J). exists text, l. split; [reflexivity|]. rewrite eol_id by exact (fine_nocr _ _ _ _ F). rewrite (no_decl _ _ _ _ F). unfold read_doctype. rewrite (no_doctype _ _ _ _ F), RL. auto.
  - cbn [orb]. destruct (existsb writes evs) eqn:EW; cbn [negb].
    + destruct (find writes evs) as [e|] eqn:FE.
      2:{ exfalso. apply existsb_exists in EW. destruct EW as (x & I & X). apply (find_none _ _ FE) in I. congruence. }
      destruct (first_writable evs e FE W) as (OK & Q). destruct (claim_all f evs PNone [] _ (Forall_nil _) Logic.I N1 W) as (text & k' & R & RA & F). cbn [pend_toks pend_text app] in F.
      rewrite (run_first evs (new_sink s) e FE OK eq_refl eq_refl SO M O), R, RA. change (k_settings (new_sink s)) with s.
      exists (first_text s (doctype_at s e) ++ text). pose proof (fine_cons f (RChar 10) [] [] [TText [10]] _ _ ltac:(discriminate) eq_refl F) as F'. change (render (RChar 10)) with [10] in F'.
      destruct (fine_read _ _ _ F') as (l & RL & JL & J). exists l. split; [reflexivity|]. rewrite eol_id.
      2:{ intros H. apply in_app_or in H. destruct H as [H|H]; [exact (first_nocr s e SO Q H)|exact (fine_nocr _ _ _ _ F H)]. }
      unfold first_text. rewrite <- !app_assoc. change (ascii_str "<?xml") with [60; 63; 120; 109; 108]. rewrite read_decl_attrs; [|apply decl_attrs_ok|discriminate].
      assert (RD : read_doctype ([10] ++ doctype_text (doctype_at s e) ++ text) = Some (doctype_at s e, [10] ++ text)).
      { destruct (doctype_at s e) as [((q, p), sys)|] eqn:D.
        - unfold doctype_at in D. destruct e; try discriminate. destruct SO as (_ & _ & P1 & _ & S1 & _). destruct (value "doctype-system" s) as [|c sys'] eqn:ES; [discriminate|]. injection D as <- <- <-. apply read_doctype_text; [exact Q| |exact S1]. destruct (value "doctype-public" s); [exact Logic.I|exact P1].
        - change ([10] ++ doctype_text None ++ text) with ([10] ++ text). unfold read_doctype. rewrite (no_doctype _ _ _ _ F'). reflexivity. }
      rewrite RD, RL. split; [|auto]. unfold decl_attrs, doctype_at. destruct e; reflexivity.
    + destruct (run_silent evs (new_sink s) EW) as (k' & R & RA). rewrite R, RA. exists [], []. split; [reflexivity|].
      assert (FN : find writes evs = None). { destruct (find writes evs) as [e|] eqn:FE; [|reflexivity]. apply find_some in FE. destruct FE as (I & X). assert (existsb writes evs = true) by (apply existsb_exists; eauto). congruence. }
      rewrite FN. assert (TN : flat_map event_tok evs = []). { clear - EW. induction evs as [|x evs IH]; [reflexivity|]. cbn [existsb] in EW. apply orb_false_iff in EW. destruct EW as (E1 & E2). destruct x; try discriminate. exact (IH E2). }
      rewrite TN. cbn. auto.
Qed.
Lemma sink_exact : forall s evs, is_setting "indent" "yes" s = false -> is_setting "method" "text" s = false -> settings_ok s -> writable [] None evs ->
  exists text, sink_text s evs = Some text /\ read_document text = Some (expected_decl s evs, expected_doctype s evs, join (expected_toks s evs)).
Proof.
  intros s evs I M SO W. destruct (sink_reads (fun _ => true) s evs (or_introl I) M SO W) as (text & l & T & R & J1 & J2). exists text. split; [exact T|]. rewrite R. rewrite !keep_all in J2. congruence.
Qed.
Lemma sink_indented : forall s evs, is_setting "method" "text" s = false -> settings_ok s -> writable [] None evs ->
  exists text l, sink_text s evs = Some text /\ read_document text = Some (expected_decl s evs, expected_doctype s evs, l) /\ without_white l = without_white (expected_toks s evs).
Proof.
  intros s evs M SO W. destruct (sink_reads (fun c => negb (white c)) s evs) as (text & l & T & R & _ & J); auto.
  - right. intros c ->. reflexivity.
  - exists text, l. auto.
Qed.
Lemma sink_plain : forall s ts, is_setting "method" "text" s = true -> exists text, sink_text s (Escaping true :: map Chars ts) = Some text /\ text = concat ts.
Proof.
  intros s ts M. eexists. split; [|reflexivity]. unfold sink_text. cbn [sink_run sink_event].
  assert (C : forall k, k_empty k = false -> k_cdata k = false -> k_disable k = true -> is_setting "method" "text" (k_settings k) = true -> sink_run (map Chars ts) k = Some (concat ts, k)).
  { induction ts as [|t ts IH]; intros k E C D S; [reflexivity|]. cbn [map sink_run sink_event concat]. unfold close_if_empty, decl_if_first, decl. rewrite E, S. cbn [orb].
    assert (X : (if k_root k then ([] : str, k) else ([], k)) = ([], k)) by (destruct (k_root k); reflexivity). rewrite X. cbn [app]. unfold characters_text. rewrite D, C. cbn [negb andb]. rewrite (IH k E C D S). reflexivity. }
  rewrite C; [|reflexivity|reflexivity|reflexivity|exact M]. reflexivity.
Qed.
