(** The text of a result can be read back. *)
From Coq Require Import String.
From Verif.Model Require Import Base Containers Attrs Text Uri XSort XOutput XSink.
From Verif.Spec Require Import TextSpec XmlRead XSinkSpec.
From Verif.Proof Require Import Tac ContainersProof TextProof XmlReadProof.
From Coq Require Import List Lia Bool.
Import ListNotations.
Open Scope Z_scope.

(** * CDATA *)
Lemma prefix_split : forall p s, is_prefix p s = true -> exists b, s = p ++ b.
Proof.
  induction p as [|x p IH]; intros s E; [exists s; reflexivity|]. destruct s as [|c s]; [discriminate|]. cbn in E. bsplit.
  apply Z.eqb_eq in H. subst c. destruct (IH s H0) as (b & ->). exists b. reflexivity.
Qed.
Lemma prefix_app : forall p b, is_prefix p (p ++ b) = true.
Proof. induction p as [|x p IH]; intros b; [reflexivity|]. cbn. rewrite Z.eqb_refl. apply IH. Qed.
Lemma scan_none : forall pat s k, ~ contains pat s -> scan_sub pat s k = None.
Proof.
  intros pat s. induction s as [|c s IH]; intros k N; cbn [scan_sub].
  - destruct (is_prefix pat []) eqn:E; [|reflexivity]. destruct (prefix_split _ _ E) as (b & E2). destruct N. exists [], b. exact E2.
  - destruct (is_prefix pat (c :: s)) eqn:E.
    + destruct (prefix_split _ _ E) as (b & E2). destruct N. exists [], b. exact E2.
    + apply IH. intros (a & b & ->). apply N. exists (c :: a), b. reflexivity.
Qed.
(** The first occurrence is found. *)
Lemma scan_first : forall a b k, ~ contains cdata_sep (a ++ [93; 93]) -> scan_sub cdata_sep (a ++ cdata_sep ++ b) k = Some (k + length a)%nat.
Proof.
  induction a as [|c a IH]; intros b k N.
  - cbn [app length]. rewrite PeanoNat.Nat.add_0_r. reflexivity.
  - cbn [app scan_sub length]. destruct (is_prefix cdata_sep (c :: a ++ cdata_sep ++ b)) eqn:E.
    + exfalso. apply N. destruct a as [|d [|e a]]; cbn [app is_prefix cdata_sep] in E; bsplit.
      * discriminate.
      * discriminate.
      * exists [], (a ++ [93; 93]). repeat match goal with X : (_ =? _) = true |- _ => apply Z.eqb_eq in X end. subst. reflexivity.
    + rewrite IH; [f_equal; lia|]. intros (x & y & E2). apply N. exists (c :: x), y. cbn [app]. rewrite E2. reflexivity.
Qed.
Lemma find_from : forall pat a b, find_sub pat (a ++ b) (length a) = scan_sub pat b (length a).
Proof.
  intros. unfold find_sub. rewrite app_length. rewrite (proj2 (PeanoNat.Nat.ltb_ge (length a + length b) (length a))) by lia.
  rewrite skipn_app, PeanoNat.Nat.sub_diag, skipn_all. reflexivity.
Qed.
Lemma cdata_none : forall s k, k_cdata k = true -> ~ contains cdata_sep s -> characters_text s k = Some s.
Proof.
  intros s k E N. unfold characters_text. rewrite E, andb_false_r. change cdata_end with cdata_sep. change (find_sub cdata_sep s 0) with (find_sub cdata_sep ([] ++ s) (length (@nil Z))).
  rewrite find_from, scan_none by exact N. reflexivity.
Qed.
Lemma cdata_one : forall a b k, k_cdata k = true -> ~ contains cdata_sep (a ++ [93; 93]) -> ~ contains cdata_sep b ->
  characters_text (a ++ cdata_sep ++ b) k = Some (a ++ [93; 93] ++ cdata_end ++ cdata_start ++ [62] ++ b).
Proof.
  intros a b k E N M. unfold characters_text. rewrite E, andb_false_r. change cdata_end with cdata_sep.
  change (find_sub cdata_sep (a ++ cdata_sep ++ b) 0) with (find_sub cdata_sep ([] ++ a ++ cdata_sep ++ b) (length (@nil Z))).
  rewrite find_from, scan_first by exact N. cbn [cdata_loop length Nat.add].
  assert (L : (length a + 2 = length (a ++ [93%Z; 93%Z]))%nat) by (rewrite app_length; reflexivity).
  change (a ++ cdata_sep ++ b) with (a ++ [93; 93] ++ [62] ++ b). rewrite (app_assoc a [93; 93]). rewrite L. change cdata_end with cdata_sep. rewrite find_from, scan_none.
  - f_equal. cbn [skipn]. rewrite firstn_app, PeanoNat.Nat.sub_diag, firstn_all, skipn_app, PeanoNat.Nat.sub_diag, skipn_all. cbn [firstn skipn app].
    rewrite app_nil_r, <- !app_assoc. reflexivity.
  - intros (x & y & E2). destruct x as [|c x]; [discriminate|]. apply M. exists x, y. injection E2 as _ E2. exact E2.
Qed.

(** * The calls *)
Inductive pend := PNone | PStart (n : str) (a : list (str * str)) | PCData (t : str).
Definition pend_text (p : pend) : str :=
  match p with PNone => [] | PStart n a => [60] ++ n ++ render_attrs a | PCData t => cdata_start ++ t end.
Definition pend_toks (p : pend) : list tok :=
  match p with PNone => [] | PStart n a => [TStart n a] | PCData t => [TText t] end.
Definition pend_open (p : pend) (open : list str) : list str := match p with PStart n _ => n :: open | _ => open end.
Definition pend_cd (p : pend) : option str := match p with PCData t => Some t | _ => None end.
Definition pend_ok (p : pend) : Prop :=
  match p with PNone => True | PStart n a => is_name n /\ attrs_ok a | PCData t => cdata_ok t end.

Definition no_decl_left (k : sink) : Prop :=
  k_root k = true \/ is_setting "method" "text" (k_settings k) || is_setting "omit-xml-declaration" "yes" (k_settings k) = true.
Lemma quiet_decl : forall q k, no_decl_left k -> decl_if_first q k = ([], k).
Proof. intros q k [R|O]; unfold decl_if_first; [rewrite R; reflexivity|]. destruct (k_root k); [reflexivity|]. unfold decl. rewrite O. reflexivity. Qed.

Lemma attribute_texts : forall atts, flat_map attribute_text atts = render_attrs (map (fun a => (a_qname a, a_value a)) atts).
Proof. intros. unfold render_attrs. rewrite flat_map_concat_map, flat_map_concat_map, map_map. reflexivity. Qed.
Lemma contains_left : forall p a b, contains p a -> contains p (a ++ b).
Proof. intros p a b (x & y & ->). exists x, (y ++ b). rewrite <- !app_assoc. reflexivity. Qed.
Lemma contains_right : forall p a b, contains p b -> contains p (a ++ b).
Proof. intros p a b (x & y & ->). exists (a ++ x), y. rewrite <- !app_assoc. reflexivity. Qed.

Section Run.
  Context (f : Z -> bool).
  (** Either nothing is indented or white space does not count. *)
  Definition indent_ok (depth : nat) (k : sink) : Prop :=
    (k_indent k = -1 /\ k_again k = false) \/ (k_indent k = 2 * Z.of_nat depth /\ forall c, white c = true -> f c = false).
  Definition state_ok (p : pend) (open : list str) (k : sink) : Prop :=
    k_empty k = (match p with PStart _ _ => true | _ => false end) /\ k_cdata k = (match p with PCData _ => true | _ => false end) /\
    no_decl_left k /\ k_disable k = false /\ k_runaway k = false /\ indent_ok (length (pend_open p open)) k.
  Definition claim (evs : list event) : Prop := forall p open k, Forall is_name open -> pend_ok p -> state_ok p open k ->
    writable (pend_open p open) (pend_cd p) evs -> exists text k', sink_run evs k = Some (text, k') /\ k_runaway k' = false /\
    fine f open (pend_toks p ++ flat_map event_tok evs) (pend_text p ++ text).

  Lemma fine_ws : forall open toks ws text, forallb white ws = true -> ~ In 13 ws -> ws = [] \/ (forall c, white c = true -> f c = false) ->
    fine f open toks text -> fine f open toks (ws ++ text).
  Proof.
    intros open toks ws text W C [->|K] F; [exact F|]. apply fine_white; [exact W|exact C| |exact F]. clear C.
    induction ws as [|c ws IH]; [reflexivity|]. cbn [forallb] in W. bsplit. cbn [filter]. rewrite K by assumption. auto.
  Qed.
  Lemma spaces_white : forall n, forallb white (repeat 32 n) = true /\ ~ In 13 (repeat 32 n).
  Proof. induction n as [|n (A & B)]; split; cbn; auto. intros [X|X]; [discriminate|auto]. Qed.

  (** A step that leaves the state in order, in terms of what it writes. *)
  Lemma step : forall e evs k t k1, sink_event e k = Some (t, k1) -> forall text k2, sink_run evs k1 = Some (text, k2) -> sink_run (e :: evs) k = Some (t ++ text, k2).
  Proof. intros e evs k t k1 E text k2 R. cbn [sink_run]. rewrite E, R. reflexivity. Qed.

  Lemma empty_event : forall e k, no_decl_left k -> k_empty k = true -> match e with End_ _ _ | EndCdata | Escaping _ => False | _ => True end ->
    sink_event e k = match sink_event e (with_empty false k) with Some (t, k1) => Some ([62] ++ t, k1) | None => None end.
  Proof.
    intros e k N E X. assert (N' : no_decl_left (with_empty false k)) by exact N.
    destruct e; try contradiction; cbn [sink_event]; unfold close_if_empty; rewrite ?E; cbn [with_empty k_empty]; rewrite ?(quiet_decl _ _ N'), ?(quiet_decl _ _ N), ?E; try reflexivity.
    - unfold write_indent. change (k_indent (with_empty false k)) with (k_indent k). destruct (k_indent k =? -1); [reflexivity|]. destruct (k_indent k <? 0); reflexivity.
    - change (characters_text s (with_empty false k)) with (characters_text s k). destruct (characters_text s k); reflexivity.
  Qed.

  Lemma claim_none : forall e evs, claim evs -> forall open k, Forall is_name open -> state_ok PNone open k ->
    writable open None (e :: evs) -> exists text k', sink_run (e :: evs) k = Some (text, k') /\ k_runaway k' = false /\ fine f open (flat_map event_tok (e :: evs)) text.
  Proof.
    intros e evs IH open k FO (S1 & S2 & S3 & S4 & S5 & S6) W. destruct e; cbn [writable] in W.
    - (* start *) destruct W as (Nq & Na & Nd & W). set (a := map (fun a => (a_qname a, a_value a)) atts).
      assert (AO : attrs_ok a). { unfold attrs_ok, a. rewrite map_map. cbn [fst]. split; assumption. }
      destruct (write_indent k) as (i, k1) eqn:WI.
      assert (SE : sink_event (Start qname uri atts) k = Some (i ++ [60] ++ qname ++ flat_map attribute_text atts, with_empty true k1)).
      { cbn [sink_event]. rewrite (quiet_decl _ _ S3), S1, WI. reflexivity. }
      assert (X : state_ok (PStart qname a) open (with_empty true k1) /\ forallb white i = true /\ ~ In 13 i /\ (i = [] \/ forall c, white c = true -> f c = false)).
      { unfold write_indent in WI. destruct S6 as [(A & B)|(A & B)].
        - rewrite A in WI. injection WI as <- <-. repeat split; try assumption; try reflexivity; auto. left. split; assumption.
        - destruct (Z.eqb_spec (k_indent k) (-1)); [lia|]. injection WI as <- <-. destruct (Z.ltb_spec (k_indent k) 0); [lia|].
          destruct (spaces_white (Z.to_nat (k_indent k))) as (V1 & V2). repeat split; try assumption.
          + right. split; [|exact B]. cbn [with_empty with_indent k_indent pend_open length] in *. lia.
          + rewrite forallb_app, V1, andb_true_r. destruct (k_indent k =? 0); reflexivity.
          + intros J. apply in_app_or in J. destruct J as [J|J]; [|exact (V2 J)]. destruct (k_indent k =? 0); cbn in J; lia.
          + right. exact B. }
      destruct X as (X & I1 & I2 & I3). destruct (IH (PStart qname a) open _ FO (conj Nq AO) X W) as (text & k' & R & RA & F).
      exists ((i ++ [60] ++ qname ++ flat_map attribute_text atts) ++ text), k'. split; [exact (step _ _ _ _ _ SE _ _ R)|]. split; [exact RA|].
      rewrite <- app_assoc. apply fine_ws; auto. cbn [flat_map event_tok pend_text pend_toks] in *. fold a. rewrite attribute_texts. fold a. exact F.
    - (* end *) destruct open as [|n o]; [destruct W|]. destruct W as (-> & W).
      destruct (outdent false k) as (i, k1) eqn:WO.
      assert (SE : sink_event (End_ qname uri) k = Some (preoutdent false k ++ (ascii_str "</" ++ qname ++ ascii_str ">") ++ i, with_empty false k1)).
      { cbn [sink_event]. rewrite (quiet_decl _ _ S3), S1, WO. reflexivity. }
      assert (X : state_ok PNone o (with_empty false k1) /\ i = [] /\ (preoutdent false k = [] \/ forall c, white c = true -> f c = false)).
      { unfold outdent in WO. unfold preoutdent. destruct S6 as [(A & B)|(A & B)].
        - rewrite A in WO. injection WO as <- <-. rewrite B. repeat split; try assumption; try reflexivity; auto. left. split; assumption.
        - destruct (Z.eqb_spec (k_indent k) (-1)); [lia|]. rewrite andb_false_r in WO. injection WO as <- <-. repeat split; try assumption; [|right; exact B].
          right. split; [|exact B]. cbn [with_empty with_indent k_indent pend_open length] in *. lia. }
      destruct X as (X & -> & I3). inversion FO as [|? ? Fn Fo]; subst. destruct (IH PNone o _ Fo Logic.I X W) as (text & k' & R & RA & F).
      eexists. exists k'. split; [exact (step _ _ _ _ _ SE _ _ R)|]. split; [exact RA|]. rewrite <- app_assoc. apply fine_ws.
      + unfold preoutdent. destruct (k_again k); reflexivity.
      + unfold preoutdent. destruct (k_again k); cbn; [intros [Y|[]]; discriminate Y|intros []].
      + exact I3.
      + rewrite app_nil_r. apply (fine_cons f (REnd qname) (qname :: o) o [TEnd qname]); [exact Fn|cbn [piece_of enter]; rewrite text_is_refl; reflexivity|exact F].
    - (* characters *) destruct W as (C & W).
      assert (SE : sink_event (Chars s) k = Some (text_escape s, k)).
      { cbn [sink_event]. unfold close_if_empty. rewrite S1, (quiet_decl _ _ S3). unfold characters_text. rewrite S4, S2. reflexivity. }
      destruct (IH PNone open k FO Logic.I) as (text & k' & R & RA & F); [repeat split; assumption|exact W|].
      eexists. exists k'. split; [exact (step _ _ _ _ _ SE _ _ R)|]. split; [exact RA|]. apply fine_text; assumption.
    - (* CDATA *)
      assert (SE : sink_event StartCdata k = Some (cdata_start, with_cdata true k)).
      { cbn [sink_event]. unfold close_if_empty. rewrite S1, (quiet_decl _ _ S3). reflexivity. }
      destruct (IH (PCData []) open (with_cdata true k) FO) as (text & k' & R & RA & F); [|repeat split; assumption|exact W|].
      { split; [intros []|]. intros (x & y & E). destruct x; discriminate. }
      eexists. exists k'. split; [exact (step _ _ _ _ _ SE _ _ R)|]. split; [exact RA|]. cbn [pend_toks pend_text] in F. rewrite app_nil_r in F.
      destruct F as (rs & l & E & O & N & J). exists rs, l. repeat split; try assumption. intros run. rewrite J. cbn [app map keep_text filter join_acc flat_map event_tok]. rewrite app_nil_r. reflexivity.
    - destruct W.
    - (* comment *) destruct W as (C & W).
      assert (SE : sink_event (Comment s) k = Some (ascii_str "<!--" ++ s ++ ascii_str "-->", k)).
      { cbn [sink_event]. unfold close_if_empty. rewrite S1, (quiet_decl _ _ S3). reflexivity. }
      destruct (IH PNone open k FO Logic.I) as (text & k' & R & RA & F); [repeat split; assumption|exact W|].
      eexists. exists k'. split; [exact (step _ _ _ _ _ SE _ _ R)|]. split; [exact RA|]. apply (fine_cons f (RComment s) open open [TComment s]); [exact C|reflexivity|exact F].
    - (* processing instruction *) destruct W as (Nt & V & C & D & W).
      assert (SE : sink_event (Pi target data) k = Some (ascii_str "<?" ++ target ++ [32] ++ data ++ ascii_str "?>", k)).
      { cbn [sink_event]. unfold close_if_empty. rewrite S1, (quiet_decl _ _ S3). reflexivity. }
      destruct (IH PNone open k FO Logic.I) as (text & k' & R & RA & F); [repeat split; assumption|exact W|].
      eexists. exists k'. split; [exact (step _ _ _ _ _ SE _ _ R)|]. split; [exact RA|].
      destruct (span white data) as (w, d) eqn:SP.
      assert (SD : data = w ++ d /\ forallb white w = true /\ match d with c :: _ => white c = false | [] => True end).
      { clear - SP. revert w d SP. induction data as [|c data IH]; intros w d SP; cbn [span] in SP.
        - injection SP as <- <-. auto.
        - destruct (white c) eqn:Wc.
          + destruct (span white data) as (a, b) eqn:E. injection SP as <- <-. destruct (IH a b eq_refl) as (E1 & E2 & E3). subst data. cbn [forallb]. rewrite Wc. auto.
          + injection SP as <- <-. auto. }
      destruct SD as (ED & Ww & Wd). subst data.
      assert (DW : event_tok (Pi target (w ++ d)) = [TPI target d]) by (cbn [event_tok]; unfold drop_white, skip_white; rewrite SP; reflexivity).
      cbn [flat_map]. rewrite DW.
      change (ascii_str "<?" ++ target ++ [32] ++ (w ++ d) ++ ascii_str "?>") with ([60; 63] ++ target ++ [32] ++ (w ++ d) ++ [63; 62]).
      replace (([60; 63] ++ target ++ [32] ++ (w ++ d) ++ [63; 62]) ++ text) with (render (RWide target (32 :: w) d) ++ text) by (cbn [render app]; rewrite <- !app_assoc; reflexivity).
      apply (fine_cons f (RWide target (32 :: w) d) open open [TPI target d]); [|reflexivity|exact F]. cbn [raw_ok]. split; [|split; [discriminate|split; [exact Ww|]]].
      + split; [exact Nt|]. split; [exact V|]. split; [intros J; apply C; apply in_or_app; auto|]. split; [|exact Wd]. intros J. apply D. apply contains_right. exact J.
      + intros [J|J]; [discriminate|]. apply C. apply in_or_app. auto.
    - (* escaping *) destruct W as (-> & W). destruct (IH PNone open (with_disable false k) FO Logic.I) as (text & k' & R & RA & F); [repeat split; assumption|exact W|].
      exists text, k'. split; [exact (step (Escaping false) _ _ [] _ eq_refl _ _ R)|]. split; [exact RA|exact F].
  Qed.

  Lemma claim_step : forall e evs, claim evs -> claim (e :: evs).
  Proof.
    intros e evs IH p open k FO PO SO W. destruct p as [|n a|t].
    - destruct (claim_none e evs IH open k FO SO W) as (text & k' & R & RA & F). exists text, k'. auto.
    - cbn [pend_text pend_toks pend_open pend_cd pend_ok] in *. destruct PO as (Nn & Na). pose proof SO as (S1 & S2 & S3 & S4 & S5 & S6). cbn [pend_open length] in S6.
      assert (NE : match e with End_ _ _ | EndCdata | Escaping _ => False | _ => True end -> exists text k', sink_run (e :: evs) k = Some (text, k') /\ k_runaway k' = false /\
        fine f open ([TStart n a] ++ flat_map event_tok (e :: evs)) (([60] ++ n ++ render_attrs a) ++ text)).
      { intros X. destruct (claim_none e evs IH (n :: open) (with_empty false k)) as (text & k' & R & RA & F); [constructor; assumption|repeat split; assumption|exact W|].
        exists ([62] ++ text), k'. split; [|split; [exact RA|]].
        - cbn [sink_run] in *. rewrite (empty_event e k S3 S1 X). destruct (sink_event e (with_empty false k)) as [(t, k1)|]; [|discriminate]. destruct (sink_run evs k1) as [(t', k2)|]; [|discriminate]. injection R as <- <-. reflexivity.
        - replace (([60] ++ n ++ render_attrs a) ++ [62] ++ text) with (render (RStart n a false) ++ text) by (cbn [render]; rewrite <- !app_assoc; reflexivity).
          apply (fine_cons f (RStart n a false) open (n :: open) [TStart n a]); [split; assumption|reflexivity|exact F]. }
      destruct e; try (apply NE; exact Logic.I); cbn [writable] in W.
      + (* end *) destruct W as (-> & W). destruct (outdent true k) as (i, k1) eqn:WO.
        assert (SE : sink_event (End_ qname uri) k = Some (preoutdent true k ++ ascii_str "/>" ++ i, with_empty false k1)).
        { cbn [sink_event]. rewrite (quiet_decl _ _ S3), S1, WO. reflexivity. }
        assert (X : state_ok PNone open (with_empty false k1) /\ forallb white i = true /\ ~ In 13 i /\ (i = [] \/ forall c, white c = true -> f c = false)).
        { unfold outdent in WO. destruct S6 as [(A & B)|(A & B)].
          - rewrite A in WO. injection WO as <- <-. repeat split; try assumption; try reflexivity; auto. left. split; assumption.
          - destruct (Z.eqb_spec (k_indent k) (-1)); [lia|]. injection WO as <- <-. repeat split; try assumption.
            + right. split; [|exact B]. cbn [with_empty with_indent k_indent pend_open length] in *. lia.
            + destruct (k_again k); reflexivity.
            + destruct (k_again k); cbn; [intros [Y|[]]; discriminate Y|intros []].
            + right. exact B. }
        destruct X as (X & I1 & I2 & I3). destruct (IH PNone open _ FO Logic.I X W) as (text & k' & R & RA & F).
        eexists. exists k'. split; [exact (step _ _ _ _ _ SE _ _ R)|]. split; [exact RA|]. unfold preoutdent. rewrite andb_false_r. cbn [app].
        cbn [flat_map event_tok app]. change (TStart qname a :: TEnd qname :: flat_map event_tok evs) with ([TStart qname a; TEnd qname] ++ flat_map event_tok evs).
        replace (60 :: (qname ++ render_attrs a) ++ (ascii_str "/>" ++ i) ++ text) with (render (RStart qname a true) ++ i ++ text) by (cbn [render app]; rewrite <- !app_assoc; reflexivity).
        apply (fine_cons f (RStart qname a true) open open); [split; assumption|reflexivity|]. apply fine_ws; assumption.
      + destruct W.
      + (* escaping *) destruct W as (-> & W). destruct (IH (PStart n a) open (with_disable false k) FO (conj Nn Na)) as (text & k' & R & RA & F); [repeat split; assumption|exact W|].
        exists text, k'. split; [exact (step (Escaping false) _ _ [] _ eq_refl _ _ R)|]. split; [exact RA|exact F].
    - cbn [pend_text pend_toks pend_open pend_cd pend_ok] in *. pose proof SO as (S1 & S2 & S3 & S4 & S5 & S6). cbn [pend_open] in S6.
      destruct e; cbn [writable] in W; try contradiction.
      + (* characters *) destruct W as (C & W). destruct PO as (P1 & P2).
        assert (SE : forall t', characters_text s k = Some t' -> sink_event (Chars s) k = Some (t', k)).
        { intros t' E. cbn [sink_event]. unfold close_if_empty. rewrite S1, (quiet_decl _ _ S3), E. reflexivity. }
        destruct W as [(D & W)|(a & b & -> & D & M & W)].
        * assert (CT : characters_text s k = Some s) by (apply cdata_none; [exact S2|intros J; apply D, contains_right, J]).
          destruct (IH (PCData (t ++ s)) open k FO) as (text & k' & R & RA & F); [|repeat split; assumption|exact W|].
          { split; [intros J; apply in_app_or in J; tauto|exact D]. }
          eexists. exists k'. split; [exact (step _ _ _ _ _ (SE _ CT) _ _ R)|]. split; [exact RA|]. cbn [pend_text pend_toks] in F.
          destruct F as (rs & l & E & O & N & J). exists rs, l. repeat split; try assumption.
          -- rewrite <- E, <- !app_assoc. reflexivity.
          -- intros run. rewrite J. cbn [pend_toks app map keep_text join_acc flat_map event_tok]. rewrite filter_app, app_assoc. reflexivity.
        * assert (NA : ~ contains cdata_sep (a ++ [93; 93])) by (intros J; apply D, contains_right, J).
          pose proof (cdata_one a b k S2 NA M) as CT.
          assert (Ca : ~ In 13 a /\ ~ In 13 b) by (split; intros J; apply C; rewrite !in_app_iff; auto).
          destruct (IH (PCData (62 :: b)) open k FO) as (text & k' & R & RA & F); [|repeat split; assumption|exact W|].
          { split; [intros [J|J]; [discriminate|tauto]|]. intros (x & y & E). destruct x as [|c x]; [discriminate|]. apply M. exists x, y. injection E as _ E. exact E. }
          eexists. exists k'. split; [exact (step _ _ _ _ _ (SE _ CT) _ _ R)|]. split; [exact RA|]. cbn [pend_text pend_toks] in F.
          assert (G : fine f open ([TText (t ++ a ++ [93; 93])] ++ [TText (62 :: b)] ++ flat_map event_tok evs) (render (RCData (t ++ a ++ [93; 93])) ++ (cdata_start ++ 62 :: b) ++ text)).
          { apply (fine_cons f (RCData (t ++ a ++ [93; 93])) open open); [|reflexivity|exact F]. split; [|exact D]. intros J. rewrite !in_app_iff in J. destruct J as [J|[J|J]]; try tauto. cbn in J. intuition discriminate. }
          destruct G as (rs & l & E & O & N & J). exists rs, l. repeat split; try assumption.
          -- rewrite <- E. cbn [render]. rewrite <- !app_assoc. reflexivity.
          -- intros run. rewrite J. cbn [pend_toks app map keep_text join_acc flat_map event_tok]. unfold cdata_sep. f_equal. rewrite <- !app_assoc, <- !filter_app. f_equal. f_equal. rewrite <- !app_assoc. reflexivity.
      + (* the end of the section *)
        assert (SE : sink_event EndCdata k = Some (cdata_end, with_cdata false k)) by reflexivity.
        destruct (IH PNone open (with_cdata false k) FO Logic.I) as (text & k' & R & RA & F); [repeat split; assumption|exact W|].
        eexists. exists k'. split; [exact (step _ _ _ _ _ SE _ _ R)|]. split; [exact RA|].
        replace ((cdata_start ++ t) ++ cdata_end ++ text) with (render (RCData t) ++ text) by (cbn [render]; rewrite <- !app_assoc; reflexivity).
        apply (fine_cons f (RCData t) open open [TText t]); [exact PO|reflexivity|exact F].
  Qed.
  Lemma claim_all : forall evs, claim evs.
  Proof.
    induction evs as [|e evs IH]; [|apply claim_step; exact IH]. intros p open k FO PO (S1 & S2 & S3 & S4 & S5 & S6) W. exists [], k. split; [reflexivity|]. split; [exact S5|].
    destruct p; cbn in W; try discriminate; [|destruct W]. subst open. apply fine_nil.
  Qed.
End Run.
