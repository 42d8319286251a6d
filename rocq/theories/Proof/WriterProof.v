From Verif.Model Require Import Base Attrs Text Sax NsSupport Writer.
From Verif.Spec Require Import TextSpec XmlChars XmlRead WriterSpec.
From Verif.Proof Require Import Tac CharsProof TextProof XmlReadProof.

Inductive pend := PNone | PStart (n : list Z) (a : list (list Z * list Z)) | PCData (t : list Z).
Definition pend_text (p : pend) : list Z :=
  match p with
  | PNone => []
  | PStart n a => [60] ++ n ++ render_attrs a
  | PCData t => k_cdata ++ t
  end.
Definition pend_toks (p : pend) : list tok :=
  match p with PNone => [] | PStart n a => [TStart n a] | PCData t => [TText t] end.
Definition pend_open (p : pend) (open : list (list Z)) : list (list Z) :=
  match p with PStart n _ => n :: open | _ => open end.
Definition pend_cd (p : pend) : option (list Z) := match p with PCData t => Some t | _ => None end.
Definition pend_ok (p : pend) : Prop :=
  match p with PStart n a => is_name n /\ attrs_ok a | _ => True end.
Definition state_ok (indent : nat) (p : pend) (decls : list (list Z * list Z)) (st : wstate) : Prop :=
  w_in_start st = (match p with PStart _ _ => true | _ => false end)
  /\ w_in_cdata st = (match p with PCData _ => true | _ => false end)
  /\ w_in_dtd st = false
  /\ map event_attr (w_mappings st) = decls
  /\ (indent = O -> w_depth st = 0).

Lemma write_attrs_render l : write_attrs l = render_attrs (map event_attr l).
Proof.
  unfold write_attrs, render_attrs. induction l as [|a l IH]; [reflexivity|].
  cbn [flat_map map]. rewrite IH. reflexivity.
Qed.
Lemma event_attr_mapping p u : event_attr (xmlns_mapping p u) = (xmlns_name p, u).
Proof. destruct p; reflexivity. Qed.
Lemma indent_white st : forallb white (do_indent st) = true /\ ~ In 13 (do_indent st).
Proof.
  unfold do_indent. split.
  - rewrite forallb_forall. intros c H. apply repeat_spec in H. subst c. reflexivity.
  - intros H. apply repeat_spec in H. discriminate.
Qed.

Section Indent.
Context (indent : nat) (enc : list Z) (f : Z -> bool)
  (Hf : indent = O \/ forall c, white c = true -> f c = false).

Lemma dropped ws : (indent = O -> ws = []) -> forallb white ws = true -> filter f ws = [].
Proof.
  intros H W. destruct Hf as [E|K]; [rewrite (H E); reflexivity|].
  induction ws as [|c ws IH]; [reflexivity|]. cbn in W. bsplit. cbn [filter].
  rewrite K by assumption. apply IH; [|assumption]. intros E. specialize (H E). discriminate.
Qed.
Lemma fine_ws open toks ws text : forallb white ws = true -> ~ In 13 ws ->
  (indent = O -> ws = []) -> fine f open toks text -> fine f open toks (ws ++ text).
Proof. intros W C I. apply fine_white; [exact W|exact C|]. apply dropped; assumption. Qed.
Lemma depth_indent st : (indent = O -> w_depth st = 0) -> indent = O -> do_indent st = [].
Proof. intros H E. unfold do_indent. rewrite (H E). reflexivity. Qed.

(** Closing a pending start tag first. *)
Definition neutral (e : sax) : Prop :=
  match e with StartPrefix _ _ | EndPrefix _ | EndElement _ _ _ => False | _ => True end.
Lemma event_close e st : neutral e -> w_in_start st = true ->
  w_event indent enc e st =
  ([62] ++ fst (w_event indent enc e (w_close st)), snd (w_event indent enc e (w_close st))).
Proof.
  intros N S. destruct e; try destruct N; unfold w_event, close_text; rewrite ?S;
    cbn [w_close w_in_start w_in_dtd w_internal w_in_cdata w_mappings w_depth w_last app fst snd];
    try reflexivity;
    destruct (w_in_dtd st && w_internal st); reflexivity.
Qed.

Definition claim (evs : list sax) : Prop := forall p open decls st,
  Forall is_name open -> pend_ok p -> state_ok indent p decls st ->
  writable (pend_open p open) (pend_cd p) decls evs ->
  fine f open (pend_toks p ++ event_tokens decls evs) (pend_text p ++ w_run indent enc evs st).

Lemma run_cons e evs st : w_run indent enc (e :: evs) st =
  fst (w_event indent enc e st) ++ w_run indent enc evs (snd (w_event indent enc e st)).
Proof. cbn [w_run]. destruct (w_event indent enc e st). reflexivity. Qed.

Lemma claim_step evs : claim evs -> forall e, claim (e :: evs).
Proof.
  intros IH e.
  assert (P0 : forall open decls st, Forall is_name open -> state_ok indent PNone decls st ->
    writable open None decls (e :: evs) ->
    fine f open (event_tokens decls (e :: evs)) (w_run indent enc (e :: evs) st)).
  { intros open decls st FO (S1 & S2 & S3 & S4 & S5) W. rewrite run_cons. cbn [writable] in W.
    assert (SK : forall st', w_in_start st' = false -> w_in_cdata st' = false -> w_in_dtd st' = false ->
        map event_attr (w_mappings st') = decls -> (indent = O -> w_depth st' = 0) ->
        state_ok indent PNone decls st') by (intros; repeat split; assumption).
    destruct e; try (exfalso; exact W);
      unfold w_event; unfold close_text; rewrite ?S1, ?S2, ?S3; cbn [negb orb andb fst snd app event_tokens].
    - (* end document *) apply (IH PNone); [exact FO|exact I|apply SK; first [assumption|reflexivity]|exact W].
    - (* start prefix *) destruct W as (_ & W). apply (IH PNone); [exact FO|exact I| |exact W].
      repeat split; try assumption. cbn [w_mappings]. rewrite map_app, S4.
      cbn [map]. rewrite event_attr_mapping. reflexivity.
    - (* end prefix *) apply (IH PNone); [exact FO|exact I|apply SK; first [assumption|reflexivity]|exact W].
    - (* start element *)
      destruct W as (Nn & Na & Nd & W).
      rewrite <- !app_assoc.
      apply fine_ws.
      1: destruct (w_last st); try reflexivity; destruct (0 <? indent)%nat; reflexivity.
      1: destruct (w_last st); try (intros []); destruct (0 <? indent)%nat; [|intros []];
         intros [|[]]; discriminate.
      1: intros ->; destruct (w_last st); reflexivity.
      apply fine_ws; [apply indent_white|apply indent_white|apply depth_indent; exact S5|].
      rewrite !write_attrs_render, S4.
      assert (R : forall x y, render_attrs (x ++ y) = render_attrs x ++ render_attrs y)
        by (intros; apply flat_map_app).
      match goal with |- fine f open _ ?x => match x with context [w_run ?a ?b ?c ?d] =>
        let rest := constr:(w_run a b c d) in
        replace x
        with (pend_text (PStart (event_name local qname) (decls ++ map event_attr atts)) ++ rest)
        by (cbn [pend_text app]; rewrite R, <- !app_assoc; reflexivity) end end.
      apply (IH (PStart (event_name local qname) (decls ++ map event_attr atts))).
      + exact FO.
      + split; [exact Nn|split; assumption].
      + repeat split; try assumption. intros E. cbn [w_depth]. rewrite (S5 E), E. reflexivity.
      + exact W.
    - (* end element *)
      destruct open as [|n open]; [destruct W|]. destruct W as (-> & W).
      rewrite <- !app_assoc. apply fine_ws.
      1: destruct (w_last st); try reflexivity; apply indent_white.
      1: destruct (w_last st); try (intros []); apply indent_white.
      1: intros E; destruct (w_last st); try reflexivity; apply depth_indent; [|exact E];
         intros _; cbn [w_depth]; rewrite (S5 E), E; reflexivity.
      match goal with |- fine f _ (?t :: ?ts) (?x ++ ?r) =>
        change (fine f (event_name local qname :: open) ([t] ++ ts) (x ++ r));
        replace (x ++ r) with (render (REnd (event_name local qname))
                               ++ (match indent with O => [] | _ => [10] end) ++ r)
        by (cbn [render app]; rewrite <- !app_assoc; cbn [app]; reflexivity) end.
      apply Forall_inv in FO as Fn. apply Forall_inv_tail in FO.
      apply (fine_cons f (REnd (event_name local qname)) _ open [TEnd (event_name local qname)]);
        [exact Fn|cbn [piece_of enter]; rewrite text_is_refl; reflexivity|].
      apply fine_ws; [destruct indent; reflexivity|destruct indent; [intros []|intros [|[]]; discriminate]
        |intros ->; reflexivity|].
      apply (IH PNone); [exact FO|exact I| |exact W]. apply SK; try first [assumption|reflexivity].
      intros E. cbn [w_depth]. rewrite (S5 E), E. reflexivity.
    - (* characters *) destruct W as (C & W). rewrite <- ?app_assoc. apply fine_text; [exact C|].
      apply (IH PNone); [exact FO|exact I|apply SK; first [assumption|reflexivity]|exact W].
    - (* ignorable white space *) destruct W as (C & Wh & W). rewrite <- (white_escape s Wh) at 2.
      apply fine_text; [exact C|]. apply (IH PNone); [exact FO|exact I|apply SK; first [assumption|reflexivity]|exact W].
    - (* processing instruction *) destruct W as (O & W).
      apply (fine_cons f (RPI target data) open open [TPI target data]); [exact O|reflexivity|].
      apply (IH PNone); [exact FO|exact I|apply SK; first [assumption|reflexivity]|exact W].
    - (* start entity *) apply (IH PNone); [exact FO|exact I|apply SK; first [assumption|reflexivity]|exact W].
    - (* end entity *) apply (IH PNone); [exact FO|exact I|apply SK; first [assumption|reflexivity]|exact W].
    - (* start CDATA *)
      pose proof (IH (PCData []) open decls) as G. cbn [pend_text pend_toks app] in G.
      match goal with |- fine f open _ (_ ++ w_run _ _ _ ?s2) => specialize (G s2 FO I) end.
      destruct G as (rs & l & E & O & N & J).
      + repeat split; try assumption.
      + exact W.
      + exists rs, l. repeat split; try assumption. intros run. rewrite J.
        cbn [map keep_text filter join_acc]. rewrite app_nil_r. reflexivity.
    - (* comment *) destruct W as (O & W).
      apply (fine_cons f (RComment s) open open [TComment s]); [exact O|reflexivity|].
      apply (IH PNone); [exact FO|exact I|apply SK; first [assumption|reflexivity]|exact W].
    - apply (IH PNone); [exact FO|exact I|apply SK; first [assumption|reflexivity]|exact W].
    - apply (IH PNone); [exact FO|exact I|apply SK; first [assumption|reflexivity]|exact W].
    - apply (IH PNone); [exact FO|exact I|apply SK; first [assumption|reflexivity]|exact W].
    - apply (IH PNone); [exact FO|exact I|apply SK; first [assumption|reflexivity]|exact W].
    - apply (IH PNone); [exact FO|exact I|apply SK; first [assumption|reflexivity]|exact W].
    - apply (IH PNone); [exact FO|exact I|apply SK; first [assumption|reflexivity]|exact W]. }
  intros p open decls st FO PO SO W. destruct p as [|n a|t].
  - apply P0; assumption.
  - cbn [pend_text pend_toks pend_open pend_cd pend_ok] in *. destruct PO as (Nn & Na).
    pose proof SO as (S1 & S2 & S3 & S4 & S5).
    assert (NE : neutral e ->
      fine f open ([TStart n a] ++ event_tokens decls (e :: evs))
        (([60] ++ n ++ render_attrs a) ++ w_run indent enc (e :: evs) st)).
    { intros N. rewrite run_cons, event_close by assumption. cbn [fst snd].
      replace (([60] ++ n ++ render_attrs a) ++ ([62] ++ fst (w_event indent enc e (w_close st)))
               ++ w_run indent enc evs (snd (w_event indent enc e (w_close st))))
        with (render (RStart n a false) ++ w_run indent enc (e :: evs) (w_close st))
        by (rewrite run_cons; cbn [render]; rewrite <- !app_assoc; reflexivity).
      apply (fine_cons f (RStart n a false) open (n :: open));
        [split; assumption|reflexivity|].
      apply P0; [constructor; assumption| |exact W]. repeat split; assumption. }
    destruct e; try (apply NE; exact I).
    + (* start prefix *) rewrite run_cons. cbn [w_event fst snd app]. cbn [writable] in W.
      destruct W as (_ & W). cbn [event_tokens].
      apply (IH (PStart n a) open (decls ++ [(xmlns_name p, u)])); [exact FO|split; assumption| |exact W].
      repeat split; try assumption. cbn [w_mappings]. rewrite map_app, S4.
      cbn [map]. rewrite event_attr_mapping. reflexivity.
    + (* end prefix *) rewrite run_cons. cbn [w_event fst snd app].
      apply (IH (PStart n a) open decls); [exact FO|split; assumption|exact SO|exact W].
    + (* end element *) rewrite run_cons. cbn [w_event fst snd]. rewrite S1. cbn [writable] in W.
      destruct W as (-> & W). cbn [event_tokens].
      match goal with |- fine f open ([?x] ++ ?y :: ?ts) (_ ++ (_ ++ ?ws) ++ ?r) =>
        change ([x] ++ y :: ts) with ([x; y] ++ ts);
        replace (([60] ++ event_name local qname ++ render_attrs a) ++ ([47; 62] ++ ws) ++ r)
        with (render (RStart (event_name local qname) a true) ++ ws ++ r)
        by (cbn [render]; rewrite <- !app_assoc; reflexivity) end.
      apply (fine_cons f (RStart (event_name local qname) a true) open open);
        [split; assumption|reflexivity|].
      apply fine_ws; [destruct indent; reflexivity|destruct indent; [intros []|intros [|[]]; discriminate]
        |intros ->; reflexivity|].
      apply (IH PNone); [exact FO|exact I| |exact W]. repeat split; try assumption.
      intros E. cbn [w_depth]. rewrite (S5 E), E. reflexivity.
  - cbn [pend_text pend_toks pend_open pend_cd pend_ok] in *.
    pose proof SO as (S1 & S2 & S3 & S4 & S5).
    destruct e; cbn [writable] in W; try (exfalso; exact W).
    + (* characters *) rewrite run_cons. cbn [w_event fst snd]. rewrite S2. unfold close_text.
      rewrite S1. cbn [app event_tokens].
      pose proof (IH (PCData (t ++ s)) open decls (w_close st) FO I) as G.
      destruct G as (rs & l & E & O & N & J).
      * repeat split; assumption.
      * exact W.
      * exists rs, l. repeat split; try assumption.
        -- rewrite <- E. cbn [pend_text]. rewrite <- !app_assoc. reflexivity.
        -- intros run. rewrite J. cbn [pend_toks app map keep_text join_acc].
           rewrite filter_app, app_assoc. reflexivity.
    + (* end of the section *) destruct W as (C & W). rewrite run_cons. cbn [w_event fst snd].
      unfold close_text. rewrite S1. cbn [event_tokens].
      match goal with |- fine f open _ (_ ++ _ ++ ?r) =>
        replace ((k_cdata ++ t) ++ ([] ++ [93; 93; 62]) ++ r) with (render (RCData t) ++ r)
        by (cbn [render]; rewrite <- !app_assoc; reflexivity) end.
      apply (fine_cons f (RCData t) open open); [exact C|reflexivity|].
      apply (IH PNone); [exact FO|exact I| |exact W]. repeat split; assumption.
Qed.
Lemma claim_all evs : claim evs.
Proof.
  induction evs as [|e evs IH]; [|apply claim_step; exact IH].
  intros p open decls st FO PO SO W. destruct p; cbn in W; try discriminate; [|destruct W].
  subst open. apply fine_nil.
Qed.
End Indent.

(** The declaration. *)
Lemma decl_attr_plain v : is_name v -> attribute_escape v = v.
Proof.
  intros (_ & H). induction v as [|c v IH]; [reflexivity|]. cbn in H. bsplit.
  change (attribute_escape (c :: v)) with (attribute_escape1 c ++ attribute_escape v).
  rewrite IH by assumption. unfold name_char, white in H. bsplit. cbn [existsb] in *.
  unfold attribute_escape1, text_escape1.
  repeat match goal with |- context [if ?x =? ?y then _ else _] =>
    destruct (Z.eqb_spec x y); [exfalso; lia|] end. reflexivity.
Qed.
Lemma declared_ok enc : attrs_ok (declared enc).
Proof.
  assert (A : is_name k_version) by (split; [discriminate|reflexivity]).
  assert (B : is_name k_enc) by (split; [discriminate|reflexivity]).
  destruct enc; split; cbn [declared map fst]; repeat constructor; try assumption; cbn; intuition discriminate.
Qed.
Lemma xmldecl_render enc r : enc = [] \/ is_name enc ->
  k_xmldecl ++ (match enc with [] => [] | _ => [32] ++ k_encoding ++ [34] ++ enc ++ [34] end)
    ++ [63; 62; 10] ++ r
  = [60; 63; 120; 109; 108] ++ render_attrs (declared enc) ++ [63; 62; 10] ++ r.
Proof.
  intros H. destruct enc as [|c e]; [reflexivity|]. destruct H as [H|H]; [discriminate|].
  unfold declared, render_attrs. cbn [flat_map]. unfold render_attr at 2. cbn [fst snd].
  rewrite (decl_attr_plain (c :: e)) by exact H.
  rewrite <- !app_assoc. reflexivity.
Qed.
Lemma read_decl_render enc r : read_decl ([60; 63; 120; 109; 108] ++ render_attrs (declared enc) ++ [63; 62] ++ r)
  = Some (declared enc, r).
Proof.
  unfold read_decl. rewrite starts_app.
  pose proof (read_attrs_render (declared enc)
    (S (length (render_attrs (declared enc) ++ [63; 62] ++ r))) ([63; 62] ++ r) (declared_ok enc) eq_refl) as R.
  destruct (render_attrs (declared enc) ++ [63; 62] ++ r) as [|c t] eqn:E; [discriminate|].
  assert (c = 32) as -> by (cbn in E; injection E as E _; congruence).
  change (white 32) with true. cbv iota. rewrite R; [reflexivity|].
  rewrite <- E, app_length. lia.
Qed.

Lemma fine_nocr f open toks text : fine f open toks text -> ~ In 13 text.
Proof. intros (rs & l & -> & O & _). apply render_all_cr. exact O. Qed.
(** A text that starts with a rendered piece has no declaration. *)
Lemma no_decl f open toks text : fine f open toks text -> read_decl text = Some ([], text).
Proof.
  intros (rs & l & -> & O & _ & _). unfold read_decl.
  destruct (starts [60; 63; 120; 109; 108] (flat_map render rs)) as [r|] eqn:E; [|reflexivity].
  destruct r as [|c r]; [reflexivity|].
  destruct (white c) eqn:W; [exfalso|reflexivity].
  destruct rs as [|k rs]; [discriminate|]. cbn [flat_map] in E. inversion O as [|? ? Ok _]; subst.
  destruct k; cbn [render] in E.
  - cbn [app starts] in E. destruct n as [|x n]; [destruct Ok as ((Ok & _) & _); congruence|].
    cbn [app] in E. destruct Ok as ((_ & Ok) & _). cbn [forallb] in Ok. bsplit.
    change (60 =? 60) with true in E. cbv iota in E.
    destruct (Z.eqb_spec 63 x); [subst x; discriminate|discriminate].
  - discriminate.
  - unfold text_escape1 in E. destruct (Z.eqb_spec c0 60); [discriminate|].
    destruct (Z.eqb_spec c0 62); [discriminate|]. destruct (Z.eqb_spec c0 38); [discriminate|].
    cbn [app starts] in E. destruct (Z.eqb_spec 60 c0); [congruence|discriminate].
  - discriminate.
  - discriminate.
  - destruct Ok as (N & R & _). unfold render_pi in E. rewrite <- !app_assoc in E.
    apply starts_some in E.
    change ([60; 63] ++ t ++ (match d with [] => [] | _ => [32] ++ d end) ++ [63; 62] ++ flat_map render rs
            = [60; 63] ++ [120; 109; 108] ++ c :: r) in E.
    apply app_inv_head in E.
    assert (RN : read_name (t ++ (match d with [] => [] | _ => [32] ++ d end) ++ [63; 62] ++ flat_map render rs)
      = Some (t, (match d with [] => [] | _ => [32] ++ d end) ++ [63; 62] ++ flat_map render rs)).
    { apply read_name_app; [exact N|]. destruct d; reflexivity. }
    rewrite E in RN. rewrite (read_name_app [120; 109; 108] (c :: r)) in RN.
    + injection RN as RN _. subst t. discriminate.
    + split; [discriminate|reflexivity].
    + unfold name_char. rewrite W. reflexivity.
  - destruct Ok as ((N & R & _) & W0 & W1 & _). apply starts_some in E. rewrite <- !app_assoc in E.
    change ([60; 63] ++ t ++ w ++ d ++ [63; 62] ++ flat_map render rs = [60; 63] ++ [120; 109; 108] ++ c :: r) in E.
    apply app_inv_head in E.
    assert (RN : read_name (t ++ w ++ d ++ [63; 62] ++ flat_map render rs) = Some (t, w ++ d ++ [63; 62] ++ flat_map render rs)).
    { apply read_name_app; [exact N|]. destruct w as [|x w]; [congruence|]. cbn [forallb] in W1. bsplit. cbn [app]. unfold name_char. rewrite H. reflexivity. }
    rewrite E in RN. rewrite (read_name_app [120; 109; 108] (c :: r)) in RN.
    + injection RN as RN _. subst t. discriminate.
    + split; [discriminate|reflexivity].
    + unfold name_char. rewrite W. reflexivity.
Qed.

Lemma writer_fine indent enc f evs : (indent = O \/ forall c, white c = true -> f c = false) ->
  writable [] None [] evs ->
  fine f [] (event_tokens [] evs) (w_run indent enc evs w_init)
  /\ fine f [] (event_tokens [] evs) (w_run indent enc evs (WS [] false false false true 0 LDoc)).
Proof.
  intros Hf W. split; apply (claim_all indent enc f Hf evs PNone [] []);
    try constructor; try exact W; repeat split.
Qed.
Lemma writer_read indent enc f evs : (indent = O \/ forall c, white c = true -> f c = false) ->
  enc = [] \/ is_name enc -> writable_document evs ->
  exists l, read_xml (writer indent enc evs) = Some (declaration enc evs, l) /\ join l = l
    /\ join (map (keep_text f) l) = join (map (keep_text f) (document_tokens evs)).
Proof.
  intros Hf He W.
  assert (Plain : writable [] None [] evs ->
    match evs with StartDocument :: _ => False | _ => True end ->
    exists l, read_xml (writer indent enc evs) = Some ([], l) /\ join l = l
      /\ join (map (keep_text f) l) = join (map (keep_text f) (event_tokens [] evs))).
  { intros W' _. destruct (writer_fine indent enc f evs Hf W') as (F & _).
    unfold read_xml, writer. rewrite eol_id by exact (fine_nocr _ _ _ _ F).
    rewrite (no_decl _ _ _ _ F). destruct (fine_read _ _ _ F) as (l & R & Jl & J).
    rewrite R. exists l. auto. }
  destruct evs as [|e evs].
  - destruct Plain as (l & R & Jl & J); [exact W|exact I|]. exists l; auto.
  - destruct e; try (destruct Plain as (l & R & Jl & J); [exact W|exact I|]; exists l; auto; fail).
    clear Plain. cbn [writable_document] in W.
    destruct (writer_fine indent enc f evs Hf W) as (_ & F).
    unfold writer. cbn [w_run]. unfold w_event, close_text. cbn [w_in_start w_init app w_mappings w_in_dtd w_internal].
    pose proof (fine_cons f (RChar 10) [] [] [TText [10]] _ _ ltac:(discriminate) eq_refl F) as F'.
    change (render (RChar 10)) with [10] in F'.
    unfold read_xml. rewrite <- !app_assoc. rewrite xmldecl_render by exact He.
    change ([63; 62; 10] ++ ?x) with ([63; 62] ++ [10] ++ x).
    rewrite eol_id.
    + rewrite read_decl_render. destruct (fine_read _ _ _ F') as (l & R & Jl & J).
      rewrite R. exists l; auto.
    + intros H. apply in_app_or in H; destruct H as [H|H]; [cbn in H; lia|].
      apply in_app_or in H; destruct H as [H|H].
      * revert H. apply render_attrs_cr. apply (proj1 (declared_ok enc)).
      * apply in_app_or in H; destruct H as [H|H]; [cbn in H; lia|].
        revert H. exact (fine_nocr _ _ _ _ F').
Qed.

Lemma writer_exact enc evs : enc = [] \/ is_name enc -> writable_document evs ->
  read_xml (writer 0 enc evs) = Some (declaration enc evs, join (document_tokens evs)).
Proof.
  intros He W. destruct (writer_read 0 enc (fun _ => true) evs (or_introl eq_refl) He W) as (l & R & Jl & J).
  rewrite !keep_all in J. rewrite R. congruence.
Qed.
Lemma writer_indented indent enc evs : enc = [] \/ is_name enc -> writable_document evs ->
  exists l, read_xml (writer indent enc evs) = Some (declaration enc evs, l)
            /\ without_white l = without_white (document_tokens evs).
Proof.
  intros He W. destruct (writer_read indent enc (fun c => negb (white c)) evs) as (l & R & Jl & J); auto.
  - right. intros c ->. reflexivity.
  - exists l. auto.
Qed.

(** Nothing of the external subset is written. *)
Definition subset_event (e : sax) : bool :=
  match e with
  | NotationDecl _ _ _ | UnparsedEntityDecl _ _ _ _ | ElementDecl _ _ | AttributeDecl _ _ _ _ _
  | InternalEntityDecl _ _ | ExternalEntityDecl _ _ _ | Comment _ | PI _ _ => true
  | _ => false
  end.
Lemma external_subset_silent indent enc evs : forallb subset_event evs = true -> forall st r,
  w_in_dtd st = true -> w_internal st = false -> w_in_start st = false ->
  w_run indent enc (evs ++ r) st = w_run indent enc r st.
Proof.
  induction evs as [|e evs IH]; intros H st r S1 S2 S3; [reflexivity|].
  cbn [forallb] in H. bsplit. cbn [app]. rewrite run_cons.
  assert (w_event indent enc e st = ([], w_close st)) as ->.
  { destruct e; try discriminate; unfold w_event, close_text; rewrite S1, S2, S3; reflexivity. }
  cbn [fst snd app].
  assert (w_close st = st) as -> by (destruct st; unfold w_close; cbn in *; subst; reflexivity).
  apply IH; assumption.
Qed.
Lemma ncname_char_name c : among c NCNameChar -> name_char c = true.
Proof.
  intros H. destruct (name_char c) eqn:E; [reflexivity|exfalso].
  apply ncname_char_spec in H. unfold name_char, white in E. cbn [existsb] in E.
  assert (D : In c [32; 9; 10; 13; 47; 62; 61; 60; 38; 39; 34; 63; 33]) by (cbn [In]; lia).
  repeat (destruct D as [D|D]; [subst c; vm_compute in H; discriminate|]). destruct D.
Qed.
Lemma ncname_is_name s : NCName s -> is_name s.
Proof.
  intros (c & r & -> & H1 & H2). split; [discriminate|]. cbn [forallb].
  apply andb_true_intro. split.
  - rewrite among_app, among_one, <- letter_spec in H1. destruct H1 as [H1|H1]; [|subst c; reflexivity].
    destruct (name_char c) eqn:E; [reflexivity|exfalso].
    unfold name_char, white in E. cbn [existsb] in E.
    assert (D : In c [32; 9; 10; 13; 47; 62; 61; 60; 38; 39; 34; 63; 33]) by (cbn [In]; lia).
    repeat (destruct D as [D|D]; [subst c; vm_compute in H1; discriminate|]). destruct D.
  - apply forallb_forall. rewrite Forall_forall in H2. intros x Hx. apply ncname_char_name. auto.
Qed.
Lemma name_is_name s : QName s -> is_name s.
Proof.
  intros [H|(p & l & -> & Hp & Hl)]; [apply ncname_is_name; exact H|].
  apply ncname_is_name in Hp, Hl. destruct Hp as (P1 & P2), Hl as (L1 & L2). split.
  - destruct p; discriminate.
  - rewrite !forallb_app, P2, L2. reflexivity.
Qed.
