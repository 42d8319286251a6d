(** Proofs about the readers. *)
From Coq Require Import Permutation.
From Verif.Model Require Import Base Containers Text NsSupport Attrs Sax Wrapper.
From Verif.Spec Require Import XmlChars WrapperSpec.
From Verif.Proof Require Import ContainersProof TextProof NsProof.

Lemma node_ind2 (P : node -> Prop) :
  (forall n atts kids, Forall P kids -> P (Element n atts kids)) ->
  (forall s, P (Data s)) -> (forall s, P (Section s)) ->
  (forall t d, P (Instruction t d)) -> (forall s, P (Remark s)) -> forall x, P x.
Proof.
  intros A B C D E. fix go 1. intros [n atts kids|s|s|t d|s];
    [|apply B|apply C|apply D|apply E].
  apply A. induction kids as [|k r IH]; constructor; [apply go|exact IH].
Qed.

(** * Contexts *)

Definition insert_all (c : list (str * str)) (l : list (str * str)) :=
  fold_left (fun c d => mm_insert (fst d) (snd d) c) l c.

Lemma find_insert k v (m : list (str * str)) p : ~ In k (map fst m) ->
  mm_find p (mm_insert k v m) = if list_eq_dec Z.eq_dec k p then Some v else mm_find p m.
Proof.
  induction m as [|[k' v'] m IH]; cbn [mm_insert mm_find map fst]; intros H.
  - destruct (list_eq_dec Z.eq_dec k p) as [->|N].
    + now rewrite (proj2 (str_eqb_true p p)).
    + destruct (str_eqb k p) eqn:E; [apply str_eqb_true in E; contradiction|reflexivity].
  - destruct (str_ltb k k').
    + cbn [mm_find]. destruct (list_eq_dec Z.eq_dec k p) as [->|N].
      * now rewrite (proj2 (str_eqb_true p p)).
      * destruct (str_eqb k p) eqn:E; [apply str_eqb_true in E; contradiction|reflexivity].
    + cbn [mm_find]. destruct (str_eqb k' p) eqn:E.
      * apply str_eqb_true in E; subst k'. destruct (list_eq_dec Z.eq_dec k p) as [->|N]; auto.
        exfalso; apply H; now left.
      * apply IH. intros I; apply H; now right.
Qed.
Lemma insert_keys k v (m : list (str * str)) :
  Permutation (map fst (mm_insert k v m)) (k :: map fst m).
Proof.
  induction m as [|[k' v'] m IH]; cbn [mm_insert map fst]; auto.
  destruct (str_ltb k k'); cbn [map fst]; auto.
  rewrite IH. apply perm_swap.
Qed.
Lemma insert_all_keys l : forall c, Permutation (map fst (insert_all c l)) (map fst l ++ map fst c).
Proof.
  induction l as [|[k v] l IH]; intros c; cbn [insert_all fold_left map fst snd app]; auto.
  unfold insert_all in IH; rewrite IH, insert_keys. symmetry; apply Permutation_middle.
Qed.
Lemma assoc_in l p u : assoc l p = Some u -> In p (map fst l).
Proof.
  induction l as [|[q v] l IH]; cbn; [discriminate|].
  destruct (list_eq_dec Z.eq_dec q p); auto.
Qed.
Lemma find_in (l : list (str * str)) p u : mm_find p l = Some u -> In p (map fst l).
Proof.
  induction l as [|[q v] l IH]; cbn; [discriminate|].
  destruct (str_eqb q p) eqn:E; auto. apply str_eqb_true in E; auto.
Qed.
Lemma insert_all_find l : forall c p, NoDup (map fst l) ->
  (forall k, In k (map fst l) -> ~ In k (map fst c)) ->
  mm_find p (insert_all c l) = match assoc l p with Some u => Some u | None => mm_find p c end.
Proof.
  induction l as [|[k v] l IH]; intros c p N D; cbn [insert_all fold_left map fst snd assoc]; auto.
  cbn [map fst] in N. inversion N as [|? ? N1 N2]; subst.
  unfold insert_all in IH; rewrite IH; auto.
  - rewrite find_insert by (apply D; now left).
    destruct (list_eq_dec Z.eq_dec k p) as [->|Q]; auto.
    destruct (assoc l p) eqn:A; auto. apply assoc_in in A. contradiction.
  - intros j J I. apply (Permutation_in _ (insert_keys k v c)) in I. destruct I as [<-|I]; [contradiction|].
    apply (D j); auto. now right.
Qed.

(** * Attributes *)
Lemma xmlns_declares p u : is_declaration (fst (written_attribute (Declares p u))) = true.
Proof. destruct p; reflexivity. Qed.
Lemma xmlns_prefix p u : (match p with Some q => NCName q | None => True end) ->
  declared_prefix (fst (written_attribute (Declares p u))) = prefix_of p.
Proof. destruct p; reflexivity. Qed.
Lemma begins_true p : forall s, begins p s = true -> exists r, s = p ++ r.
Proof.
  induction p as [|c p IH]; intros s H; cbn in H; [now exists s|].
  destruct s as [|d s]; [discriminate|]. apply andb_prop in H as [E H]. apply Z.eqb_eq in E; subst d.
  destruct (IH s H) as [r ->]. now exists r.
Qed.
Lemma plain_declares n : (forall r, written n <> xmlns ++ r) -> is_declaration (written n) = false.
Proof.
  intros H. destruct (is_declaration (written n)) eqn:E; auto.
  apply begins_true in E as [r E]. exfalso; exact (H r E).
Qed.

Section Reader.
  Context (lib : library) (s : settings).

  Definition decl_attr (a : attribute) : list attr :=
    match a with
    | Declares _ u => if s_prefixes s then [Attr [] [] (fst (written_attribute a)) cdata_type u] else []
    | Has _ _ => []
    end.
  Definition has_attr (sc : scope) (a : attribute) : list attr :=
    match a with
    | Declares _ _ => []
    | Has n v => [Attr (attribute_uri sc n) (WrapperSpec.local n) (written n) cdata_type v]
    end.
  Lemma split_attrs sc l :
    Permutation (flat_map decl_attr l ++ flat_map (has_attr sc) l)
      (flat_map (shown_attribute (s_prefixes s) sc) l).
  Proof.
    induction l as [|[p u|n v] l IH]; cbn [flat_map decl_attr has_attr shown_attribute app]; auto.
    - destruct (s_prefixes s); cbn [app]; auto.
    - etransitivity; [symmetry; apply Permutation_middle|]. now constructor.
  Qed.

  Definition legal (a : attribute) : Prop :=
    match a with
    | Declares (Some p) _ => NCName p /\ p <> xml /\ p <> xmlns
    | _ => True
    end.
  Definition started (l : list (str * str)) : list report :=
    map (fun d => Said (StartPrefix (fst d) (snd d))) l.

  Lemma declare_ok p u c st : legal (Declares p u) ->
    declare_prefix (prefix_of p) u (c :: st) = Val (true, mm_insert (prefix_of p) u c :: st).
  Proof.
    intros H. unfold declare_prefix.
    assert (str_eqb (prefix_of p) s_xml || str_eqb (prefix_of p) s_xmlns = false) as ->; [|reflexivity].
    destruct p as [p|]; [|reflexivity]. destruct H as (_ & A & B). cbn [prefix_of].
    apply Bool.orb_false_iff; split; apply str_eqb_false; assumption.
  Qed.

  (** With a context of its own at the top. *)
  Lemma first_pushed l : forall c st pushed, Forall legal l -> Forall plain_attribute l ->
    (lib = Libxml2 \/ pushed = true) ->
    first_pass lib s (map written_attribute l) (c :: st) pushed
    = Val (insert_all c (declarations l) :: st,
           pushed || match declarations l with [] => false | _ => true end,
           started (declarations l), flat_map decl_attr l).
  Proof.
    induction l as [|[p u|n v] l IH]; intros c st pushed L P O; cbn [map first_pass].
    - destruct pushed; reflexivity.
    - inversion_clear L as [|? ? L1 L2]. inversion_clear P as [|? ? P1 P2].
      assert (Hw : written_attribute (Declares p u) = (fst (written_attribute (Declares p u)), u))
        by (destruct p; reflexivity).
      rewrite Hw. rewrite xmlns_declares, xmlns_prefix by (destruct p; [apply L1|exact I]).
      assert (E : match lib with Expat => if pushed then c :: st else push_context (c :: st) | Libxml2 => c :: st end
                  = c :: st) by (destruct lib, pushed; destruct O; congruence).
      rewrite E, declare_ok by assumption. cbn [obind snd fst].
      rewrite IH by auto. cbn [obind].
      destruct pushed; reflexivity.
    - inversion_clear L as [|? ? L1 L2]. inversion_clear P as [|? ? P1 P2].
      cbn [written_attribute]. rewrite plain_declares by exact P1.
      rewrite IH by auto. reflexivity.
  Qed.
  Lemma first_unpushed l : forall st, lib = Expat -> Forall legal l -> Forall plain_attribute l ->
    first_pass lib s (map written_attribute l) st false
    = match declarations l with
      | [] => Val (st, false, [], [])
      | d => Val (insert_all [] d :: st, true, started d, flat_map decl_attr l)
      end.
  Proof.
    induction l as [|[p u|n v] l IH]; intros st E L P; cbn [map first_pass]; auto.
    - inversion_clear L as [|? ? L1 L2]. inversion_clear P as [|? ? P1 P2].
      assert (Hw : written_attribute (Declares p u) = (fst (written_attribute (Declares p u)), u))
        by (destruct p; reflexivity).
      rewrite Hw. rewrite xmlns_declares, xmlns_prefix by (destruct p; [apply L1|exact I]).
      rewrite E; unfold push_context; rewrite <- E. rewrite declare_ok by assumption. cbn [obind snd fst].
      rewrite first_pushed by auto. reflexivity.
    - inversion_clear L as [|? ? L1 L2]. inversion_clear P as [|? ? P1 P2].
      cbn [written_attribute]. rewrite plain_declares by exact P1.
      rewrite IH by auto. cbn [declarations flat_map decl_attr app].
      destruct (flat_map _ l); reflexivity.
  Qed.

  Definition agrees (st : list (list (str * str))) (sc : scope) : Prop := forall p, find_uri st p = sc p.

  Lemma uri_agrees st sc p : agrees st sc -> get_uri st p = bound sc p.
  Proof. intros A. unfold get_uri, bound. now rewrite A. Qed.

  Lemma named_ok st sc n at_ : agrees st sc -> proper_name sc n ->
    exists q, named s st (written n) at_ = Some (q, [])
      /\ q_uri q = (if at_ then attribute_uri sc n else element_uri sc n)
      /\ q_local q = WrapperSpec.local n /\ q_raw q = written n.
  Proof.
    intros A H. unfold named, process_name.
    destruct n as [l|p l]; cbn [written] in *.
    - rewrite parse_qname_plain by exact H.
      exists (QN [] l (if at_ then [] else get_uri st []) l). split; [|repeat split].
      + cbn [q_uri q_prefix]. destruct at_; [reflexivity|]. destruct (get_uri st []); reflexivity.
      + cbn. destruct at_; auto. now apply uri_agrees.
    - destruct H as (Hp & Hl & B). rewrite parse_qname_prefixed by assumption.
      exists (QN p l (get_uri st p) (p ++ [58] ++ l)). split; [|repeat split].
      + cbn [q_uri q_prefix]. rewrite (uri_agrees _ _ _ A).
        destruct (bound sc p); [contradiction|reflexivity].
      + cbn. rewrite (uri_agrees _ _ _ A). destruct at_; reflexivity.
  Qed.
  Lemma second_ok st sc l : agrees st sc -> Forall (proper_attribute sc) l -> Forall plain_attribute l ->
    second_pass s (map written_attribute l) st = ([], Some (flat_map (has_attr sc) l)).
  Proof.
    intros A. induction l as [|[p u|n v] l IH]; intros H P; cbn [map second_pass]; auto.
    - inversion_clear H as [|? ? H1 H2]. inversion_clear P as [|? ? P1 P2].
      assert (Hw : written_attribute (Declares p u) = (fst (written_attribute (Declares p u)), u))
        by (destruct p; reflexivity).
      rewrite Hw, xmlns_declares. now apply IH.
    - inversion_clear H as [|? ? H1 H2]. inversion_clear P as [|? ? P1 P2].
      cbn [written_attribute]. rewrite plain_declares by exact P1.
      destruct (named_ok st sc n true A H1) as (q & E & U & L & R). rewrite E, IH by auto.
      cbn [flat_map has_attr app]. now rewrite U, L, R.
  Qed.

  Lemma proper_legal sc l : Forall (proper_attribute sc) l -> Forall legal l.
  Proof. apply Forall_impl. intros [[p|] u|n v]; cbn; auto. Qed.

  (** * What is heard: the mappings an element ends *)
  Definition lazy_ : bool := match lib with Expat => true | Libxml2 => false end.
  Inductive hears : scope -> list str -> node -> list sax -> Prop :=
    | hears_element sc top n atts kids shown inner ends :
        Permutation shown (flat_map (shown_attribute (s_prefixes s) (within sc atts)) atts) ->
        (if lazy_ && match declarations atts with [] => true | _ => false end
         then ends = top else Permutation ends (map fst (declarations atts))) ->
        hears_all (within sc atts) ends kids inner ->
        hears sc top (Element n atts kids)
          (map (fun d => StartPrefix (fst d) (snd d)) (declarations atts)
           ++ [StartElement (element_uri (within sc atts) n) (WrapperSpec.local n) (written n) shown]
           ++ inner
           ++ [EndElement (element_uri (within sc atts) n) (WrapperSpec.local n) (written n)]
           ++ map EndPrefix ends)
    | hears_data sc top t : hears sc top (Data t) [Characters t]
    | hears_section sc top t :
        hears sc top (Section t) (heard_if (s_lexical s) StartCDATA ++ [Characters t]
                                  ++ heard_if (s_lexical s) EndCDATA)
    | hears_instruction sc top t d : hears sc top (Instruction t d) [PI t d]
    | hears_remark sc top t : hears sc top (Remark t) (heard_if (s_lexical s) (Comment t))
  with hears_all : scope -> list str -> list node -> list sax -> Prop :=
    | hears_none sc top : hears_all sc top [] []
    | hears_more sc top x l evs evs' : hears sc top x evs -> hears_all sc top l evs' ->
        hears_all sc top (x :: l) (evs ++ evs').

  Hypothesis (HC : s_content s = true) (HN : s_namespaces s = true).

  Definition tail (cd : bool) : list sax := if cd then heard_if (s_lexical s) EndCDATA else [].
  Definition top (st : list (list (str * str))) : list str := match st with [] => [] | c :: _ => map fst c end.
  Definition lib_cdata (b : bool) : bool := match lib with Expat => false | Libxml2 => b end.

  (** After the callbacks: the same reader, but for an open CDATA section. *)
  Definition does (cbs : list callback) (r : reader) (cd' : bool) (evs : list sax) : Prop :=
    exists out, heed_all lib s cbs r = (map Said out, Fine (Reader (r_contexts r) (r_made r) cd' (r_parsing r)))
      /\ out ++ tail cd' = tail (r_cdata r) ++ evs.

  Lemma heed_app a : forall b r, heed_all lib s (a ++ b) r = then_ (heed_all lib s a r) (heed_all lib s b).
  Proof.
    induction a as [|c a IH]; intros b r; cbn [app heed_all].
    - unfold quietly, then_. destruct (heed_all lib s b r); reflexivity.
    - destruct (heed lib s c r) as [l [r'|r'|]]; cbn [then_]; auto.
      rewrite IH. destruct (heed_all lib s a r') as [l' [r''|r''|]]; cbn [then_]; auto.
      destruct (heed_all lib s b r'') as [l'' st]; now rewrite app_assoc.
  Qed.
  Lemma leave_ok r : (lib = Expat -> r_cdata r = false) ->
    leave_cdata lib s r = (map Said (tail (r_cdata r)), Fine (Reader (r_contexts r) (r_made r) false (r_parsing r))).
  Proof.
    intros H. destruct r as [st m cd ps]. unfold leave_cdata, tail, heard_if, quietly. destruct lib; cbn in *.
    - now rewrite H.
    - destruct cd; cbn; [|reflexivity]. destruct (s_lexical s); reflexivity.
  Qed.
  Lemma map_said_if b e : (if b : bool then [Said e] else []) = map Said (heard_if b e).
  Proof. destruct b; reflexivity. Qed.

  Lemma start_ok st m ps sc n atts : st <> [] -> agrees st sc ->
    NoDup (map fst (declarations atts)) -> proper_name (within sc atts) n ->
    Forall (proper_attribute (within sc atts)) atts -> Forall plain_attribute atts ->
    exists st' m' shown ends,
      start_element lib s (written n) (map written_attribute atts) (Reader st m false ps)
      = (map Said (map (fun d => StartPrefix (fst d) (snd d)) (declarations atts)
           ++ [StartElement (element_uri (within sc atts) n) (WrapperSpec.local n) (written n) shown]),
         Fine (Reader st' m' false ps))
      /\ st' <> [] /\ agrees st' (within sc atts)
      /\ Permutation shown (flat_map (shown_attribute (s_prefixes s) (within sc atts)) atts)
      /\ (if lazy_ && match declarations atts with [] => true | _ => false end
          then ends = top st else Permutation ends (map fst (declarations atts)))
      /\ top st' = ends
      /\ end_element lib s (written n) (Reader st' m' false ps)
         = (map Said ([EndElement (element_uri (within sc atts) n) (WrapperSpec.local n) (written n)]
                      ++ map EndPrefix ends), Fine (Reader st m false ps)).
  Proof.
    intros NE A ND PN PA PL.
    pose proof (proper_legal _ _ PA) as LG.
    assert (AW : agrees (insert_all [] (declarations atts) :: st) (within sc atts)).
    { intros p. cbn [find_uri]. rewrite insert_all_find; auto.
      unfold within. cbn [mm_find]. destruct (assoc (declarations atts) p); auto. }
    assert (PM : Permutation (map fst (insert_all [] (declarations atts))) (map fst (declarations atts))).
    { rewrite insert_all_keys. cbn [map]. now rewrite app_nil_r. }
    set (pushed := negb (lazy_ && match declarations atts with [] => true | _ => false end)).
    set (st' := if pushed then insert_all [] (declarations atts) :: st else st).
    assert (F : first_pass lib s (map written_attribute atts)
                  (match lib with Expat => st | Libxml2 => push_context st end) false
                = Val (st', match declarations atts with [] => false | _ => true end,
                       started (declarations atts), flat_map decl_attr atts)).
    { subst st' pushed. unfold lazy_. destruct lib eqn:E.
      - rewrite <- E, first_unpushed by auto. cbn [andb].
        destruct (declarations atts) eqn:D; cbn [negb]; [|reflexivity].
        assert (flat_map decl_attr atts = []) as ->; [|reflexivity].
        clear -D. induction atts as [|[p u|n v] l IH]; cbn in *; try discriminate; auto.
      - rewrite <- E. unfold push_context. rewrite first_pushed by auto. cbn [andb negb orb]. reflexivity. }
    assert (AS : agrees st' (within sc atts)).
    { subst st'. destruct pushed eqn:P; auto. subst pushed. apply Bool.negb_false_iff, andb_prop in P as [_ P].
      destruct (declarations atts) eqn:D; [|discriminate]. intros p. unfold within. now rewrite D, A. }
    pose proof (second_ok st' _ atts AS PA PL) as S2.
    destruct (named_ok st' _ n false AS PN) as (q & E & U & L & R).
    exists st', (match lib with Expat => pushed :: m | Libxml2 => m end),
      (flat_map decl_attr atts ++ flat_map (has_attr (within sc atts)) atts), (top st').
    split; [|split; [|split; [|split; [|split; [|split]]]]]; auto.
    - unfold start_element. rewrite HC, HN. cbn [negb r_contexts r_made r_cdata r_parsing].
      rewrite F, S2, E, U, L, R. unfold started. rewrite map_app, map_map. cbn [app map].
      do 3 f_equal. destruct lib eqn:EL; auto. subst pushed. unfold lazy_. rewrite EL. cbn [andb].
      destruct (declarations atts); reflexivity.
    - subst st'. destruct pushed; [discriminate|assumption].
    - apply split_attrs.
    - subst st' pushed. destruct (lazy_ && _); cbn [negb top]; auto.
    - unfold end_element. rewrite HC, HN. cbn [negb r_contexts r_made r_cdata r_parsing].
      rewrite E, U, L, R. subst st'.
      assert (P : pushed = true \/ pushed = false) by (destruct pushed; auto).
      destruct P as [P|P]; rewrite P.
      + cbn [get_declared_prefixes pop_context app map top]. rewrite !map_map. destruct lib; reflexivity.
      + subst pushed. apply Bool.negb_false_iff, andb_prop in P as [Z P]. unfold lazy_ in Z.
        destruct lib; [|discriminate]. destruct st as [|c st]; [contradiction|].
        cbn [get_declared_prefixes top app map]. now rewrite !map_map.
  Qed.

  (** ** Nodes *)
  Definition good (sc : scope) (x : node) : Prop :=
    all_proper sc x /\ every (Forall plain_attribute) x /\ (lib = Libxml2 -> all_parted x).
  Lemma each_forall (P : node -> Prop) l :
    (fix each l := match l with [] => True | k :: r => P k /\ each r end) l -> Forall P l.
  Proof. induction l as [|k r IH]; intros H; constructor; destruct H; auto. Qed.

  Lemma one_call c r cd evs : heed lib s c r = (map Said (tail (r_cdata r) ++ evs),
      Fine (Reader (r_contexts r) (r_made r) cd (r_parsing r))) -> tail cd = [] ->
    does [c] r cd evs.
  Proof.
    intros H T. exists (tail (r_cdata r) ++ evs). rewrite T, app_nil_r. split; auto.
    cbn [heed_all]. rewrite H. cbn. now rewrite app_nil_r.
  Qed.

  Lemma node_does x : forall sc r, r_contexts r <> [] -> agrees (r_contexts r) sc -> good sc x ->
    (lib = Expat -> r_cdata r = false) -> (lib = Libxml2 -> r_cdata r && is_section x = false) ->
    exists evs, hears sc (top (r_contexts r)) x evs
      /\ does (calls lib x) r (lib_cdata (is_section x)) evs.
  Proof.
    assert (SIMPLE : forall c e (b : bool) r,
      (lib = Expat -> r_cdata r = false) ->
      heed lib s c r = then_ (leave_cdata lib s r)
        (fun r' => (if b then [Said e] else [], Fine r')) ->
      does [c] r (lib_cdata false) (heard_if b e)).
    { intros c e b r X H. apply one_call; [|unfold lib_cdata; destruct lib; reflexivity].
      rewrite H, leave_ok by auto. cbn [then_]. rewrite map_said_if, <- map_app.
      unfold lib_cdata. destruct lib; reflexivity. }
    induction x as [n atts kids IH|t|t|t d|t] using node_ind2; intros sc r NE A G X1 X2.
    - destruct G as (P & V & C). cbn [all_proper] in P. destruct P as (ND & PN & PA & PK).
      cbn [every] in V. destruct V as (PL & VK).
      assert (CK : lib = Libxml2 -> parted false kids /\ Forall all_parted kids).
      { intros Q. specialize (C Q). cbn [all_parted] in C. destruct C as [C1 C2]. split; auto.
        now apply each_forall. }
      apply each_forall in PK. apply each_forall in VK.
      destruct (start_ok (r_contexts r) (r_made r) (r_parsing r) sc n atts NE A ND PN PA PL)
        as (st' & m' & shown & ends & ES & NE' & A' & PS & PE & TE & EE).
      (* the children *)
      assert (KIDS : forall l cd, Forall (fun x => In x kids) l ->
                (lib = Expat -> cd = false) -> (lib = Libxml2 -> parted cd l) ->
                exists evs cd', hears_all (within sc atts) ends l evs
                  /\ (lib = Expat -> cd' = false)
                  /\ does (flat_map (calls lib) l) (Reader st' m' cd (r_parsing r)) cd' evs).
      { induction l as [|x l IHl]; intros cd IN Y1 Y2.
        - exists [], cd. split; [constructor|]. split; auto.
          exists []. cbn [flat_map heed_all map]. unfold quietly. cbn [r_contexts r_made r_parsing r_cdata].
          split; [reflexivity|]. now rewrite app_nil_r.
        - inversion_clear IN as [|? ? I1 I2].
          rewrite Forall_forall in IH, PK, VK.
          destruct (IH x I1 (within sc atts) (Reader st' m' cd (r_parsing r))) as (e1 & H1 & (o1 & R1 & T1)); auto.
          { split; [auto|]. split; auto. intros Q. destruct (CK Q) as [_ F]. rewrite Forall_forall in F. auto. }
          { intros Q. cbn [r_cdata]. specialize (Y2 Q). apply Y2. }
          cbn [r_contexts r_made r_parsing r_cdata] in *.
          destruct (IHl (lib_cdata (is_section x))) as (e2 & cd' & H2 & Z & (o2 & R2 & T2)); auto.
          { intros Q. cbn [r_cdata]. unfold lib_cdata. now rewrite Q. }
          { intros Q. specialize (Y2 Q). destruct Y2 as [_ Y2]. unfold lib_cdata. rewrite Q. exact Y2. }
          cbn [r_contexts r_made r_parsing r_cdata] in *.
          exists (e1 ++ e2), cd'. split; [constructor; [rewrite <- TE at 1|]; auto|]. split; auto.
          exists (o1 ++ o2). cbn [flat_map]. rewrite heed_app, R1. cbn [then_].
          rewrite R2. cbn [r_contexts r_made r_parsing r_cdata]. rewrite map_app. split; auto.
          rewrite <- app_assoc, T2, !app_assoc, T1. reflexivity. }
      destruct (KIDS kids false) as (inner & cd' & HI & Z & (oi & RI & TI)); auto.
      { apply Forall_forall. auto. }
      { intros Q. apply (CK Q). }
      eexists. split; [eapply hears_element; [exact PS|exact PE|exact HI]|].
      cbn [calls]. unfold does.
      cbn [heed_all]. cbn [heed]. rewrite leave_ok by auto. cbn [then_].
      rewrite ES. cbn [then_]. rewrite heed_app, RI. cbn [then_ r_contexts r_made r_parsing].
      cbn [heed_all heed]. rewrite leave_ok by auto. cbn [then_ r_contexts r_made r_parsing r_cdata].
      rewrite EE. cbn [then_ quietly]. eexists. split.
      + rewrite <- !map_app. rewrite app_nil_r. rewrite <- !map_app. unfold lib_cdata. cbn [is_section].
        destruct lib; reflexivity.
      + assert (TN : tail (lib_cdata (is_section (Element n atts kids))) = []) by (unfold lib_cdata; destruct lib; reflexivity).
        rewrite TN, app_nil_r. cbn [r_cdata] in TI. cbn [tail app] in TI.
        rewrite <- !app_assoc. f_equal. f_equal. cbn [app]. f_equal.
        rewrite <- TI, <- !app_assoc. reflexivity.
    - exists [Characters t]. split; [constructor|]. cbn [calls is_section].
      apply (SIMPLE _ (Characters t) true); auto. cbn [heed]. unfold content. now rewrite HC.
    - exists (heard_if (s_lexical s) StartCDATA ++ [Characters t] ++ heard_if (s_lexical s) EndCDATA).
      split; [constructor|]. cbn [calls is_section]. unfold does, lib_cdata. destruct lib eqn:EL.
      + exists (heard_if (s_lexical s) StartCDATA ++ [Characters t] ++ heard_if (s_lexical s) EndCDATA).
        rewrite X1 by reflexivity. split; [|cbn [tail]; now rewrite app_nil_r].
        destruct r as [st m cd ps]. cbn [r_cdata] in X1. rewrite X1 by reflexivity.
        cbn [heed_all heed]. unfold leave_cdata, quietly, lexical, content. rewrite HC.
        rewrite !map_said_if. cbn [then_ r_contexts r_made r_parsing]. rewrite !map_app. cbn [app map].
        now rewrite app_nil_r.
      + exists (heard_if (s_lexical s) StartCDATA ++ [Characters t]).
        specialize (X2 eq_refl). cbn [is_section] in X2. rewrite Bool.andb_true_r in X2. rewrite X2.
        split; [|cbn [tail app]; now rewrite <- app_assoc].
        destruct r as [st m cd ps]. cbn [r_cdata] in X2. subst cd.
        cbn [heed_all heed r_cdata]. unfold lexical, content. rewrite HC.
        rewrite map_said_if. cbn [then_ quietly r_contexts r_made r_parsing app].
        now rewrite app_nil_r, map_app.
    - exists [PI t d]. split; [constructor|]. cbn [calls is_section].
      apply (SIMPLE _ (PI t d) true); auto. cbn [heed]. unfold content. now rewrite HC.
    - exists (heard_if (s_lexical s) (Comment t)). split; [constructor|]. cbn [calls is_section].
      apply (SIMPLE _ (Comment t) (s_lexical s)); auto.
  Qed.

  Lemma nodes_do l : forall sc r, r_contexts r <> [] -> agrees (r_contexts r) sc -> Forall (good sc) l ->
    (lib = Expat -> r_cdata r = false) -> (lib = Libxml2 -> parted (r_cdata r) l) ->
    exists evs cd', hears_all sc (top (r_contexts r)) l evs
      /\ (lib = Expat -> cd' = false) /\ does (flat_map (calls lib) l) r cd' evs.
  Proof.
    induction l as [|x l IH]; intros sc r NE A G X1 X2.
    - exists [], (r_cdata r). split; [constructor|]. split; auto.
      exists []. destruct r as [st m cd ps]. cbn [flat_map heed_all map]. unfold quietly. cbn [r_contexts r_made r_parsing r_cdata].
      split; [reflexivity|]. now rewrite app_nil_r.
    - inversion_clear G as [|? ? G1 G2].
      destruct (node_does x sc r) as (e1 & H1 & (o1 & R1 & T1)); auto.
      { intros Q. apply (X2 Q). }
      destruct (IH sc (Reader (r_contexts r) (r_made r) (lib_cdata (is_section x)) (r_parsing r)))
        as (e2 & cd' & H2 & Z & (o2 & R2 & T2)); auto.
      { intros Q. cbn [r_cdata]. unfold lib_cdata. now rewrite Q. }
      { intros Q. destruct (X2 Q) as [_ Y]. cbn [r_cdata]. unfold lib_cdata. rewrite Q. exact Y. }
      cbn [r_contexts r_made r_parsing r_cdata] in *.
      exists (e1 ++ e2), cd'. split; [constructor; auto|]. split; auto.
      exists (o1 ++ o2). cbn [flat_map]. rewrite heed_app, R1. cbn [then_].
      rewrite R2. rewrite map_app. split; auto.
      rewrite <- app_assoc, T2, !app_assoc, T1. reflexivity.
  Qed.
End Reader.

(** * Back to the specification *)
Scheme hears_min := Minimality for hears Sort Prop
  with hears_all_min := Minimality for hears_all Sort Prop.
Combined Scheme hears_comb from hears_min, hears_all_min.

Definition declares_some (atts : list attribute) : Prop := declarations atts <> [].

Lemma hears_exact lib s :
  (forall sc top x evs, hears lib s sc top x evs ->
     lib = Libxml2 \/ every declares_some x -> shows (s_prefixes s) (s_lexical s) sc x evs)
  /\ (forall sc top l evs, hears_all lib s sc top l evs ->
     lib = Libxml2 \/ Forall (every declares_some) l -> shows_all (s_prefixes s) (s_lexical s) sc l evs).
Proof.
  apply hears_comb; intros.
  - constructor; auto.
    + apply H2. destruct H3 as [H3|H3]; auto. right. destruct H3 as [_ H3]. now apply each_forall.
    + destruct (lazy_ lib && _) eqn:E; auto. exfalso. apply andb_prop in E as [E D]. destruct H3 as [->|[H3 _]].
      * discriminate.
      * unfold declares_some in H3. destruct (declarations atts); [contradiction|discriminate].
  - constructor.
  - constructor.
  - constructor.
  - constructor.
  - constructor.
  - constructor; [apply H0|apply H2]; (destruct H3 as [->|H3]; [now left|right]); now inversion_clear H3.
Qed.

Definition not_end (e : sax) : bool := match e with EndPrefix _ => false | _ => true end.
Lemma filter_ends l : filter not_end (map EndPrefix l) = [].
Proof. induction l; auto. Qed.
Lemma hears_loosely lib s :
  (forall sc top x evs, hears lib s sc top x evs ->
     exists evs', shows (s_prefixes s) (s_lexical s) sc x evs' /\ filter not_end evs = filter not_end evs')
  /\ (forall sc top l evs, hears_all lib s sc top l evs ->
     exists evs', shows_all (s_prefixes s) (s_lexical s) sc l evs' /\ filter not_end evs = filter not_end evs').
Proof.
  apply hears_comb; intros; [|eexists; split; [constructor|reflexivity]..|].
  - destruct H2 as (inner' & S & F). eexists. split.
    + eapply shows_element; [exact H|exact S|apply Permutation_refl].
    + rewrite !filter_app, F, !filter_ends. reflexivity.
  - destruct H0 as (a & A & FA). destruct H2 as (b & B & FB). exists (a ++ b). split; [now constructor|].
    now rewrite !filter_app, FA, FB.
Qed.

(** * Whole documents *)
Lemma base_agrees : agrees ns_reset outermost.
Proof.
  intros p. unfold ns_reset, outermost. cbn [mm_insert find_uri mm_find].
  destruct (list_eq_dec Z.eq_dec p xml) as [->|N]; [reflexivity|].
  destruct (str_eqb s_xml p) eqn:E; auto. apply str_eqb_true in E. subst p. contradiction.
Qed.

Lemma parse_ok lib s doc : s_content s = true -> s_namespaces s = true ->
  Forall (good lib outermost) doc -> (lib = Libxml2 -> parted false doc) ->
  exists evs, hears_all lib s outermost [s_xml] doc evs
    /\ parse lib s (flat_map (calls lib) doc) true new_reader
       = (map Said (StartDocument :: evs ++ [EndDocument]), Fine new_reader).
Proof.
  intros HC HN G PT.
  destruct (nodes_do lib s HC HN doc outermost (Reader ns_reset [] false true))
    as (evs & cd' & H & Z & (out & R & T)); auto.
  { discriminate. }
  { exact base_agrees. }
  exists evs. split; [exact H|].
  cbn [r_contexts r_made r_parsing r_cdata tail app] in R, T.
  unfold parse, new_reader, parsing. cbn [r_contexts r_made r_parsing r_cdata]. destruct lib eqn:EL.
  - rewrite Z in * by reflexivity. cbn [tail] in T. rewrite app_nil_r in T. subst out.
    unfold content. rewrite HC. cbn [then_]. rewrite R. cbn [then_ app quietly r_contexts r_made r_parsing r_cdata].
    rewrite app_nil_r. cbn [map]. now rewrite map_app.
  - cbn [heed_all heed]. unfold content. rewrite HC.
    rewrite (leave_ok Libxml2 s (Reader ns_reset [] false true)) by discriminate.
    cbn [then_ quietly app r_contexts r_made r_parsing r_cdata tail map].
    rewrite R. cbn [then_ app r_contexts r_made r_parsing r_cdata].
    assert (L : leave_cdata Libxml2 s (Reader ns_reset [] cd' true)
                = (map Said (tail s cd'), Fine (Reader ns_reset [] false true)))
      by (apply (leave_ok Libxml2 s); discriminate).
    cbn [heed]. rewrite L. unfold content. rewrite HC. cbn [then_ app quietly r_contexts r_made r_parsing r_cdata].
    rewrite app_nil_r. cbn [map]. f_equal. f_equal.
    rewrite <- T, !map_app, <- app_assoc. reflexivity.
Qed.
