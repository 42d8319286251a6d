(** The scanner ends on every input, with a document. *)
From Coq Require Import String.
From Verif.Model Require Import Base Chars Text Attrs XSort HtmlSchema Taggle HtmlScanner.
From Verif.Spec Require Import TextSpec TaggleSpec.
From Verif.Proof Require Import ContainersProof TextProof AttrsProof TaggleProof TaggleProof2 TaggleProof3.
From Coq Require Import List Lia Permutation.
Import ListNotations.
Open Scope Z_scope.

Definition fine_pair (F : features) (o : outcome (str * taggle)) : Prop := exists b g, o = Val (b, g) /\ good F g /\ bytes b.
Lemma as_byte_range : forall c, 0 <= as_byte c < 256.
Proof. intro c. unfold as_byte. apply Z.mod_pos_bound. lia. Qed.
Lemma bytes_one : forall c, bytes [as_byte c].
Proof. intro c. constructor; [apply as_byte_range|constructor]. Qed.
Lemma save_good : forall F full st ch b g, good F g -> bytes b -> fine_pair F (save F full st ch b g).
Proof.
  intros F full st ch b g G B. unfold save. destruct (full && in_text st).
  - destruct (pcdata_good F b g G) as (g' & -> & G'). exists [as_byte ch], g'. split; [reflexivity|]. split; [exact G'|apply bytes_one].
  - exists (b ++ [as_byte ch]), g. split; [reflexivity|]. split; [exact G|]. apply Forall_app. split; [exact B|apply bytes_one].
Qed.
Lemma save_pair : forall F (o : outcome (str * taggle)) k, fine_pair F o -> (forall b g, good F g -> bytes b -> fine_pair F (k (b, g))) -> fine_pair F (obind o k).
Proof. intros F o k (b & g & -> & G & B) K. cbn [obind]. apply K; assumption. Qed.
Lemma cleared_good : forall F o, (exists g, o = Val g /\ good F g) -> fine_pair F (cleared o).
Proof. intros F o (g & -> & G). exists [], g. split; [reflexivity|]. split; [exact G|constructor]. Qed.
Lemma then_good : forall F o k, (exists g, o = Val g /\ good F g) -> (forall g, good F g -> exists g', k g = Val g' /\ good F g') -> exists g, obind o k = Val g /\ good F g.
Proof. intros F o k (g & -> & G) K. apply K. exact G. Qed.
Lemma bytes_firstn : forall n b, bytes b -> bytes (firstn n b).
Proof. induction n as [|n IH]; intros [|c b] B; cbn; try constructor; inversion B; subst; auto. apply IH. assumption. Qed.
Lemma aval_good : forall F s g, good F g -> exists g', aval s g = Val g' /\ good F g'.
Proof. intros F s g G. apply put_attribute_good. exact G. Qed.
Lemma adup_good : forall F g, good F g -> exists g', adup g = Val g' /\ good F g'.
Proof. intros F g G. apply put_attribute_good. exact G. Qed.
Lemma act_good : forall F full a st ch b g, good F g -> bytes b -> fine_pair F (act F full a st ch b g).
Proof.
  intros F full a st ch b g G B.
  assert (N : bytes []) by constructor.
  assert (SG : forall g, good F g -> exists g', stagc F [] g = Val g' /\ good F g') by (intros; apply stagc_good; assumption).
  destruct a; cbn [act]; try (apply cleared_good); try (apply save_good; assumption);
    try (exists b, g; split; [reflexivity|]; split; assumption).
  - apply adup_good; exact G.
  - destruct (adup_good F g G) as (g' & -> & G'). cbn [obind]. apply save_good; assumption.
  - apply then_good; [apply adup_good; exact G|exact SG].
  - apply aname_good; assumption.
  - apply then_good; [apply aname_good; assumption|apply adup_good].
  - apply then_good; [|exact SG]. apply then_good; [apply aname_good; assumption|apply adup_good].
  - apply aval_good; exact G.
  - apply then_good; [apply aval_good; exact G|exact SG].
  - apply pcdata_good; exact G.
  - exists [], (cmnt b g). split; [reflexivity|]. split; [apply cmnt_good; exact G|exact N].
  - apply decl_good; assumption.
  - apply then_good; [destruct (nothing b); [exists g; auto|apply gi_good; assumption]|]. intros; apply stage_good; assumption.
  - destruct (pcdata_good F b g G) as (g' & -> & G'). cbn [obind]. apply save_good; assumption.
  - exists [], (etag F b g). split; [reflexivity|]. split; [apply etag_good; exact G|exact N].
  - apply gi_good; assumption.
  - apply then_good; [apply gi_good; assumption|exact SG].
  - apply save_pair; [apply save_good; assumption|]. intros. apply save_good; assumption.
  - apply save_pair; [apply save_good; assumption|]. intros. apply cleared_good. apply pcdata_good. assumption.
  - apply save_pair; [apply save_good; assumption|]. intros. apply save_good; assumption.
  - apply save_pair; [apply save_good; assumption|]. intros. apply save_pair; [apply save_good; assumption|]. intros. apply save_pair; [apply save_good; assumption|]. intros. apply save_good; assumption.
  - apply save_pair; [apply save_good; assumption|]. intros. apply save_good; assumption.
  - apply pcdata_good; exact G.
  - exists [], (pi b g). split; [reflexivity|]. split; [apply pi_good; exact G|exact N].
  - exists [], (pitarget F b g). split; [reflexivity|]. split; [apply pitarget_good; exact G|exact N].
  - exists [], (pi [] (pitarget F b g)). split; [reflexivity|]. split; [apply pi_good, pitarget_good; exact G|exact N].
  - apply stagc_good; exact G.
  - apply pcdata_good; exact G.
Qed.

(** * The table *)
Definition in_reference (st : sstate) : bool := match st with S_ENT | S_NCR | S_XNCR => true | _ => false end.
Lemma search_some : forall st ch, st <> S_DONE -> exists a n, search st ch None state_table = Some (a, n) /\ a <> A_UNGET /\
  (a = A_ENTITY -> in_reference st = true) /\ (in_reference n = true -> a = A_ENTITY \/ a = A_ENTITY_START).
Proof.
  intros st ch ND. destruct st; try contradiction; cbn -[Z.eqb];
    repeat match goal with |- context [if ?c =? 0 then _ else _] => let x := eval vm_compute in (c =? 0) in change (c =? 0) with x; cbn -[Z.eqb] end;
    repeat match goal with |- context [if ?c =? ch then _ else _] => destruct (c =? ch) end;
    (eexists; eexists; split; [reflexivity|]; split; [discriminate|]; split; [try discriminate; reflexivity|try discriminate; auto]).
Qed.
Lemma search_end : forall st, st <> S_DONE -> exists a n, search st (-1) None state_table = Some (a, n) /\
  match st with
  | S_EMPTYTAG => a = A_SAVE /\ n = S_ANAME
  | S_ENT | S_NCR | S_XNCR => a = A_ENTITY
  | S_CDATA => a = A_PCDATA /\ n = S_DONE
  | _ => a <> A_ENTITY /\ n = S_DONE
  end.
Proof. intros st ND. destruct st; try contradiction; (eexists; eexists; split; [vm_compute; reflexivity|]; try split; try reflexivity; discriminate). Qed.

(** * The input *)
Lemma next_failed : forall i, in_failed i = true -> next_char i = (-1, i).
Proof. intros i E. unfold next_char, get_char. rewrite E. reflexivity. Qed.
Lemma next_ok : forall i ch i', in_failed i = false -> next_char i = (ch, i') ->
  in_failed i' = true \/ ((length (in_rest i') < length (in_rest i))%nat /\ (in_failed (unget_char i') = true \/ (length (in_rest (unget_char i')) <= length (in_rest i))%nat)).
Proof.
  intros [bf rs fl] ch i' E H. cbn in E. subst fl. unfold next_char, get_char in H. cbn [in_failed in_rest in_before] in H.
  destruct rs as [|c r].
  - cbn in H. injection H as <- <-. left. reflexivity.
  - destruct (Z.eqb_spec c 13) as [->|NC].
    + cbn [in_failed in_rest in_before] in H. destruct r as [|d r].
      * cbn in H. injection H as <- <-. left. reflexivity.
      * destruct (Z.eqb_spec d 10) as [->|ND]; injection H as <- <-; cbn; right; split; try lia; right; cbn; lia.
    + injection H as <- <-. right. cbn. split; [lia|]. right. lia.
Qed.

(** * Every step makes progress *)
Definition end_rank (st : sstate) (b : str) : nat :=
  match st with
  | S_DONE => 0
  | S_CDATA => match b with [] => 1 | _ => 2 end
  | S_EMPTYTAG | S_ENT | S_NCR | S_XNCR => 4
  | _ => 3
  end.
Definition rank (s : scanner) : nat :=
  if in_failed (sc_input s) then end_rank (sc_state s) (sc_buffer s)
  else 2 * length (in_rest (sc_input s)) + (if in_reference (sc_state s) then 1 else 0) + 8.
Record scan_good (F : features) (s : scanner) : Prop := {
  s_good : good F (sc_parser s);
  s_bytes : bytes (sc_buffer s);
  s_ref : in_reference (sc_state s) = true -> sc_buffer s <> [] }.
Lemma end_rank_le : forall st b, (end_rank st b <= 4)%nat.
Proof. intros st b. destruct st; cbn; try lia. destruct b; lia. Qed.
Lemma reference_bytes : forall n, bytes (reference_text n).
Proof.
  intro n. unfold reference_text. destruct (n <? 32); [constructor|]. destruct ((55296 <=? n) && (n <=? 57343)); [constructor|].
  destruct (n <=? 65535); repeat (apply Forall_cons; [apply as_byte_range|]); constructor.
Qed.
Lemma do_entity_good : forall F st ch b g, good F g -> bytes b -> in_reference st = true -> b <> [] ->
  exists n b' g' back, do_entity st ch b g = Val (n, b', g', back) /\ good F g' /\ bytes b' /\ (in_reference n = true -> b' <> []) /\ (back = true -> n = S_PCDATA) /\ (ch = -1 -> n = S_PCDATA).
Proof.
  intros F st ch b g G B R NE. unfold do_entity. destruct (more_reference st ch) as [n|] eqn:M.
  - exists n, (b ++ [as_byte ch]), g, false. split; [reflexivity|]. split; [exact G|]. split; [apply Forall_app; split; [exact B|apply bytes_one]|].
    split; [intros _ E; destruct b; discriminate|]. split; [discriminate|]. intros ->. destruct st; discriminate.
  - destruct b as [|c t]; [contradiction|]. destruct (tg_entity (entity t g) =? 0).
    + eexists _, _, _, _. split; [reflexivity|]. split; [apply entity_good; exact G|]. split; [exact B|]. split; [discriminate|]. split; reflexivity.
    + eexists _, _, _, _. split; [reflexivity|]. split; [apply entity_good; exact G|]. split; [apply reference_bytes|]. split; [discriminate|]. split; reflexivity.
Qed.
Lemma save_nonempty : forall F full st ch b g b' g', save F full st ch b g = Val (b', g') -> b' <> [].
Proof.
  intros F full st ch b g b' g' H. unfold save in H. destruct (full && in_text st).
  - destruct (pcdata F b g); [|discriminate|discriminate]. cbn in H. injection H as <- <-. discriminate.
  - injection H as <- <-. destruct b; discriminate.
Qed.
Lemma step_good : forall F full s, scan_good F s -> sc_state s <> S_DONE ->
  exists s', scan_step F full s = Val s' /\ scan_good F s' /\ (rank s' < rank s)%nat.
Proof.
  intros F full [st b i g0] [G0 B R] ND. cbn [sc_state sc_buffer sc_input sc_parser] in *.
  unfold scan_step. cbn [sc_state sc_buffer sc_input sc_parser].
  assert (G : good F (set_cdata false g0)) by (apply set_cdata_good; exact G0).
  assert (CF : tg_cdata (set_cdata false g0) = false) by reflexivity.
  set (g := set_cdata false g0) in *. clearbody g.
  destruct (next_char i) as [ch i'] eqn:NX.
  assert (PR : in_failed i = true /\ ch = -1 /\ i' = i \/ in_failed i = false).
  { destruct (in_failed i) eqn:FI; [left|right; reflexivity]. rewrite (next_failed i FI) in NX. injection NX as <- <-. auto. }
  destruct (negb ((32 <=? ch) || (ch =? 10) || (ch =? 9) || (ch =? -1))) eqn:SK.
  { eexists. split; [reflexivity|]. split; [constructor; auto|].
    destruct PR as [(_ & -> & _)|FI]; [discriminate SK|].
    unfold rank. cbn [sc_state sc_buffer sc_input]. rewrite FI. pose proof (end_rank_le st b). destruct (next_ok i ch i' FI NX) as [FI'|[L _]].
    - rewrite FI'. lia.
    - destruct (in_failed i'); lia. }
  destruct PR as [(FI & -> & ->)|FI].
  - (* the stream has failed *)
    destruct (search_end st ND) as (a & n & SE & T). rewrite SE.
    destruct (in_reference st) eqn:RF.
    + assert (a = A_ENTITY) by (destruct st; try discriminate RF; exact T). subst a.
      destruct (do_entity_good F st (-1) b g G B RF (R eq_refl)) as (n' & b' & g' & back & -> & G' & B' & R' & _ & E). cbn [obind]. rewrite (E eq_refl).
      eexists. split; [reflexivity|]. split; [constructor; auto; cbn; discriminate|].
      unfold rank. cbn [sc_state sc_buffer sc_input]. assert (UN : (if back then unget_char i else i) = i) by (destruct back; [unfold unget_char; rewrite FI|]; reflexivity).
      rewrite UN, FI. destruct st; try discriminate RF; cbn; lia.
    + assert (NE : a <> A_ENTITY) by (destruct st; try discriminate RF; try contradiction; try apply T; destruct T as [-> _]; discriminate).
      destruct (act_good F full a st (-1) b g G B) as (b' & g' & EA & G' & B').
      assert (STEP : exists i2, (match a with
         | A_ENTITY => obind (do_entity st (-1) b g) (fun '(n, b', g', back) => Val (Scanner n b' (if back then unget_char i else i) g'))
         | _ => obind (act F full a st (-1) b g) (fun '(b', g') => Val (Scanner (if tg_cdata g' then S_CDATA else n) b' match a with A_UNGET => unget_char i | _ => i end g')) end)
         = Val (Scanner (if tg_cdata g' then S_CDATA else n) b' i2 g') /\ in_failed i2 = true).
      { exists i. split; [|exact FI]. destruct a; try contradiction; rewrite EA; try reflexivity. cbn. unfold unget_char. rewrite FI. reflexivity. }
      destruct STEP as (i2 & ST & FI2). eexists. split; [exact ST|]. split.
      * constructor; cbn [sc_state sc_buffer sc_parser]; auto. intro RN. exfalso. destruct (tg_cdata g'); [discriminate RN|].
        destruct st; try discriminate RF; try contradiction; destruct T as [_ ->]; discriminate RN.
      * unfold rank. cbn [sc_state sc_buffer sc_input]. rewrite FI, FI2.
        destruct st; try discriminate RF; try contradiction; destruct T as [TA ->];
          try (destruct (tg_cdata g'); cbn; [destruct b'|]; lia).
        -- subst a. cbn [act] in EA. unfold cleared in EA. destruct b as [|c b].
           ++ cbn in EA. injection EA as <- <-. rewrite CF. cbn. lia.
           ++ destruct (pcdata F (c :: b) g); try discriminate. cbn in EA. injection EA as EB _; subst b'. destruct (tg_cdata g'); cbn; lia.
  - (* a character has been read, or the end has been met *)
    destruct (search_some st ch ND) as (a & n & SE & NU & AE & AN). rewrite SE.
    destruct (in_reference st && match a with A_ENTITY => true | _ => false end) eqn:Q.
    + apply andb_prop in Q as [RF QA]. assert (a = A_ENTITY) by (destruct a; try discriminate QA; reflexivity). subst a.
      destruct (do_entity_good F st ch b g G B RF (R RF)) as (n' & b' & g' & back & -> & G' & B' & R' & BK & _). cbn [obind].
      eexists. split; [reflexivity|]. split; [constructor; auto|].
      unfold rank. cbn [sc_state sc_buffer sc_input]. rewrite FI, RF.
      pose proof (end_rank_le n' b'). destruct (next_ok i ch i' FI NX) as [FI'|[L U]].
      * assert (UN : (if back then unget_char i' else i') = i') by (destruct back; [unfold unget_char; rewrite FI'|]; reflexivity).
        rewrite UN, FI'. lia.
      * destruct back.
        -- rewrite (BK eq_refl). cbn [in_reference]. destruct U as [U|U]; [rewrite U; cbn; lia|]. destruct (in_failed (unget_char i')); [cbn; lia|]. lia.
        -- destruct (in_failed i'); [lia|]. destruct (in_reference n'); lia.
    + assert (NE : a <> A_ENTITY) by (intros ->; rewrite (AE eq_refl) in Q; discriminate).
      destruct (act_good F full a st ch b g G B) as (b' & g' & EA & G' & B').
      exists (Scanner (if tg_cdata g' then S_CDATA else n) b' i' g'). split; [destruct a; try contradiction; rewrite EA; reflexivity|]. split.
      * constructor; cbn [sc_state sc_buffer sc_parser]; auto. intro RN. destruct (tg_cdata g'); [discriminate RN|].
        destruct (AN RN) as [E1|E1]; subst a; [contradiction|]. cbn [act] in EA. destruct (pcdata F b g) as [g2| |]; try discriminate. cbn [obind] in EA. eapply save_nonempty. exact EA.
      * unfold rank. cbn [sc_state sc_buffer sc_input]. rewrite FI. pose proof (end_rank_le (if tg_cdata g' then S_CDATA else n) b').
        destruct (next_ok i ch i' FI NX) as [FI'|[L _]]; [rewrite FI'; lia|]. destruct (in_failed i'); [lia|].
        destruct (in_reference (if tg_cdata g' then S_CDATA else n)); lia.
Qed.
Lemma scan_good_end : forall F full fuel s, scan_good F s -> (rank s <= fuel)%nat ->
  exists g, good F g /\ scan fuel F full s = eof F g.
Proof.
  intros F full fuel. induction fuel as [|fuel IH]; intros s G L.
  - assert (sc_state s = S_DONE).
    { unfold rank in L. destruct (in_failed (sc_input s)); [|lia]. destruct (sc_state s); cbn in L; try lia; [|reflexivity]. destruct (sc_buffer s); lia. }
    exists (sc_parser s). split; [apply s_good; exact G|]. cbn [scan]. rewrite H. reflexivity.
  - assert (DEC : sc_state s = S_DONE \/ sc_state s <> S_DONE) by (destruct (sc_state s); (left; reflexivity) || (right; discriminate)). destruct DEC as [E|NE].
    + exists (sc_parser s). split; [apply s_good; exact G|]. cbn [scan]. rewrite E. reflexivity.
    + destruct (step_good F (full fuel) s G NE) as (s' & ST & G' & L'). destruct (IH s' G') as (g & GG & E); [lia|]. exists g. split; [exact GG|].
      cbn [scan]. rewrite ST. cbn [obind]. destruct (sc_state s); try contradiction; exact E.
Qed.
Theorem parse_again_ok : forall again F full s, exists g l, parse_again again F full s = Val g /\
  tg_out g = HStartDocument :: HLocator :: l /\ document true (fe_ignorable F) (HStartDocument :: l) /\ Forall (start_names (fe_namespaces F)) (tg_out g).
Proof.
  intros again F full s. unfold parse_again.
  destruct (scan_good_end F full (fuel_for s) (Scanner S_PCDATA [] (Input [] s false) (setup F again))) as (g & G & E).
  - constructor; cbn [sc_parser sc_buffer sc_state]; [apply setup_good|constructor|discriminate].
  - unfold rank, fuel_for. cbn [sc_input in_failed in_rest sc_state in_reference]. lia.
  - destruct (eof_document F g G) as (g' & l & E' & EO & D & N). exists g', l. rewrite E, E'. auto.
Qed.

(** Documents are nested. *)
Scheme content_both := Minimality for content Sort Prop with element_both := Minimality for element Sort Prop.
Lemma nested_plain : forall l o r, Forall (fun e => match e with HStart _ _ _ _ | HEnd _ _ _ => False | _ => True end) l -> nested o (l ++ r) = nested o r.
Proof. induction l as [|e l IH]; intros o r H; [reflexivity|]. inversion H; subst. destruct e; try contradiction; cbn [app nested]; apply IH; assumption. Qed.
Lemma nested_content : forall late c, content late c -> forall o r, nested o (c ++ r) = nested o r.
Proof.
  intros late. apply (content_both late (fun c => forall o r, nested o (c ++ r) = nested o r) (fun c => forall o r, nested o (c ++ r) = nested o r));
    try (intros; cbn [app nested]; auto; fail).
  - intros e l _ IE _ IL o r. rewrite <- app_assoc, IE. apply IL.
  - intros m u local q atts c ends _ _ IC P o r. rewrite <- app_assoc, nested_plain.
    + cbn [app nested]. rewrite <- app_assoc, IC. cbn [app nested]. rewrite !(proj2 (ContainersProof.str_eqb_true _ _) eq_refl). cbn [andb].
      apply nested_plain. clear. induction ends; constructor; auto.
    + clear. induction m; constructor; auto.
Qed.
Lemma nested_element : forall late e, element late e -> forall o r, nested o (e ++ r) = nested o r.
Proof.
  intros late e H o r. assert (C : content late (e ++ [])) by (constructor; [exact H|constructor]).
  rewrite app_nil_r in C. exact (nested_content late e C o r).
Qed.
Lemma prolog_plain : forall b l, prolog b l -> Forall (fun e => match e with HStart _ _ _ _ | HEnd _ _ _ => False | _ => True end) l.
Proof. intros b l H. induction H; repeat constructor; assumption. Qed.
Theorem parse_nested : forall F full s, exists l, parse F full s = Val l /\ nested [] l = Some [].
Proof.
  intros F full s. destruct (parse_again_ok false F full s) as (g & l & E & O & D & _).
  exists (tg_out g). unfold parse. rewrite E. split; [reflexivity|]. rewrite O. inversion D as [p u pre e P L EQ]; subst.
  cbn [nested]. rewrite nested_plain by exact (prolog_plain _ _ P).
  rewrite (nested_element _ _ L). reflexivity.
Qed.
