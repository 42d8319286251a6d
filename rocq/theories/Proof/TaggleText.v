(** Plain text and references to ASCII characters come through the HTML parser as they are. *)
From Coq Require Import String.
From Verif.Model Require Import Base Chars Text Attrs XSort HtmlSchema Taggle HtmlScanner.
From Verif.Spec Require Import TextSpec TaggleSpec.
From Verif.Proof Require Import ContainersProof TaggleProof TaggleProof2 TaggleProof3 HtmlScannerProof.
From Coq Require Import List Lia.
Import ListNotations.
Open Scope Z_scope.

(** * The parser *)
Definition the_type (name : string) : etype := match get_type html_schema (ascii_str name) with Some t => t | None => root_type end.
Definition t_html := the_type "html".
Definition t_body := the_type "body".
Definition t_text := the_type "<pcdata>".
Lemma type_body : get_type html_schema (ascii_str "body") = Some t_body. Proof. vm_compute. reflexivity. Qed.
Lemma type_html : get_type html_schema (ascii_str "html") = Some t_html. Proof. vm_compute. reflexivity. Qed.
Lemma type_text : get_type html_schema pcdata_name = Some t_text. Proof. vm_compute. reflexivity. Qed.
Lemma parent_text : et_parent t_text = Some (ascii_str "body"). Proof. vm_compute. reflexivity. Qed.
Lemma parent_body : et_parent t_body = Some (ascii_str "html"). Proof. vm_compute. reflexivity. Qed.
Lemma root_text : type_contains root_type t_text = false. Proof. vm_compute. reflexivity. Qed.
Lemma root_body : type_contains root_type t_body = false. Proof. vm_compute. reflexivity. Qed.
Lemma root_html : type_contains root_type t_html = true. Proof. vm_compute. reflexivity. Qed.
Lemma body_text : type_contains t_body t_text = true. Proof. vm_compute. reflexivity. Qed.
Lemma flag_html : Z.land (et_flags t_html) F_CDATA = 0. Proof. vm_compute. reflexivity. Qed.
Lemma flag_body : Z.land (et_flags t_body) F_CDATA = 0. Proof. vm_compute. reflexivity. Qed.
Lemma name_html : str_eqb (et_name t_html) pcdata_name = false. Proof. vm_compute. reflexivity. Qed.
Lemma name_body : str_eqb (et_name t_body) pcdata_name = false. Proof. vm_compute. reflexivity. Qed.
Lemma name_text : str_eqb (et_name t_text) pcdata_name = true. Proof. vm_compute. reflexivity. Qed.
Lemma schema_size : exists k, length html_schema = S (S k).
Proof. let n := eval vm_compute in (length html_schema - 2)%nat in exists n. vm_compute. reflexivity. Qed.
Global Opaque t_html t_body t_text html_schema.

Lemma el_type_new : forall b t, el_type (new_elem b t) = t. Proof. intros [] t; reflexivity. Qed.
Lemma the_text : forall F, the_elem F html_schema pcdata_name = Some (new_elem (fe_default_attributes F) t_text).
Proof. intro F. unfold the_elem. rewrite type_text. reflexivity. Qed.
Record at_text (body : bool) (g : taggle) : Prop := {
  a_schema : tg_schema g = html_schema;
  a_saved : tg_saved g = [];
  a_stack : if body then exists e r, tg_stack g = e :: r /\ el_type e = t_body else exists e, tg_stack g = [e] /\ el_type e = root_type }.
Lemma text_of_app : forall a b, text_of (a ++ b) = text_of a ++ text_of b.
Proof. intros. unfold text_of. apply flat_map_app. Qed.
Lemma no_text : forall l, Forall (fun e => match e with HText _ => False | _ => True end) l -> text_of l = [].
Proof. induction 1 as [|e l P _ IH]; [reflexivity|]. unfold text_of in *. destruct e; try contradiction; exact IH. Qed.
Lemma push_plain : forall F e g, Z.land (et_flags (el_type e)) F_CDATA = 0 ->
  tg_schema (push F e g) = tg_schema g /\ tg_saved (push F e g) = tg_saved g /\ tg_stack (push F e g) = clean e :: tg_stack g /\
  tg_cdata (push F e g) = tg_cdata g /\ text_of (tg_out (push F e g)) = text_of (tg_out g).
Proof.
  intros F e g FL. unfold push, has_flag. cbn [clean el_type]. rewrite FL. rewrite Z.eqb_refl. cbn [negb]. rewrite Bool.andb_false_r.
  cbn [set_virgin set_stack tell tg_schema tg_saved tg_stack tg_cdata tg_out]. repeat split. rewrite text_of_app. match goal with |- _ ++ text_of ?l = _ => rewrite (no_text l), app_nil_r; [reflexivity|] end.
  apply Forall_app. split; [destruct (foreign _ _); repeat constructor|]. apply Forall_app. split; [|repeat constructor].
  match goal with |- Forall _ (flat_map ?f ?x) => generalize x end. intro xs. induction xs as [|a xs IH]; [constructor|]. cbn [flat_map]. apply Forall_app. split; [|exact IH].
  destruct (foreign _ _); repeat constructor.
Qed.
Lemma restart_none : forall F e g, tg_saved g = [] -> restart F e g = set_saved [] g.
Proof. intros F e g H. unfold restart. rewrite H. reflexivity. Qed.
Lemma rectify_body : forall F g, at_text true g -> exists g', rectify_pcdata F g = Val g' /\ at_text true g' /\ tg_cdata g' = tg_cdata g /\ text_of (tg_out g') = text_of (tg_out g).
Proof.
  intros F g [SC SV (e & r & ST & TY)]. unfold rectify_pcdata. rewrite SC, the_text. unfold rectify. rewrite ST, SC.
  set (x := new_elem (fe_default_attributes F) t_text). assert (TX : el_type x = t_text) by apply el_type_new.
  assert (R : raise (length html_schema) F html_schema (e :: r) [] x = Val ([x], 0%nat)).
  { destruct schema_size as (k & ->). cbn [raise find_place]. unfold can_contain. rewrite TY, TX, body_text. reflexivity. }
  rewrite R. cbn [obind pop_until push_chain]. unfold el_name. rewrite TX, name_text. rewrite restart_none by exact SV.
  eexists. split; [reflexivity|]. cbn [set_new set_saved tg_cdata tg_out]. split; [|auto].
  constructor; cbn [set_new set_saved tg_schema tg_saved tg_stack]; auto. exists e, r. auto.
Qed.
Lemma rectify_root : forall F g, at_text false g -> exists g', rectify_pcdata F g = Val g' /\ at_text true g' /\ tg_cdata g' = tg_cdata g /\ text_of (tg_out g') = text_of (tg_out g).
Proof.
  intros F g [SC SV (e & ST & TY)]. unfold rectify_pcdata. rewrite SC, the_text. unfold rectify. rewrite ST, SC.
  set (x := new_elem (fe_default_attributes F) t_text). assert (TX : el_type x = t_text) by apply el_type_new.
  set (y := new_elem (fe_default_attributes F) t_body). assert (TB : el_type y = t_body) by apply el_type_new.
  set (z := new_elem (fe_default_attributes F) t_html). assert (TH : el_type z = t_html) by apply el_type_new.
  assert (R : raise (length html_schema) F html_schema [e] [] x = Val ([z; y; x], 0%nat)).
  { destruct schema_size as (k & ->). cbn [raise find_place]. unfold can_contain. rewrite TY, TX, root_text. cbn [option_map]. rewrite parent_text, type_body.
    fold y. rewrite TB, root_body. cbn [option_map]. rewrite parent_body, type_html. fold z. unfold raise. destruct k; cbn [find_place]; unfold can_contain; rewrite TY, TH, root_html; reflexivity. }
  rewrite R. cbn [obind pop_until push_chain hd_error]. unfold el_name. rewrite TX, TB, TH, name_text, name_body, name_html.
  destruct (push_plain F z g) as (S1 & V1 & K1 & C1 & T1); [rewrite TH; exact flag_html|].
  rewrite (restart_none F (Some y) (push F z g)) by (rewrite V1; exact SV). set (g1 := set_saved [] (push F z g)).
  destruct (push_plain F y g1) as (S2 & V2 & K2 & C2 & T2); [rewrite TB; exact flag_body|].
  rewrite (restart_none F (Some x) (push F y g1)) by (rewrite V2; reflexivity). set (g2 := set_saved [] (push F y g1)).
  rewrite restart_none by reflexivity. eexists. split; [reflexivity|]. cbn [set_new set_saved tg_cdata tg_out]. split; [|split].
  - constructor; cbn [set_new set_saved tg_schema tg_saved tg_stack]; auto.
    + unfold g2. cbn [set_saved tg_schema]. rewrite S2. unfold g1. cbn [set_saved tg_schema]. rewrite S1. exact SC.
    + unfold g2. cbn [set_saved tg_stack]. rewrite K2. eexists _, _. split; [reflexivity|]. exact TB.
  - unfold g2. cbn [set_saved tg_cdata]. rewrite C2. unfold g1. cbn [set_saved tg_cdata]. exact C1.
  - unfold g2. cbn [set_saved tg_out]. rewrite T2. unfold g1. cbn [set_saved tg_out]. exact T1.
Qed.
(** Text is reported unless it is only white space before the body. *)
Definition reported (body : bool) (b : str) : Prop := body = true \/ forallb (fun c => is_space (wide c)) b = false.
Lemma pcdata_plain : forall F body b g, at_text body g -> b <> [] -> reported body b -> exists g', pcdata F b g = Val g' /\ at_text true g' /\
  tg_cdata g' = tg_cdata g /\ text_of (tg_out g') = text_of (tg_out g) ++ c_string b.
Proof.
  intros F body b g A NE R. unfold pcdata. destruct b as [|c b]; [contradiction|].
  assert (K : exists g', rectify_pcdata F g = Val g' /\ at_text true g' /\ tg_cdata g' = tg_cdata g /\ text_of (tg_out g') = text_of (tg_out g))
    by (destruct body; [apply rectify_body|apply rectify_root]; exact A).
  assert (W : forallb (fun c => is_space (wide c)) (c :: b) && negb match the_elem F (tg_schema g) pcdata_name with Some e => top_contains g e | None => false end = false).
  { destruct R as [->|R]; [|rewrite R; reflexivity]. destruct A as [SC SV (e & r & ST & TY)]. rewrite SC, the_text. unfold top_contains. rewrite ST. unfold can_contain.
    rewrite TY, el_type_new, body_text. apply Bool.andb_false_r. }
  rewrite W. destruct K as (g' & -> & A' & C & T). cbn [obind]. eexists. split; [reflexivity|]. destruct A' as [SC SV ST]. split; [|split].
  - constructor; cbn [tell tg_schema tg_saved tg_stack]; auto.
  - exact C.
  - cbn [tell tg_out]. rewrite text_of_app, T. unfold text_of at 2. cbn [flat_map]. rewrite app_nil_r. reflexivity.
Qed.

(** * References *)
Lemma digit_value_of : forall base c d, (base = 10 \/ base = 16) -> digit_of base c d -> digit_value base c = Some d.
Proof.
  intros base c d B [L H]. unfold digit_value.
  destruct ((48 <=? c) && (c <=? 57)) eqn:E1.
  { apply andb_prop in E1 as [E1 E1']. apply Z.leb_le in E1, E1'. assert (c - 48 = d) by lia. rewrite H0. destruct (Z.ltb_spec d base); [reflexivity|lia]. }
  apply Bool.andb_false_iff in E1. rewrite !Z.leb_gt in E1.
  destruct ((97 <=? c) && (c <=? 122)) eqn:E2.
  { apply andb_prop in E2 as [E2 E2']. apply Z.leb_le in E2, E2'. assert (c - 87 = d) by lia. rewrite H0. destruct (Z.ltb_spec d base); [reflexivity|lia]. }
  apply Bool.andb_false_iff in E2. rewrite !Z.leb_gt in E2.
  destruct ((65 <=? c) && (c <=? 90)) eqn:E3.
  { apply andb_prop in E3 as [E3 E3']. apply Z.leb_le in E3, E3'. assert (c - 55 = d) by lia. rewrite H0. destruct (Z.ltb_spec d base); [reflexivity|lia]. }
  apply Bool.andb_false_iff in E3. rewrite !Z.leb_gt in E3. lia.
Qed.
Lemma digits_numeral : forall base s v, (base = 10 \/ base = 16) -> numeral base s v -> forall r, digits_of base 0 (s ++ r) = digits_of base v r.
Proof.
  intros base s v B N. induction N as [c d D|s v c d N IH D]; intro r.
  - cbn [app digits_of]. rewrite (digit_value_of base c d B D). reflexivity.
  - rewrite <- app_assoc. rewrite IH. cbn [app digits_of]. rewrite (digit_value_of base c d B D). reflexivity.
Qed.
Lemma numeral_chars : forall base s v, numeral base s v -> s <> [] /\ Forall (fun c => exists d, digit_of base c d) s.
Proof.
  intros base s v N. induction N as [c d D|s v c d N [NE IH] D].
  - split; [discriminate|]. constructor; [exists d; exact D|constructor].
  - split; [destruct s; discriminate|]. apply Forall_app. split; [exact IH|]. constructor; [exists d; exact D|constructor].
Qed.
Lemma strtol_plain : forall base s, Forall (fun c => c <> 120 /\ c <> 88 /\ c <> 45 /\ c <> 43) s -> strtol base s = clamp_long (digits_of base 0 s).
Proof.
  intros base s H. assert (K : strtol_digits base s = digits_of base 0 s).
  { unfold strtol_digits. destruct s as [|a [|x [|c r]]].
    - reflexivity.
    - repeat match goal with |- match ?x with _ => _ end = _ => destruct x end; reflexivity.
    - repeat match goal with |- match ?x with _ => _ end = _ => destruct x end; reflexivity.
    - inversion H as [|? ? _ H2]; subst. inversion H2 as [|? ? (X1 & X2 & _) _]; subst.
      assert (E : (base =? 16) && ((x =? 120) || (x =? 88)) && match digit_value 16 c with Some _ => true | None => false end = false).
      { destruct (Z.eqb_spec x 120); [contradiction|]. destruct (Z.eqb_spec x 88); [contradiction|]. rewrite Bool.andb_false_r. reflexivity. }
      rewrite E. repeat match goal with |- match ?x with _ => _ end = _ => destruct x end; reflexivity. }
  unfold strtol. f_equal. destruct s as [|c r]; [reflexivity|]. inversion H as [|? ? (_ & _ & X3 & X4) _]; subst.
  destruct (Z.eqb_spec c 45); [contradiction|]. destruct (Z.eqb_spec c 43); [contradiction|]. exact K.
Qed.
Lemma numeral_value : forall base s v, (base = 10 \/ base = 16) -> numeral base s v -> 32 <= v <= 127 -> as_int32 (strtol base s) = v.
Proof.
  intros base s v B N R. rewrite strtol_plain.
  - pose proof (digits_numeral base s v B N []) as D. rewrite app_nil_r in D. rewrite D. cbn [digits_of]. unfold clamp_long, long_max, as_int32.
    destruct (Z.ltb_spec 9223372036854775807 v); [lia|]. destruct (Z.ltb_spec v (Z.opp 9223372036854775807 - 1)); [lia|]. rewrite (Z.mod_small v 4294967296) by lia.
    destruct (Z.ltb_spec v 2147483648); [reflexivity|lia].
  - destruct (numeral_chars base s v N) as [_ F]. eapply Forall_impl; [|exact F]. intros c (d & L & D). lia.
Qed.
(** The states a reference goes through. *)
Inductive walks : sstate -> str -> sstate -> Prop :=
  | walks_nil st : walks st [] st
  | walks_cons st c n cs m : 32 <= c < 256 -> more_reference st c = Some n -> walks n cs m -> walks st (c :: cs) m.
Lemma walks_same : forall st cs, Forall (fun c => 32 <= c < 256 /\ more_reference st c = Some st) cs -> walks st cs st.
Proof. intros st cs H. induction H as [|c cs [R M] _ IH]; [constructor|]. econstructor; eassumption. Qed.
Lemma digit_is : forall c, 48 <= c <= 57 -> is_digit (wide c) = true /\ is_letter_or_digit (wide c) = true.
Proof.
  intros c R. assert (W : wide c = c) by (unfold wide; destruct (Z.ltb_spec c 128); [reflexivity|lia]). rewrite W.
  assert (D : is_digit c = true) by (unfold is_digit, within; destruct (Z.leb_spec 48 c); [|lia]; destruct (Z.leb_spec c 57); [reflexivity|lia]).
  split; [exact D|]. unfold is_letter_or_digit. rewrite D. apply Bool.orb_true_r.
Qed.
Lemma hex_is : forall c, 97 <= c <= 102 \/ 65 <= c <= 70 -> is_hex_letter (wide c) = true.
Proof.
  intros c R. assert (W : wide c = c) by (unfold wide; destruct (Z.ltb_spec c 128); [reflexivity|lia]). rewrite W.
  assert (K : In c [97;98;99;100;101;102;65;66;67;68;69;70]) by (cbn [In]; lia).
  cbn [In] in K. repeat (destruct K as [K|K]; [subst c; reflexivity|]). contradiction.
Qed.
Ltac named_reference := split; [vm_compute; reflexivity|exists S_ENT; split; [|reflexivity]; apply walks_same; repeat (apply Forall_cons; [split; [cbn; lia|vm_compute; reflexivity]|]); apply Forall_nil].
Lemma reference_walks : forall b v, reference b v -> lookup_entity b = v /\ exists st, walks S_ENT b st /\ in_reference st = true.
Proof.
  intros b v (R & [[-> ->]|[[-> ->]|[[-> ->]|[[-> ->]|[(d & -> & N)|(x & d & -> & X & N)]]]]]);
    [named_reference|named_reference|named_reference|named_reference| |].
  - destruct (numeral_chars 10 d v N) as [NE F].
    assert (DG : Forall (fun c => 48 <= c <= 57) d) by (eapply Forall_impl; [|exact F]; intros c (k & L & D); lia). split.
    + cbn [lookup_entity]. change (35 =? 35) with true. cbn match. destruct d as [|x t]; [contradiction|]. inversion DG; subst.
      destruct (Z.eqb_spec x 120); [lia|]. destruct (Z.eqb_spec x 88); [lia|]. cbn [orb]. apply (numeral_value 10); [left; reflexivity|exact N|exact R].
    + exists S_NCR. split; [|reflexivity]. apply (walks_cons S_ENT 35 S_NCR); [lia|vm_compute; reflexivity|]. apply walks_same. eapply Forall_impl; [|exact DG]. intros c C. cbn beta in *. split; [lia|].
      unfold more_reference. destruct (digit_is c C) as [-> _]. assert (W : wide c = c) by (unfold wide; destruct (Z.ltb_spec c 128); [reflexivity|lia]). rewrite W.
      destruct (Z.eqb_spec c 120); [lia|]. destruct (Z.eqb_spec c 88); [lia|]. reflexivity.
  - destruct (numeral_chars 16 d v N) as [NE F]. split.
    + cbn [lookup_entity]. change (35 =? 35) with true. cbn match. assert (E : (x =? 120) || (x =? 88) = true) by (destruct X as [->| ->]; reflexivity). rewrite E.
      apply (numeral_value 16); [right; reflexivity|exact N|exact R].
    + exists S_XNCR. split; [|reflexivity]. apply (walks_cons S_ENT 35 S_NCR); [lia|vm_compute; reflexivity|].
      apply (walks_cons S_NCR x S_XNCR); [destruct X; lia|destruct X as [->| ->]; vm_compute; reflexivity|]. apply walks_same. eapply Forall_impl; [|exact F]. intros c (k & L & D). split; [lia|].
      unfold more_reference. destruct D as [[D _]|D]; [destruct (digit_is c D) as [-> _]; reflexivity|]. rewrite (hex_is c) by lia. rewrite Bool.orb_true_r. reflexivity.
Qed.

(** * The scanner *)
Lemma set_cdata_same : forall g, tg_cdata g = false -> set_cdata false g = g.
Proof. intros [] H. cbn in *. subst. reflexivity. Qed.
Lemma as_byte_same : forall c, 0 <= c < 256 -> as_byte c = c.
Proof. intros c R. unfold as_byte. apply Z.mod_small. exact R. Qed.
Lemma search_text : forall c, c <> 38 -> c <> 60 -> c <> -1 -> search S_PCDATA c None state_table = Some (A_SAVE, S_PCDATA).
Proof.
  intros c N1 N2 N3. cbn -[Z.eqb].
  repeat match goal with |- context [if ?c =? 0 then _ else _] => let x := eval vm_compute in (c =? 0) in change (c =? 0) with x; cbn -[Z.eqb] end.
  destruct (Z.eqb_spec 38 c); [congruence|]. destruct (Z.eqb_spec 60 c); [congruence|]. destruct (Z.eqb_spec (-1) c); [congruence|]. reflexivity.
Qed.
Lemma search_reference : forall st c, in_reference st = true -> c <> -1 -> exists n, search st c None state_table = Some (A_ENTITY, n).
Proof.
  intros st c R N. destruct st; try discriminate R; cbn -[Z.eqb];
  repeat match goal with |- context [if ?c =? 0 then _ else _] => let x := eval vm_compute in (c =? 0) in change (c =? 0) with x; cbn -[Z.eqb] end;
  (destruct (Z.eqb_spec (-1) c); [congruence|]); eexists; reflexivity.
Qed.
Definition text_char (c : Z) : Prop := 32 <= c < 256 /\ c <> 60 /\ c <> 38 \/ c = 9 \/ c = 10.
Lemma shown_char : forall c, text_char c -> negb ((32 <=? c) || (c =? 10) || (c =? 9) || (c =? -1)) = false.
Proof.
  intros c [[R _]|[->| ->]]; [|reflexivity|reflexivity]. destruct (Z.leb_spec 32 c); [reflexivity|lia].
Qed.
(** A character to be kept. *)
Lemma step_text : forall F fl b i g c i', next_char i = (c, i') -> text_char c ->
  scan_step F fl (Scanner S_PCDATA b i g) =
  obind (save F fl S_PCDATA c b (set_cdata false g)) (fun '(b', g') => Val (Scanner (if tg_cdata g' then S_CDATA else S_PCDATA) b' i' g')).
Proof.
  intros F fl b i g c i' NX TC. unfold scan_step. cbn [sc_input sc_state sc_buffer sc_parser]. rewrite NX, (shown_char c TC).
  rewrite search_text by (unfold text_char in TC; lia). reflexivity.
Qed.
Definition kept (body : bool) (b : str) (g : taggle) (acc : str) : Prop :=
  at_text body g /\ tg_cdata g = false /\ text_of (tg_out g) ++ b = acc /\ Forall (fun c => c <> 0) b.
Lemma c_string_nonzero : forall b, Forall (fun c => c <> 0) b -> c_string b = b.
Proof. induction 1 as [|c b N _ IH]; [reflexivity|]. cbn [c_string]. destruct (Z.eqb_spec c 0); [contradiction|]. rewrite IH. reflexivity. Qed.
Lemma flush : forall F body b g acc, kept body b g acc -> (b = [] \/ reported body b) -> exists body' g', pcdata F b g = Val g' /\ kept body' [] g' acc /\ (b <> [] -> body' = true) /\ (b = [] -> body' = body).
Proof.
  intros F body b g acc (A & C & T & NZ) R. destruct b as [|c b].
  - exists body, g. split; [reflexivity|]. split; [|split; [intro K; contradiction|auto]]. split; [exact A|]. auto.
  - destruct R as [R|R]; [discriminate|]. destruct (pcdata_plain F body (c :: b) g A) as (g' & E & A' & C' & T'); [discriminate|exact R|].
    exists true, g'. split; [exact E|]. split; [|split; [auto|discriminate]]. split; [exact A'|]. split; [congruence|]. split; [|constructor].
    rewrite app_nil_r, T', c_string_nonzero by exact NZ. exact T.
Qed.
Lemma kept_add : forall body b g acc c, kept body b g acc -> c <> 0 -> kept body (b ++ [c]) g (acc ++ [c]).
Proof.
  intros body b g acc c (A & C & T & NZ) N. split; [exact A|]. split; [exact C|]. split; [rewrite app_assoc, T; reflexivity|].
  apply Forall_app. split; [exact NZ|]. constructor; [exact N|constructor].
Qed.
Definition solid (c : Z) : Prop := is_space (wide c) = false.
Lemma reported_add : forall body b c, (reported body b \/ solid c) -> reported body (b ++ [c]).
Proof.
  intros body b c H. destruct body; [left; reflexivity|]. right. rewrite forallb_app. destruct H as [[H|H]|H]; [discriminate|rewrite H; reflexivity|].
  cbn [forallb]. rewrite H. apply Bool.andb_false_r.
Qed.
Lemma save_text : forall F fl body b g acc c, kept body b g acc -> 0 < c < 256 -> (reported body b \/ (b = [] /\ solid c)) ->
  exists body' b' g', save F fl S_PCDATA c b g = Val (b', g') /\ kept body' b' g' (acc ++ [c]) /\ reported body' b'.
Proof.
  intros F fl body b g acc c K R H. unfold save. rewrite as_byte_same by lia. destruct fl; cbn [andb in_text].
  - destruct (flush F body b g acc K) as (body' & g' & -> & K' & B1 & B2); [destruct H as [H|[H _]]; auto|]. cbn [obind].
    exists body', [c], g'. split; [reflexivity|]. split; [exact (kept_add body' [] g' acc c K' ltac:(lia))|].
    destruct b as [|x b].
    + rewrite (B2 eq_refl). apply (reported_add body [] c). destruct H as [H|[_ H]]; auto.
    + left. apply B1. discriminate.
  - exists body, (b ++ [c]), g. split; [reflexivity|]. split; [apply kept_add; [exact K|lia]|]. apply reported_add. destruct H as [H|[_ H]]; auto.
Qed.
Lemma scan_go : forall F full f s s', sc_state s <> S_DONE -> scan_step F (full f) s = Val s' -> scan (S f) F full s = scan f F full s'.
Proof. intros F full f s s' N E. cbn [scan]. rewrite E. destruct (sc_state s); try contradiction; reflexivity. Qed.
(** The body of a reference. *)
Lemma walk : forall F full st cs n, walks st cs n -> forall f b bf r g, in_reference st = true -> tg_cdata g = false ->
  exists bf', scan (length cs + f) F full (Scanner st b (Input bf (cs ++ r) false) g) = scan f F full (Scanner n (b ++ cs) (Input bf' r false) g).
Proof.
  intros F full st cs n W. induction W as [st|st c n cs m R M W IH]; intros f b bf r g RF C.
  - exists bf. rewrite app_nil_r. reflexivity.
  - assert (RN : in_reference n = true).
    { destruct st; try discriminate RF; unfold more_reference in M;
        repeat match type of M with (if ?x then _ else _) = _ => destruct x end; try discriminate M; injection M as <-; reflexivity. }
    destruct (IH f (b ++ [c]) (c :: bf) r g RN C) as (bf' & E). exists bf'. rewrite <- app_assoc in E. cbn [app] in E. rewrite <- E. cbn [length Nat.add app]. apply scan_go; [destruct st; discriminate|].
    unfold scan_step. cbn [sc_input sc_state sc_buffer sc_parser]. unfold next_char, get_char. cbn [in_failed in_rest in_before].
    destruct (Z.eqb_spec c 13); [lia|]. destruct (Z.leb_spec 32 c); [|lia]. cbn [orb negb].
    destruct (search_reference st c RF ltac:(lia)) as (x & ->). unfold do_entity. rewrite M, as_byte_same by lia. cbn [obind]. rewrite set_cdata_same by exact C. reflexivity.
Qed.
Lemma step_amp : forall F fl body b bf r g acc, kept body b g acc -> (b = [] \/ reported body b) -> exists body' g',
  scan_step F fl (Scanner S_PCDATA b (Input bf (38 :: r) false) g) = Val (Scanner S_ENT [38] (Input (38 :: bf) r false) g') /\ kept body' [] g' acc /\ (b <> [] -> body' = true) /\ (b = [] -> body' = body).
Proof.
  intros F fl body b bf r g acc K R. destruct (flush F body b g acc K R) as (body' & g' & E & K' & B). exists body', g'. split; [|auto].
  unfold scan_step. cbn [sc_input sc_state sc_buffer sc_parser]. unfold next_char, get_char. cbn [in_failed in_rest in_before]. change (38 =? 13) with false. cbn match.
  change (negb ((32 <=? 38) || (38 =? 10) || (38 =? 9) || (38 =? -1))) with false. cbn match.
  assert (SE : search S_PCDATA 38 None state_table = Some (A_ENTITY_START, S_ENT)) by (vm_compute; reflexivity). rewrite SE.
  destruct K as (A & C & T). rewrite set_cdata_same by exact C. cbn [act]. rewrite E. cbn [obind].
  assert (S : save F fl S_PCDATA 38 [] g' = Val ([38], g')) by (unfold save; destruct fl; reflexivity). rewrite S. cbn [obind]. destruct K' as (_ & -> & _). reflexivity.
Qed.
Lemma step_semicolon : forall F fl st body0 v bf r g, in_reference st = true -> tg_cdata g = false -> lookup_entity body0 = v -> 32 <= v <= 127 ->
  scan_step F fl (Scanner st (38 :: body0) (Input bf (59 :: r) false) g) = Val (Scanner S_PCDATA [v] (Input (59 :: bf) r false) (set_entity v g)).
Proof.
  intros F fl st body0 v bf r g RF C L R. unfold scan_step. cbn [sc_input sc_state sc_buffer sc_parser]. unfold next_char, get_char. cbn [in_failed in_rest in_before].
  change (59 =? 13) with false. cbn match. change (negb ((32 <=? 59) || (59 =? 10) || (59 =? 9) || (59 =? -1))) with false. cbn match.
  destruct (search_reference st 59 RF ltac:(lia)) as (x & ->). unfold do_entity. assert (M : more_reference st 59 = None) by (destruct st; try discriminate RF; vm_compute; reflexivity). rewrite M.
  unfold entity. rewrite L. cbn [set_entity tg_entity]. rewrite set_cdata_same by exact C. destruct (Z.eqb_spec v 0); [lia|]. change (negb (59 =? 59)) with false. cbn [obind].
  unfold reference_text. destruct (Z.ltb_spec v 32); [lia|]. destruct (Z.leb_spec 55296 v); [lia|]. cbn [andb]. destruct (Z.leb_spec v 65535); [|lia]. rewrite as_byte_same by lia. reflexivity.
Qed.
Definition turns (p : piece) : nat := match p with PReturn => 1 | _ => length (source p) end.
Fixpoint all_turns (l : list piece) : nat := match l with [] => 0 | p :: r => turns p + all_turns r end.
Lemma at_text_entity : forall body g v, at_text body g -> at_text body (set_entity v g).
Proof. intros body g v [A B C]. constructor; assumption. Qed.
Lemma scan_piece : forall F full p f body b bf r g acc, text_piece p -> kept body b g acc -> (reported body b \/ (b = [] /\ solid (value p))) ->
  exists body' b' bf' g', scan (turns p + f) F full (Scanner S_PCDATA b (Input bf (source p ++ r) false) g) = scan f F full (Scanner S_PCDATA b' (Input bf' r false) g') /\
    kept body' b' g' (acc ++ [value p]) /\ reported body' b'.
Proof.
  intros F full p f body b bf r g acc TP K R.
  assert (CHAR : forall i c, next_char (Input bf (source p ++ r) false) = (c, i) -> text_char c -> value p = c -> turns p = 1%nat -> (exists bf', i = Input bf' r false) ->
    exists body' b' bf' g', scan (turns p + f) F full (Scanner S_PCDATA b (Input bf (source p ++ r) false) g) = scan f F full (Scanner S_PCDATA b' (Input bf' r false) g') /\
    kept body' b' g' (acc ++ [value p]) /\ reported body' b').
  { intros i c NX TC V T (bf' & EI). rewrite V in *. subst i. destruct (save_text F (full f) body b g acc c K) as (body' & b' & g' & E & K' & R'); [unfold text_char in TC; lia|exact R|].
    exists body', b', bf', g'. split; [|auto]. rewrite T. cbn [Nat.add]. apply scan_go; [discriminate|]. rewrite (step_text _ _ _ _ _ _ _ NX TC).
    destruct K as (_ & C & _). rewrite set_cdata_same by exact C. rewrite E. cbn [obind]. destruct K' as (_ & -> & _). reflexivity. }
  destruct p as [c| |body0 v].
  - cbn [source app] in *. apply (CHAR (Input (c :: bf) r false) c); try reflexivity; [|exact TP|eexists; reflexivity].
    unfold next_char, get_char. cbn [in_failed in_rest in_before]. cbn in TP. destruct (Z.eqb_spec c 13); [lia|reflexivity].
  - cbn [source app] in *. apply (CHAR (Input (10 :: 13 :: bf) r false) 10); try reflexivity; [right; right; reflexivity|eexists; reflexivity].
  - clear CHAR. cbn [text_piece] in TP. destruct (reference_walks body0 v TP) as (L & st & W & RF). destruct TP as (RV & _). cbn [value] in *.
    cbn [turns source]. cbn [length app]. rewrite app_length. cbn [length]. rewrite <- app_assoc. cbn [app].
    assert (BR : b = [] \/ reported body b) by (destruct R as [R|[R _]]; auto).
    destruct (step_amp F (full (length body0 + 1 + f)%nat) body b bf (body0 ++ 59 :: r) g acc K BR) as (body' & g' & E & K' & B1 & B2).
    destruct K' as (A' & C' & T' & N').
    assert (E2 : exists bf', scan (S (length body0 + 1) + f) F full (Scanner S_PCDATA b (Input bf (38 :: body0 ++ 59 :: r) false) g) = scan (1 + f) F full (Scanner st (38 :: body0) (Input bf' (59 :: r) false) g')).
    { cbn [Nat.add]. erewrite scan_go; [|discriminate|exact E]. rewrite <- Nat.add_assoc.
      destruct (walk F full S_ENT body0 st W (1 + f) [38] (38 :: bf) (59 :: r) g' eq_refl C') as (bf' & E2). exists bf'. exact E2. }
    destruct E2 as (bf' & E2). exists body', [v], (59 :: bf'), (set_entity v g'). split; [|split].
    + rewrite E2. cbn [Nat.add]. apply scan_go; [destruct st; discriminate|]. apply step_semicolon; assumption.
    + split; [apply at_text_entity; exact A'|]. split; [exact C'|]. split; [cbn [set_entity tg_out]; rewrite app_nil_r in T'; rewrite T'; reflexivity|]. constructor; [lia|constructor].
    + destruct b as [|x b]; [|left; apply B1; discriminate]. rewrite (B2 eq_refl). apply (reported_add body [] v). destruct R as [R|[_ R]]; auto.
Qed.
Lemma search_eof : search S_PCDATA (-1) None state_table = Some (A_PCDATA, S_DONE). Proof. vm_compute. reflexivity. Qed.
Lemma scan_pieces : forall F full ps f body b bf g acc, Forall text_piece ps -> kept body b g acc ->
  (reported body b \/ (b = [] /\ match ps with [] => True | p :: _ => solid (value p) end)) ->
  exists body' g', scan (all_turns ps + S f) F full (Scanner S_PCDATA b (Input bf (flat_map source ps) false) g) = eof F g' /\ kept body' [] g' (acc ++ map value ps).
Proof.
  intros F full ps. induction ps as [|p ps IH]; intros f body b bf g acc TP K R.
  - cbn [all_turns Nat.add flat_map map]. rewrite app_nil_r. assert (BR : b = [] \/ reported body b) by (destruct R as [R|[R _]]; auto).
    destruct (flush F body b g acc K BR) as (body' & g' & E & K' & _). exists body', g'. split; [|exact K'].
    assert (ST : exists i, scan_step F (full f) (Scanner S_PCDATA b (Input bf [] false) g) = Val (Scanner S_DONE [] i g')).
    { unfold scan_step. cbn [sc_input sc_state sc_buffer sc_parser]. unfold next_char, get_char. cbn [in_failed in_rest in_before].
      change (-1 =? 13) with false. cbn match. change (negb ((32 <=? -1) || (-1 =? 10) || (-1 =? 9) || (-1 =? -1))) with false. cbn match. rewrite search_eof. cbn [act].
      destruct K as (_ & C & _). rewrite set_cdata_same by exact C. rewrite E. cbn [cleared obind]. destruct K' as (_ & -> & _). eexists. reflexivity. }
    destruct ST as (i & ST). erewrite scan_go; [|discriminate|exact ST]. destruct f; reflexivity.
  - inversion TP as [|? ? TP1 TP2]; subst. cbn [all_turns flat_map map].
    destruct (scan_piece F full p (all_turns ps + S f) body b bf (flat_map source ps) g acc TP1 K R) as (body1 & b1 & bf1 & g1 & E & K1 & R1).
    destruct (IH f body1 b1 bf1 g1 (acc ++ [value p]) TP2 K1 (or_introl R1)) as (body' & g' & E' & K'). exists body', g'. rewrite <- app_assoc in K'.
    split; [|exact K']. rewrite <- Nat.add_assoc, E. exact E'.
Qed.
Lemma pop_rest_text : forall F l g, text_of (tg_out (pop_rest F l g)) = text_of (tg_out g).
Proof.
  intros F l. induction l as [|e l IH]; intro g; [reflexivity|]. destruct l as [|x l]; [reflexivity|].
  change (pop_rest F (e :: x :: l) g) with (pop_rest F (x :: l) (pop F g)). rewrite IH. clear. unfold pop. destruct (tg_stack g) as [|e r]; [reflexivity|].
  cbn [set_stack tell tg_out]. rewrite text_of_app. match goal with |- _ ++ text_of ?l = _ => rewrite (no_text l), app_nil_r; [reflexivity|] end.
  apply Forall_app. split; [repeat constructor|]. apply Forall_app. split; [destruct (foreign _ _); repeat constructor|]. apply Forall_rev.
  match goal with |- Forall _ (flat_map ?f ?x) => generalize x end. intro xs. induction xs as [|a xs IH]; [constructor|]. cbn [flat_map]. apply Forall_app. split; [|exact IH].
  destruct (foreign _ _); repeat constructor.
Qed.
Lemma eof_text : forall F body g acc, kept body [] g acc -> exists g', eof F g = Val g' /\ text_of (tg_out g') = acc.
Proof.
  intros F body g acc (A & _ & T & _). rewrite app_nil_r in T. unfold eof.
  assert (K : exists g1, (if tg_virgin g then rectify_pcdata F g else Val g) = Val g1 /\ text_of (tg_out g1) = acc).
  { destruct (tg_virgin g); [|exists g; auto]. destruct body; [destruct (rectify_body F g A) as (g1 & E & _ & _ & T1)|destruct (rectify_root F g A) as (g1 & E & _ & _ & T1)]; exists g1; split; congruence. }
  destruct K as (g1 & -> & T1). cbn [obind]. eexists. split; [reflexivity|]. cbn [tell tg_out]. rewrite text_of_app, pop_rest_text, T1. apply app_nil_r.
Qed.
Lemma turns_length : forall p, (turns p <= length (source p))%nat. Proof. intros []; cbn; lia. Qed.
Lemma all_turns_length : forall ps, (all_turns ps <= length (flat_map source ps))%nat.
Proof. induction ps as [|p ps IH]; cbn [all_turns flat_map]; [lia|]. rewrite app_length. pose proof (turns_length p). lia. Qed.
Theorem parse_text : forall F full ps, Forall text_piece ps -> match ps with [] => True | p :: _ => ~ In (value p) [9; 10; 32] end ->
  exists l, parse F full (flat_map source ps) = Val l /\ text_of l = map value ps.
Proof.
  intros F full ps TP H. unfold parse, parse_again.
  assert (FU : fuel_for (flat_map source ps) = (all_turns ps + S (fuel_for (flat_map source ps) - all_turns ps - 1))%nat).
  { unfold fuel_for. pose proof (all_turns_length ps). lia. }
  rewrite FU. destruct (scan_pieces F full ps (fuel_for (flat_map source ps) - all_turns ps - 1) false [] [] (setup F false) [] TP) as (body' & g' & E & K).
  - split; [|split; [reflexivity|split; [reflexivity|constructor]]]. constructor; [reflexivity|reflexivity|]. exists root_elem. split; [|reflexivity].
    unfold setup. cbn [tg_stack]. rewrite the_root. reflexivity.
  - right. split; [reflexivity|]. destruct ps as [|p ps]; [exact Logic.I|]. inversion TP as [|? ? TP1 _]; subst.
    assert (V : 0 <= value p < 256 /\ value p <> 13) by (destruct p as [c| |b v]; cbn in *; [lia|lia|destruct TP1; lia]). unfold solid, is_space.
    cbn [In] in H. unfold wide. destruct (Z.ltb_spec (value p) 128);
      repeat match goal with |- context [?a =? ?b] => destruct (Z.eqb_spec a b); [exfalso; lia|] end; reflexivity.
  - rewrite E. destruct (eof_text F body' g' _ K) as (g2 & -> & T). cbn [obind]. exists (tg_out g2). split; [reflexivity|exact T].
Qed.
