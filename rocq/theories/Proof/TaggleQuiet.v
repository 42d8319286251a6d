(** The comments, processing instructions and document types that the HTML parser reports. *)
From Coq Require Import String.
From Verif.Model Require Import Base Chars Text Attrs XSort HtmlSchema Taggle HtmlScanner.
From Verif.Spec Require Import TextSpec TaggleSpec.
From Verif.Proof Require Import ContainersProof TaggleProof TaggleProof2 TaggleProof3 HtmlScannerProof.
From Coq Require Import List Lia.
Import ListNotations.
Open Scope Z_scope.

(** * Most of the parser reports none of them *)
Definition plain_event (e : hevent) : Prop := match e with HComment _ | HInstruction _ _ | HStartDTD _ _ _ => False | _ => True end.
Record quiet (g g' : taggle) : Prop := {
  q_pi : tg_pi g' = tg_pi g;
  q_doctype : tg_doctype g' = tg_doctype g;
  q_out : exists l, tg_out g' = tg_out g ++ l /\ Forall plain_event l }.
Lemma quiet_refl : forall g, quiet g g.
Proof. intro g. constructor; auto. exists []. rewrite app_nil_r. auto. Qed.
Lemma quiet_trans : forall a b c, quiet a b -> quiet b c -> quiet a c.
Proof.
  intros a b c [P D (l & E & L)] [P' D' (l' & E' & L')]. constructor; [congruence|congruence|].
  exists (l ++ l'). rewrite E', E, app_assoc. split; [reflexivity|]. apply Forall_app. auto.
Qed.
Lemma quiet_tell : forall g l, Forall plain_event l -> quiet g (tell l g).
Proof. intros g l L. constructor; auto. exists l. auto. Qed.
Ltac same := constructor; [reflexivity|reflexivity|exists []; split; [cbn; rewrite app_nil_r; reflexivity|constructor]].
Lemma quiet_stack : forall g l, quiet g (set_stack l g). Proof. intros; same. Qed.
Lemma quiet_saved : forall g l, quiet g (set_saved l g). Proof. intros; same. Qed.
Lemma quiet_new : forall g l, quiet g (set_new l g). Proof. intros; same. Qed.
Lemma quiet_attname : forall g l, quiet g (set_attname l g). Proof. intros; same. Qed.
Lemma quiet_entity : forall g l, quiet g (set_entity l g). Proof. intros; same. Qed.
Lemma quiet_virgin : forall g l, quiet g (set_virgin l g). Proof. intros; same. Qed.
Lemma quiet_cdata : forall g l, quiet g (set_cdata l g). Proof. intros; same. Qed.
Lemma quiet_schema : forall g l, quiet g (set_schema l g). Proof. intros; same. Qed.
Lemma plain_map : forall (A : Type) (f : A -> list hevent) l, (forall a, Forall plain_event (f a)) -> Forall plain_event (flat_map f l).
Proof. intros A f l H. induction l as [|a l IH]; [constructor|]. cbn. apply Forall_app. auto. Qed.
Lemma plain_if : forall (b : bool) x, plain_event x -> Forall plain_event (if b then [x] else []).
Proof. intros [] x H; repeat constructor; assumption. Qed.
Lemma quiet_pop : forall F g, quiet g (pop F g).
Proof.
  intros F g. unfold pop. destruct (tg_stack g) as [|e r]; [apply quiet_refl|].
  eapply quiet_trans; [|apply quiet_stack]. apply quiet_tell. apply Forall_app. split; [repeat constructor|]. apply Forall_app. split; [apply plain_if; exact Logic.I|].
  apply Forall_rev. apply plain_map. intro a. apply plain_if. exact Logic.I.
Qed.
Lemma quiet_restartably_pop : forall F g, quiet g (restartably_pop F g).
Proof.
  intros F g. unfold restartably_pop. destruct (tg_stack g) as [|e r]; [apply quiet_refl|]. pose proof (quiet_pop F g) as Q.
  destruct (fe_restart F && has_flag e F_RESTART); [|exact Q]. eapply quiet_trans; [exact Q|apply quiet_saved].
Qed.
Lemma quiet_push : forall F e g, quiet g (push F e g).
Proof.
  intros F e g. unfold push.
  match goal with |- quiet g (if _ then set_cdata true (set_virgin false (set_stack ?s (tell ?l g))) else _) =>
    assert (Q : quiet g (set_virgin false (set_stack s (tell l g)))) end.
  { eapply quiet_trans; [|apply quiet_virgin]. eapply quiet_trans; [|apply quiet_stack]. apply quiet_tell.
    apply Forall_app. split; [apply plain_if; exact Logic.I|]. apply Forall_app. split; [|repeat constructor]. apply plain_map. intro a. apply plain_if. exact Logic.I. }
  destruct (fe_cdata F && _); [|exact Q]. eapply quiet_trans; [exact Q|apply quiet_cdata].
Qed.
Lemma quiet_restart_with : forall F e l g, quiet g (restart_with F e l g).
Proof.
  intros F e l. induction l as [|s r IH]; intro g; cbn [restart_with]; [apply quiet_saved|].
  destruct (top_contains g s && _); [|apply quiet_saved]. eapply quiet_trans; [apply quiet_push|apply IH].
Qed.
Lemma quiet_restart : forall F e g, quiet g (restart F e g). Proof. intros. apply quiet_restart_with. Qed.
Lemma quiet_pop_until : forall F n g, quiet g (pop_until F n g).
Proof.
  intros F n. induction n as [|n IH]; intro g; cbn [pop_until]; [apply quiet_refl|].
  destruct (tg_stack g) as [|a [|b [|c r]]]; try apply quiet_refl. eapply quiet_trans; [apply quiet_restartably_pop|apply IH].
Qed.
Lemma quiet_push_chain : forall F c g, quiet g (push_chain F c g).
Proof.
  intros F c. induction c as [|e r IH]; intro g; cbn [push_chain]; [apply quiet_refl|].
  eapply quiet_trans; [|apply IH]. eapply quiet_trans; [|apply quiet_restart]. destruct (str_eqb (el_name e) pcdata_name); [apply quiet_refl|apply quiet_push].
Qed.
Definition quietly (g : taggle) (o : outcome taggle) : Prop := forall g', o = Val g' -> quiet g g'.
Lemma quietly_val : forall g g', quiet g g' -> quietly g (Val g').
Proof. intros g g' Q x E. injection E as <-. exact Q. Qed.
Lemma quietly_bind : forall g o k, quietly g o -> (forall g', quietly g' (k g')) -> quietly g (obind o k).
Proof. intros g [a| |] k Q K x E; try discriminate. cbn in E. eapply quiet_trans; [apply Q; reflexivity|apply K; exact E]. Qed.
Lemma quietly_rectify : forall F e g, quietly g (rectify F e g).
Proof.
  intros F e g. unfold rectify. destruct (raise _ _ _ _ _ _) as [[c n]| |]; [|discriminate|discriminate]. cbn [obind]. apply quietly_val.
  eapply quiet_trans; [|apply quiet_new]. eapply quiet_trans; [apply quiet_pop_until|apply quiet_push_chain].
Qed.
Lemma quietly_rectify_pcdata : forall F g, quietly g (rectify_pcdata F g).
Proof. intros F g. unfold rectify_pcdata. destruct (the_elem _ _ _); [apply quietly_rectify|discriminate]. Qed.
Lemma quiet_pop_n : forall F n g, quiet g (pop_n F n g).
Proof. intros F n. induction n as [|n IH]; intro g; cbn [pop_n]; [apply quiet_refl|]. eapply quiet_trans; [apply quiet_restartably_pop|apply IH]. Qed.
Lemma quiet_pop_preclosed : forall F l g, quiet g (pop_preclosed F l g).
Proof. intros F l. induction l as [|e l IH]; intro g; cbn [pop_preclosed]; [apply quiet_refl|]. destruct (el_preclosed e); [|apply quiet_refl]. eapply quiet_trans; [apply quiet_pop|apply IH]. Qed.
Lemma quiet_close : forall F n g, quiet g (close_tag F n g).
Proof.
  intros F n g. unfold close_tag. destruct (find_open n (tg_stack g)) as [[k nf]|]; [|apply quiet_refl].
  destruct (Nat.leb _ _); [apply quiet_refl|]. eapply quiet_trans; [|apply quiet_restart]. eapply quiet_trans; [|apply quiet_pop_preclosed].
  destruct nf; [apply quiet_stack|]. eapply quiet_trans; [apply quiet_pop_n|apply quiet_pop].
Qed.
Lemma quiet_etag_basic : forall F s g, quiet g (etag_basic F s g).
Proof.
  intros F s g. unfold etag_basic. eapply quiet_trans; [apply (quiet_new g None)|]. destruct s.
  - destruct (tg_stack (set_new None g)); [apply quiet_refl|apply quiet_close].
  - destruct (get_type _ _); [apply quiet_close|apply quiet_refl].
Qed.
Lemma quiet_etag : forall F s g, quiet g (etag F s g).
Proof.
  intros F s g. unfold etag. destruct (tg_stack g); [apply quiet_etag_basic|]. destruct (_ && _); [|apply quiet_etag_basic].
  eapply quiet_trans; [|apply quiet_cdata]. apply quiet_tell. repeat constructor.
Qed.
Lemma quietly_put : forall v g, quietly g (put_attribute v g).
Proof.
  intros v g. unfold put_attribute. destruct (tg_new g) as [e|]; [|apply quietly_val, quiet_refl]. destruct (tg_attname g) as [|c n]; [apply quietly_val, quiet_refl|].
  destruct (set_attribute _ _ _ _); [|discriminate|discriminate]. cbn [obind]. apply quietly_val. eapply quiet_trans; [apply quiet_new|apply quiet_attname].
Qed.
Lemma quietly_adup : forall g, quietly g (adup g). Proof. intro g. apply quietly_put. Qed.
Lemma quietly_aval : forall s g, quietly g (aval s g). Proof. intros. apply quietly_put. Qed.
Lemma quietly_aname : forall F s g, quietly g (aname F s g).
Proof. intros F s g. unfold aname. destruct (tg_new g); apply quietly_val; [apply quiet_attname|apply quiet_refl]. Qed.
Lemma quietly_gi : forall F s g, quietly g (gi F s g).
Proof.
  intros F s g. unfold gi. destruct (tg_new g); [apply quietly_val, quiet_refl|]. destruct (get_type _ _); [apply quietly_val, quiet_new|].
  destruct (fe_ignore_bogons F); [apply quietly_val, quiet_refl|]. apply quietly_val. eapply quiet_trans; [apply quiet_schema|apply quiet_new].
Qed.
Lemma quietly_pcdata : forall F s g, quietly g (pcdata F s g).
Proof.
  intros F s g. unfold pcdata. destruct s; [apply quietly_val, quiet_refl|]. destruct (_ && _).
  - apply quietly_val. destruct (fe_ignorable F); [apply quiet_tell; repeat constructor|apply quiet_refl].
  - apply quietly_bind; [apply quietly_rectify_pcdata|]. intro g'. apply quietly_val, quiet_tell. repeat constructor.
Qed.
Lemma quietly_stagc : forall F s g, quietly g (stagc F s g).
Proof.
  intros F s g. unfold stagc. destruct (tg_new g); [|apply quietly_val, quiet_refl]. apply quietly_bind; [apply quietly_rectify|]. intro g'. apply quietly_val.
  destruct (tg_stack g') as [|t r]; [apply quiet_refl|]. destruct (_ =? _); [apply quiet_etag_basic|apply quiet_refl].
Qed.
Lemma quietly_stage : forall F s g, quietly g (stage F s g).
Proof. intros F s g. unfold stage. destruct (tg_new g); [|apply quietly_val, quiet_refl]. apply quietly_bind; [apply quietly_rectify|]. intro g'. apply quietly_val, quiet_etag_basic. Qed.
Lemma quiet_pop_rest : forall F l g, quiet g (pop_rest F l g).
Proof. intros F l. induction l as [|e [|x l] IH]; intro g; cbn [pop_rest]; try apply quiet_refl. eapply quiet_trans; [apply quiet_pop|apply IH]. Qed.
Lemma quietly_eof : forall F g, quietly g (eof F g).
Proof.
  intros F g. unfold eof. apply quietly_bind; [destruct (tg_virgin g); [apply quietly_rectify_pcdata|apply quietly_val, quiet_refl]|].
  intro g'. apply quietly_val. eapply quiet_trans; [apply quiet_pop_rest|]. apply quiet_tell. repeat constructor.
Qed.
Lemma quietly_save : forall F full st ch b g b' g', save F full st ch b g = Val (b', g') -> quiet g g' /\ (in_text st = false -> b' = b ++ [as_byte ch]).
Proof.
  intros F full st ch b g b' g' H. unfold save in H. destruct full; cbn [andb] in H.
  - destruct (in_text st) eqn:T.
    + destruct (pcdata F b g) as [x| |] eqn:E; try discriminate. cbn in H. injection H as <- <-. split; [exact (quietly_pcdata _ _ _ _ E)|discriminate].
    + injection H as <- <-. split; [apply quiet_refl|reflexivity].
  - injection H as <- <-. split; [apply quiet_refl|reflexivity].
Qed.

(** * The parser's own invariant *)
Section First.
Context (again : bool).
Definition target_ok (t : str) : Prop := t = [] \/ ncname t.
Record calm (g : taggle) : Prop := {
  c_events : Forall markup_event (tg_out g);
  c_pi : target_ok (tg_pi g);
  c_dtd : (doctypes (tg_out g) + (if again then 1 else 0) <= if tg_doctype g then 1 else 0)%nat }.
Lemma plain_markup : forall l, Forall plain_event l -> Forall markup_event l.
Proof. intros l H. eapply Forall_impl; [|exact H]. intros [] P; cbn in *; try exact Logic.I; contradiction. Qed.
Lemma doctypes_app : forall a b, doctypes (a ++ b) = (doctypes a + doctypes b)%nat.
Proof. intros. unfold doctypes. rewrite filter_app, app_length. reflexivity. Qed.
Lemma plain_doctypes : forall l, Forall plain_event l -> doctypes l = 0%nat.
Proof. induction 1 as [|e l P _ IH]; [reflexivity|]. unfold doctypes in *. destruct e; cbn in *; try contradiction; exact IH. Qed.
Lemma quiet_calm : forall g g', quiet g g' -> calm g -> calm g'.
Proof.
  intros g g' [P D (l & E & L)] [CE CP CD]. constructor.
  - rewrite E. apply Forall_app. split; [exact CE|apply plain_markup; exact L].
  - rewrite P. exact CP.
  - rewrite E, D, doctypes_app, (plain_doctypes l L). lia.
Qed.
Lemma c_string_legal : forall s, Forall legal_char s -> c_string s = s.
Proof. induction 1 as [|c s H _ IH]; [reflexivity|]. cbn [c_string]. destruct (Z.eqb_spec c 0) as [->|N]; [destruct H as [H|[H|H]]; lia|]. rewrite IH. reflexivity. Qed.
Lemma c_string_ncname : forall s, ncname s -> c_string s = s.
Proof.
  intros [|c r] H; [contradiction|]. destruct H as [H R]. cbn [c_string].
  assert (K : forall x, name_char x -> x <> 0) by (intros x [[N|[N|N]]|[N|[N|N]]]; lia).
  destruct (Z.eqb_spec c 0) as [->|N]; [destruct H as [H|[H|H]]; lia|]. f_equal. induction R as [|x r X _ IH]; [reflexivity|].
  cbn [c_string]. destruct (Z.eqb_spec x 0) as [->|NX]; [destruct (K 0 X eq_refl)|]. rewrite IH. reflexivity.
Qed.
Lemma calm_cmnt : forall s g, calm g -> comment_text s -> calm (cmnt s g).
Proof.
  intros s g [CE CP CD] C. unfold cmnt. constructor; cbn [tell tg_out tg_pi tg_doctype]; auto.
  - apply Forall_app. split; [exact CE|]. constructor; [|constructor]. cbn. rewrite c_string_legal by apply C. exact C.
  - rewrite doctypes_app. cbn. lia.
Qed.
Lemma name_char_colon : forall s, Forall name_char s -> map (fun c => if c =? 58 then 95 else c) s = s.
Proof.
  induction 1 as [|c s H _ IH]; [reflexivity|]. cbn [map]. rewrite IH. destruct (Z.eqb_spec c 58) as [->|N]; [|reflexivity].
  destruct H as [[H|[H|H]]|[H|[H|H]]]; lia.
Qed.
Lemma ncname_chars : forall s, ncname s -> Forall name_char s.
Proof. intros [|c r] H; [contradiction|]. destruct H. constructor; [left|]; assumption. Qed.
Lemma ncname_app : forall a b, ncname a -> Forall name_char b -> ncname (a ++ b).
Proof. intros [|c r] b H B; [contradiction|]. destruct H. split; [assumption|]. apply Forall_app. auto. Qed.
Lemma no_colon : forall q p l, parts q p l -> ncname (map (fun c => if c =? 58 then 95 else c) q).
Proof.
  intros q p l H. destruct H as [l H|p l P L].
  - rewrite name_char_colon by (apply ncname_chars; exact H). exact H.
  - rewrite map_app. cbn [map]. change (58 =? 58) with true. cbn match. rewrite !name_char_colon by (apply ncname_chars; assumption).
    apply ncname_app; [exact P|]. constructor; [|apply ncname_chars; exact L]. left. right. right. reflexivity.
Qed.
Lemma calm_pitarget : forall F s g, calm g -> bytes s -> calm (pitarget F s g).
Proof.
  intros F s g C B. unfold pitarget. destruct (tg_new g); [exact C|]. destruct C as [CE CP CD].
  constructor; cbn [set_pi tg_out tg_pi tg_doctype]; auto. destruct (make_name_parts F s B) as (p & l & P). right. exact (no_colon _ _ _ P).
Qed.
Lemma reserved_lower : forall t, reserved_target t -> str_eqb (lower_case t) (ascii_str "xml") = true.
Proof.
  intros t (x & m & l & -> & X & M & L). destruct X as [X|X], M as [M|M], L as [L|L]; subst; vm_compute; reflexivity.
Qed.
Definition data_ok (s : str) : Prop := Forall legal_char s /\ ~ In 62 s.
Lemma data_drop : forall s, data_ok s -> data_ok (drop_mark s).
Proof.
  intros s [L N]. unfold drop_mark. assert (R : Forall legal_char (rev s)) by (apply Forall_rev; exact L).
  assert (M : ~ In 62 (rev s)) by (intro I; apply in_rev in I; contradiction).
  destruct (rev s) as [|c r]; [split; assumption|].
  assert (K : data_ok (rev r)).
  { inversion R; subst. split; [apply Forall_rev; assumption|]. intro I. apply in_rev in I. apply M. right. exact I. }
  destruct c as [|c|c]; try (split; assumption). repeat (destruct c as [c|c|]; try (split; assumption); try exact K).
Qed.
Lemma calm_pi : forall s g, calm g -> data_ok s -> calm (pi s g).
Proof.
  intros s g C D. unfold pi. destruct (tg_new g); [exact C|]. pose proof (c_pi g C) as T. destruct (tg_pi g) as [|c t] eqn:E; [exact C|].
  destruct T as [T|T]; [discriminate|]. destruct (str_eqb _ _) eqn:X; [exact C|]. destruct C as [CE CP CD]. apply data_drop in D. destruct D as [D N].
  constructor; cbn [set_pi tell tg_out tg_pi tg_doctype]; auto.
  - apply Forall_app. split; [exact CE|]. constructor; [|constructor]. cbn [markup_event]. rewrite c_string_ncname by exact T. rewrite c_string_legal by exact D.
    split; [exact T|]. split; [intro R; apply reserved_lower in R; congruence|]. split; [exact D|].
    intros a b Q. apply N. rewrite Q. apply in_or_app. right. right. left. reflexivity.
  - left. reflexivity.
  - rewrite doctypes_app. cbn. lia.
Qed.
Lemma calm_decl : forall s g g', calm g -> decl s g = Val g' -> calm g'.
Proof.
  intros s g g' C H. unfold decl in H. destruct (split_words s) as [v| |]; try discriminate. cbn [obind] in H.
  destruct (str_eqb _ _); [|injection H as <-; exact C]. destruct (tg_doctype g) eqn:T; [injection H as <-; exact C|].
  destruct C as [CE CP CD]. rewrite T in CD.
  destruct (nth 1 v []) as [|c n]; injection H as <-; constructor; cbn [set_doctype tell tg_out tg_pi tg_doctype]; auto; try lia.
  - apply Forall_app. split; [exact CE|]. repeat constructor.
  - rewrite doctypes_app. cbn. lia.
Qed.

(** * The scanner's buffer *)
Definition lt_state (st : sstate) : bool :=
  match st with S_TAG | S_DECL | S_BB | S_BBC | S_BBCD | S_BBCDA | S_BBCDAT | S_BBCDATA | S_COM => true | _ => false end.
Fixpoint dashes (dash : bool) (s : str) : bool :=
  match s with
  | [] => negb dash
  | c :: r => if c =? 45 then negb dash && dashes true r else dashes false r
  end.
Definition holds (st : sstate) (b : str) : Prop :=
  if lt_state st then Forall (fun c => c = 60) b
  else match st with
       | S_COM2 | S_COM3 | S_COM4 => Forall legal_char b /\ dashes false b = true
       | S_PITARGET | S_PI => data_ok b
       | _ => True
       end.
Lemma dashes_app : forall b d r, dashes d b = true -> dashes d (b ++ r) = dashes false r.
Proof.
  induction b as [|c b IH]; intros d r H; cbn [app dashes] in *.
  - destruct d; [discriminate|reflexivity].
  - destruct (c =? 45); [|apply IH; exact H]. apply andb_prop in H as [H1 H2]. rewrite H1. cbn [andb]. apply IH. exact H2.
Qed.
Lemma dashes_text : forall b, Forall legal_char b -> dashes false b = true -> comment_text b.
Proof.
  intros b L D. split; [exact L|].
  assert (K : forall b d, dashes d b = true -> (forall a r, b <> a ++ [45; 45] ++ r) /\ (forall a, b <> a ++ [45])).
  { clear. induction b as [|c b IH]; intros d D; [split; intros [|? ?]; discriminate|]. cbn [dashes] in D.
    destruct (Z.eqb_spec c 45) as [->|N].
    - apply andb_prop in D as [_ D]. destruct (IH _ D) as [I1 I2]. split.
      + intros [|x a] r E; cbn [app] in E; [|injection E as _ E; exact (I1 _ _ E)]. injection E as E. subst b. discriminate D.
      + intros [|x a] E; cbn [app] in E; [|injection E as _ E; exact (I2 _ E)]. injection E as E. subst b. discriminate D.
    - destruct (IH _ D) as [I1 I2]. split.
      + intros [|x a] r E; cbn [app] in E; [|injection E as _ E; exact (I1 _ _ E)]. injection E as E _. contradiction.
      + intros [|x a] E; cbn [app] in E; [|injection E as _ E; exact (I2 _ E)]. injection E as E _. contradiction. }
  exact (K b false D).
Qed.
Lemma lts_dashes : forall b, Forall (fun c => c = 60) b -> Forall legal_char b /\ dashes false b = true /\ ~ In 62 b.
Proof.
  induction 1 as [|c b -> _ (L & D & N)]; [repeat split; auto|]. split; [constructor; [left; lia|exact L]|]. split; [exact D|].
  intros [I|I]; [discriminate|contradiction].
Qed.
(** What leads to the states that matter. *)
Definition com_state (st : sstate) : bool := match st with S_COM | S_COM2 | S_COM3 | S_COM4 => true | _ => false end.
Lemma search_kind : forall st ch a n, search st ch None state_table = Some (a, n) ->
  (if lt_state n then (a = A_SKIP /\ lt_state st = true) \/ (n = S_TAG /\ (a = A_PCDATA \/ (a = A_SAVE /\ ch = 60 /\ st = S_TAG)))
   else match n with
        | S_COM2 => com_state st = true /\ (a = A_SKIP \/ (ch <> 45 /\ (a = A_SAVE \/ a = A_MINUS \/ a = A_MINUS2)))
        | S_COM3 => com_state st = true /\ a = A_SKIP
        | S_COM4 => com_state st = true /\ (a = A_SKIP \/ a = A_MINUS3)
        | S_PITARGET => (a = A_SKIP /\ lt_state st = true) \/ (st = S_PITARGET /\ a = A_SAVE /\ ch <> 62)
        | S_PI => a = A_PITARGET \/ (st = S_PI /\ a = A_SAVE /\ ch <> 62)
        | _ => True
        end) /\
  (a = A_CMNT -> com_state st = true) /\ (a = A_PI -> st = S_PI) /\ (com_state st = true -> a <> A_SAVE \/ n = S_COM2).
Proof.
  intros st ch a n H.
  destruct st; cbn -[Z.eqb] in H;
    repeat match type of H with context [if ?c =? 0 then _ else _] => let x := eval vm_compute in (c =? 0) in change (c =? 0) with x in H; cbn -[Z.eqb] in H end;
    repeat match type of H with context [if ?c =? ch then _ else _] => destruct (Z.eqb_spec c ch) end;
    try discriminate H; injection H as <- <-; cbn [lt_state com_state];
    (split; [|split; [|split]]; try discriminate; try reflexivity; try (intros _; left; discriminate); try (intros _; right; reflexivity); auto 12).
Qed.
Lemma act_calm : forall F full a st ch b g b' g', act F full a st ch b g = Val (b', g') -> calm g -> bytes b -> holds st b ->
  (a = A_CMNT -> com_state st = true) -> (a = A_PI -> st = S_PI) -> calm g'.
Proof.
  intros F full a st ch b g b' g' H C B HO K1 K2.
  assert (Q : forall o (x : str * taggle), cleared o = Val x -> quietly g o -> quiet g (snd x)).
  { intros o x E Q. destruct o as [y| |]; try discriminate. cbn in E. injection E as <-. apply Q. reflexivity. }
  assert (QQ : forall o, cleared o = Val (b', g') -> quietly g o -> calm g') by (intros o E QO; exact (quiet_calm _ _ (Q o (b', g') E QO) C)).
  assert (SV : forall b c b1 g0 g1, save F full st c b g0 = Val (b1, g1) -> quiet g0 g1) by (intros; eapply quietly_save; eassumption).
  destruct a; cbn [act] in H; try (match type of H with cleared (decl _ _) = _ => fail 1 | _ => apply QQ in H; [exact H|] end);
    try (exact (quiet_calm _ _ (SV _ _ _ _ _ H) C));
    try (injection H as <- <-; exact C).
  - apply quietly_adup.
  - destruct (adup g) as [x| |] eqn:E; try discriminate. cbn [obind] in H.
    eapply quiet_calm; [|exact C]. eapply quiet_trans; [exact (quietly_adup _ _ E)|exact (SV _ _ _ _ _ H)].
  - apply quietly_bind; [apply quietly_adup|intro; apply quietly_stagc].
  - apply quietly_aname.
  - apply quietly_bind; [apply quietly_aname|intro; apply quietly_adup].
  - apply quietly_bind; [|intro; apply quietly_stagc]. apply quietly_bind; [apply quietly_aname|intro; apply quietly_adup].
  - apply quietly_aval.
  - apply quietly_bind; [apply quietly_aval|intro; apply quietly_stagc].
  - apply quietly_pcdata.
  - injection H as <- <-. apply calm_cmnt; [exact C|]. specialize (K1 eq_refl).
    destruct st; try discriminate K1; cbn in HO; try (destruct HO; apply dashes_text; assumption).
    destruct (lts_dashes b HO) as (L & D & _). apply dashes_text; assumption.
  - destruct (decl b g) as [x| |] eqn:E; try discriminate. cbn in H. injection H as <- <-. exact (calm_decl _ _ _ C E).
  - apply quietly_bind; [destruct (nothing b); [apply quietly_val, quiet_refl|apply quietly_gi]|intro; apply quietly_stage].
  - destruct (pcdata F b g) as [x| |] eqn:E; try discriminate. cbn [obind] in H.
    eapply quiet_calm; [|exact C]. eapply quiet_trans; [exact (quietly_pcdata _ _ _ _ E)|exact (SV _ _ _ _ _ H)].
  - injection H as <- <-. exact (quiet_calm _ _ (quiet_etag F b g) C).
  - apply quietly_gi.
  - apply quietly_bind; [apply quietly_gi|intro; apply quietly_stagc].
  - destruct (save F full st 60 b g) as [[b1 g1]| |] eqn:E; try discriminate. cbn [obind] in H.
    eapply quiet_calm; [|exact C]. eapply quiet_trans; [exact (SV _ _ _ _ _ E)|exact (SV _ _ _ _ _ H)].
  - destruct (save F full st 60 b g) as [[b1 g1]| |] eqn:E; try discriminate. cbn [obind] in H.
    destruct (pcdata F b1 g1) as [x| |] eqn:E2; try discriminate. cbn in H. injection H as <- <-.
    eapply quiet_calm; [|exact C]. eapply quiet_trans; [exact (SV _ _ _ _ _ E)|exact (quietly_pcdata _ _ _ _ E2)].
  - destruct (save F full st 45 b g) as [[b1 g1]| |] eqn:E; try discriminate. cbn [obind] in H.
    eapply quiet_calm; [|exact C]. eapply quiet_trans; [exact (SV _ _ _ _ _ E)|exact (SV _ _ _ _ _ H)].
  - destruct (save F full st 45 b g) as [[b1 g1]| |] eqn:E; try discriminate. cbn [obind] in H.
    destruct (save F full st 32 b1 g1) as [[b2 g2]| |] eqn:E2; try discriminate. cbn [obind] in H.
    destruct (save F full st 45 b2 g2) as [[b3 g3]| |] eqn:E3; try discriminate. cbn [obind] in H.
    eapply quiet_calm; [|exact C]. eapply quiet_trans; [exact (SV _ _ _ _ _ E)|]. eapply quiet_trans; [exact (SV _ _ _ _ _ E2)|].
    eapply quiet_trans; [exact (SV _ _ _ _ _ E3)|exact (SV _ _ _ _ _ H)].
  - destruct (save F full st 45 b g) as [[b1 g1]| |] eqn:E; try discriminate. cbn [obind] in H.
    eapply quiet_calm; [|exact C]. eapply quiet_trans; [exact (SV _ _ _ _ _ E)|exact (SV _ _ _ _ _ H)].
  - apply quietly_pcdata.
  - injection H as <- <-. apply calm_pi; [exact C|]. rewrite (K2 eq_refl) in HO. exact HO.
  - injection H as <- <-. apply calm_pitarget; assumption.
  - injection H as <- <-. apply calm_pi; [apply calm_pitarget; assumption|]. split; [constructor|intros []].
  - apply quietly_stagc.
  - apply quietly_pcdata.
Qed.
(** The characters read. *)
Definition read_char (c : Z) : Prop := c = -1 \/ 0 <= c < 256.
Lemma next_bytes : forall i ch i', bytes (in_before i) -> bytes (in_rest i) -> next_char i = (ch, i') ->
  read_char ch /\ bytes (in_before i') /\ bytes (in_rest i').
Proof.
  intros [bf rs fl] ch i' B R H. cbn [in_before in_rest] in *. unfold next_char, get_char in H. cbn [in_failed in_rest in_before] in H.
  destruct fl; [cbn in H; injection H as <- <-; split; [left; reflexivity|split; assumption]|].
  destruct rs as [|c r]; [cbn in H; injection H as <- <-; split; [left; reflexivity|split; assumption]|].
  inversion R as [|? ? Rc Rr]; subst.
  destruct (Z.eqb_spec c 13) as [->|NC].
  - cbn [in_failed in_rest in_before] in H. destruct r as [|d r].
    + cbn in H. injection H as <- <-. split; [right; lia|]. split; [constructor; assumption|constructor].
    + inversion Rr; subst. destruct (Z.eqb_spec d 10) as [->|ND]; injection H as <- <-; cbn; (split; [right; lia|]); split; repeat (apply Forall_cons; [lia|]); assumption.
  - injection H as <- <-. split; [right; exact Rc|]. split; [constructor; assumption|exact Rr].
Qed.
Lemma unget_bytes : forall i, bytes (in_before i) -> bytes (in_rest i) -> bytes (in_before (unget_char i)) /\ bytes (in_rest (unget_char i)).
Proof.
  intros [bf rs fl] B R. unfold unget_char. cbn [in_failed in_before in_rest] in *. destruct fl; [split; assumption|].
  destruct bf as [|c b]; [split; assumption|]. inversion B; subst. split; [assumption|constructor; assumption].
Qed.
Lemma as_byte_is : forall ch k, read_char ch -> k < 255 -> as_byte ch = k -> ch = k.
Proof. intros ch k [->|R] L E; [vm_compute in E; lia|]. unfold as_byte in E. rewrite Z.mod_small in E by lia. exact E. Qed.
Lemma as_byte_legal : forall ch, read_char ch -> (32 <=? ch) || (ch =? 10) || (ch =? 9) || (ch =? -1) = true -> legal_char (as_byte ch).
Proof.
  intros ch R H. destruct R as [->|R]; [left; vm_compute; split; [discriminate|reflexivity]|]. unfold as_byte. rewrite Z.mod_small by lia.
  rewrite !Bool.orb_true_iff, Z.leb_le, !Z.eqb_eq in H. unfold legal_char. lia.
Qed.
Record scan_calm (s : scanner) : Prop := {
  sc_calm : calm (sc_parser s);
  sc_holds : holds (sc_state s) (sc_buffer s);
  sc_before : bytes (in_before (sc_input s));
  sc_rest : bytes (in_rest (sc_input s)) }.
Lemma com_holds : forall st b, com_state st = true -> holds st b -> Forall legal_char b /\ dashes false b = true.
Proof. intros st b E H. destruct st; try discriminate E; cbn in H; try exact H. destruct (lts_dashes b H) as (L & D & _). auto. Qed.
Lemma legal_app : forall b c, Forall legal_char b -> legal_char c -> Forall legal_char (b ++ [c]).
Proof. intros. apply Forall_app. split; [assumption|constructor; [assumption|constructor]]. Qed.
Lemma legal_dash : legal_char 45. Proof. left. lia. Qed.
Lemma legal_space : legal_char 32. Proof. left. lia. Qed.
Lemma dash_one : forall b c, dashes false b = true -> c <> 45 -> dashes false (b ++ [c]) = true.
Proof. intros b c D N. rewrite (dashes_app b false [c] D). cbn [dashes]. destruct (Z.eqb_spec c 45); [contradiction|reflexivity]. Qed.
Lemma dash_two : forall b c, dashes false b = true -> c <> 45 -> dashes false ((b ++ [45]) ++ [c]) = true.
Proof. intros b c D N. rewrite <- app_assoc, (dashes_app b false _ D). cbn. destruct (Z.eqb_spec c 45); [contradiction|reflexivity]. Qed.
Lemma act_holds : forall F full a st ch b g b' g' n, search st ch None state_table = Some (a, n) -> act F full a st ch b g = Val (b', g') ->
  read_char ch -> legal_char (as_byte ch) -> holds st b -> holds n b'.
Proof.
  intros F full a st ch b g b' g' n S H R LC HO. destruct (search_kind _ _ _ _ S) as (K & _ & _ & _).
  assert (CS : com_state st = true -> in_text st = false) by (destruct st; try discriminate; reflexivity).
  unfold holds at 1. destruct (lt_state n) eqn:LN.
  - destruct K as [[-> LS]|[-> [->|(-> & -> & ->)]]].
    + cbn in H. injection H as <- <-. unfold holds in HO. rewrite LS in HO. exact HO.
    + cbn [act] in H. destruct (pcdata F b g); try discriminate. cbn in H. injection H as <- <-. constructor.
    + cbn [act] in H. apply quietly_save in H. destruct H as [_ H]. rewrite (H eq_refl). apply Forall_app. split; [exact HO|repeat constructor].
  - destruct n; try exact Logic.I; try discriminate LN.
    + destruct K as [CO K]. destruct (com_holds st b CO HO) as [L D]. specialize (CS CO). destruct K as [->|[NC K]].
      * cbn in H. injection H as <- <-. auto.
      * assert (NB : as_byte ch <> 45) by (intro E; apply NC; apply as_byte_is; [exact R|lia|exact E]).
        destruct K as [->|[->| ->]]; cbn [act] in H.
        -- apply quietly_save in H. destruct H as [_ H]. rewrite (H CS). split; [apply legal_app; assumption|apply dash_one; assumption].
        -- destruct (save F full st 45 b g) as [[b1 g1]| |] eqn:E; try discriminate. cbn [obind] in H.
           apply quietly_save in E. apply quietly_save in H. destruct H as [_ H]. destruct E as [_ E]. rewrite (H CS), (E CS).
           split; [repeat apply legal_app; auto using legal_dash|apply dash_two; assumption].
        -- destruct (save F full st 45 b g) as [[b1 g1]| |] eqn:E; try discriminate. cbn [obind] in H.
           destruct (save F full st 32 b1 g1) as [[b2 g2]| |] eqn:E2; try discriminate. cbn [obind] in H.
           destruct (save F full st 45 b2 g2) as [[b3 g3]| |] eqn:E3; try discriminate. cbn [obind] in H.
           apply quietly_save in E. apply quietly_save in E2. apply quietly_save in E3. apply quietly_save in H.
           destruct H as [_ H]. destruct E as [_ E]. destruct E2 as [_ E2]. destruct E3 as [_ E3]. rewrite (H CS), (E3 CS), (E2 CS), (E CS). change (as_byte 45) with 45. change (as_byte 32) with 32.
           split; [repeat apply legal_app; auto using legal_dash, legal_space|]. apply dash_two; [|exact NB]. apply dash_two; [exact D|discriminate].
    + destruct K as [CO ->]. cbn in H. injection H as <- <-. exact (com_holds st b CO HO).
    + destruct K as [CO K]. destruct (com_holds st b CO HO) as [L D]. specialize (CS CO). destruct K as [->| ->]; cbn [act] in H.
      * injection H as <- <-. auto.
      * destruct (save F full st 45 b g) as [[b1 g1]| |] eqn:E; try discriminate. cbn [obind] in H.
        apply quietly_save in E. apply quietly_save in H. destruct H as [_ H]. destruct E as [_ E]. rewrite (H CS), (E CS). change (as_byte 45) with 45. change (as_byte 32) with 32.
        split; [repeat apply legal_app; auto using legal_dash, legal_space|apply dash_two; [exact D|discriminate]].
    + destruct K as [->|(-> & -> & NC)].
      * cbn in H. injection H as <- <-. split; [constructor|intros []].
      * cbn [act] in H. apply quietly_save in H. destruct H as [_ H]. rewrite (H eq_refl). destruct HO as [L N]. split; [apply legal_app; assumption|].
        intro I. apply in_app_or in I as [I|[I|[]]]; [contradiction|]. apply NC. apply as_byte_is; [exact R|lia|exact I].
    + destruct K as [[-> LS]|(-> & -> & NC)].
      * cbn in H. injection H as <- <-. unfold holds in HO. rewrite LS in HO. destruct (lts_dashes b HO) as (L & _ & N). split; assumption.
      * cbn [act] in H. apply quietly_save in H. destruct H as [_ H]. rewrite (H eq_refl). destruct HO as [L N]. split; [apply legal_app; assumption|].
        intro I. apply in_app_or in I as [I|[I|[]]]; [contradiction|]. apply NC. apply as_byte_is; [exact R|lia|exact I].
Qed.
Lemma step_calm : forall F full s s', bytes (sc_buffer s) -> scan_calm s -> scan_step F full s = Val s' -> scan_calm s'.
Proof.
  intros F full [st b i g0] s' BB [C HO B R] H. cbn [sc_state sc_buffer sc_input sc_parser] in *. unfold scan_step in H. cbn [sc_state sc_buffer sc_input sc_parser] in H.
  assert (CG : calm (set_cdata false g0)) by (eapply quiet_calm; [apply quiet_cdata|exact C]). set (g := set_cdata false g0) in *. clearbody g.
  destruct (next_char i) as [ch i'] eqn:NX. destruct (next_bytes i ch i' B R NX) as (RC & B' & R').
  destruct (negb _) eqn:SK in H; [injection H as <-; constructor; assumption|]. apply Bool.negb_false_iff in SK. pose proof (as_byte_legal ch RC SK) as LC.
  destruct (search st ch None state_table) as [[a n]|] eqn:SE; [|discriminate].
  assert (UB : bytes (in_before (unget_char i')) /\ bytes (in_rest (unget_char i'))) by (apply unget_bytes; assumption).
  destruct (match a with A_ENTITY => true | _ => false end) eqn:AE.
  - assert (a = A_ENTITY) by (destruct a; try discriminate; reflexivity). subst a.
    unfold do_entity in H. destruct (more_reference st ch) as [m|] eqn:M.
    + cbn [obind] in H. injection H as <-. constructor; cbn [sc_state sc_buffer sc_input sc_parser]; auto.
      destruct st; try discriminate M; unfold more_reference in M;
        repeat match type of M with (if ?c then _ else _) = _ => destruct c end; try discriminate M; injection M as <-; exact Logic.I.
    + destruct b as [|c t]; [discriminate|]. assert (CE : calm (entity t g)) by (eapply quiet_calm; [apply quiet_entity|exact CG]).
      destruct (tg_entity (entity t g) =? 0); cbn [obind] in H; injection H as <-; constructor; cbn [sc_state sc_buffer sc_input sc_parser]; try exact CE; try exact Logic.I;
        try apply UB; destruct (negb (ch =? 59)); try apply UB; assumption.
  - assert (H' : exists i2 b' g', act F full a st ch b g = Val (b', g') /\ s' = Scanner (if tg_cdata g' then S_CDATA else n) b' i2 g' /\ (i2 = i' \/ i2 = unget_char i')).
    { destruct a; try discriminate AE;
        match type of H with obind ?o _ = _ => destruct o as [[b' g']| |] eqn:EA; try discriminate H; cbn [obind] in H; injection H as <-; eexists _, b', g'; split; [reflexivity|]; split; [reflexivity|]; auto end. }
    destruct H' as (i2 & b' & g' & EA & -> & I2). destruct (search_kind _ _ _ _ SE) as (_ & K1 & K2 & _).
    constructor; cbn [sc_state sc_buffer sc_input sc_parser].
    + exact (act_calm _ _ _ _ _ _ _ _ _ EA CG BB HO K1 K2).
    + destruct (tg_cdata g'); [exact Logic.I|]. exact (act_holds _ _ _ _ _ _ _ _ _ _ SE EA RC LC HO).
    + destruct I2 as [->| ->]; [assumption|apply UB].
    + destruct I2 as [->| ->]; [assumption|apply UB].
Qed.
Lemma scan_calm_end : forall F full fuel s g, scan_good F s -> scan_calm s -> scan fuel F full s = Val g -> calm g.
Proof.
  intros F full fuel. induction fuel as [|fuel IH]; intros s g G C H.
  - cbn [scan] in H. destruct (sc_state s); try discriminate H. exact (quiet_calm _ _ (quietly_eof _ _ _ H) (sc_calm s C)).
  - assert (DEC : sc_state s = S_DONE \/ sc_state s <> S_DONE) by (destruct (sc_state s); (left; reflexivity) || (right; discriminate)). destruct DEC as [E|NE].
    + cbn [scan] in H. rewrite E in H. exact (quiet_calm _ _ (quietly_eof _ _ _ H) (sc_calm s C)).
    + destruct (step_good F (full fuel) s G NE) as (s' & ST & G' & _). apply (IH s' g G').
      * exact (step_calm F (full fuel) s s' (s_bytes F s G) C ST).
      * cbn [scan] in H. rewrite ST in H. destruct (sc_state s); try contradiction; exact H.
Qed.
End First.
Theorem parse_markup : forall again F full s, Forall (fun c => 0 <= c < 256) s -> exists g,
  parse_again again F full s = Val g /\ Forall markup_event (tg_out g) /\ (doctypes (tg_out g) + (if again then 1 else 0) <= 1)%nat.
Proof.
  intros again F full s B. destruct (parse_again_ok again F full s) as (g & l & E & _ & _ & _). exists g. split; [exact E|].
  assert (C : calm again g).
  { unfold parse_again in E. apply (scan_calm_end again F full (fuel_for s) (Scanner S_PCDATA [] (Input [] s false) (setup F again)) g).
    - constructor; cbn [sc_parser sc_buffer sc_state]; [apply setup_good|constructor|discriminate].
    - constructor; cbn [sc_state sc_buffer sc_input sc_parser in_before in_rest]; [|exact Logic.I|constructor|exact B].
      constructor; cbn [setup tg_out tg_pi tg_doctype]; [repeat constructor|left; reflexivity|]. destruct again; cbn; lia.
    - exact E. }
  destruct C as [CE _ CD]. split; [exact CE|]. destruct (tg_doctype g); lia.
Qed.
