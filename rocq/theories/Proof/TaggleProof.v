(** Lemmas about the HTML parser. *)
From Coq Require Import String.
From Verif.Model Require Import Base Chars Text Attrs XSort HtmlSchema Taggle.
From Verif.Spec Require Import TaggleSpec.
From Verif.Proof Require Import ContainersProof TextProof AttrsProof.
From Coq Require Import List Lia Permutation.
Import ListNotations.
Open Scope Z_scope.

Scheme content_mut := Minimality for content Sort Prop with element_mut := Minimality for element Sort Prop.

(** * Names *)
Lemma name_char_pos : forall c, name_char c -> 0 < c /\ c <> 58 /\ c <> 60.
Proof. unfold name_char, name_start. intros c H. lia. Qed.
Lemma ncname_chars : forall s, ncname s -> s <> [] /\ Forall name_char s.
Proof. intros [|c r] H; [destruct H|]. destruct H as [A B]. split; [discriminate|]. constructor; [left; exact A|exact B]. Qed.
Lemma c_string_same : forall s, Forall (fun c => c <> 0) s -> c_string s = s.
Proof. induction 1 as [|c r N _ IH]; cbn; [reflexivity|]. destruct (Z.eqb_spec c 0); [contradiction|]. rewrite IH. reflexivity. Qed.
Lemma c_string_app : forall a b, Forall (fun c => c <> 0) a -> c_string (a ++ b) = a ++ c_string b.
Proof. induction 1 as [|c r N _ IH]; cbn; [reflexivity|]. destruct (Z.eqb_spec c 0); [contradiction|]. rewrite IH. reflexivity. Qed.
Lemma chars_nonzero : forall s, Forall name_char s -> Forall (fun c => c <> 0) s.
Proof. intros s H. eapply Forall_impl; [|exact H]. intros c N. apply name_char_pos in N. lia. Qed.
Lemma find_char_none : forall s, Forall name_char s -> find_char 58 s = None.
Proof.
  induction 1 as [|c r N _ IH]; cbn; [reflexivity|]. apply name_char_pos in N.
  destruct (Z.eqb_spec c 58); [lia|]. rewrite IH. reflexivity.
Qed.
Lemma find_char_colon : forall p l, Forall name_char p -> find_char 58 (p ++ 58 :: l) = Some (length p).
Proof.
  induction 1 as [|c r N _ IH]; cbn; [reflexivity|]. apply name_char_pos in N.
  destruct (Z.eqb_spec c 58); [lia|]. rewrite IH. reflexivity.
Qed.
Definition bytes (s : str) : Prop := Forall (fun c => 0 <= c < 256) s.
Definition chars_below : list Z := map (fun n => Z.of_nat n - 128) (seq 0 256).
Lemma in_chars_below : forall c, -128 <= c < 128 -> In c chars_below.
Proof.
  intros c R. unfold chars_below. apply in_map_iff. exists (Z.to_nat (c + 128)). split; [lia|]. apply in_seq. lia.
Qed.
Definition name_startb (c : Z) : bool := ((65 <=? c) && (c <=? 90)) || ((97 <=? c) && (c <=? 122)) || (c =? 95).
Lemma name_startb_spec : forall c, name_startb c = true -> name_start c.
Proof.
  unfold name_startb, name_start. intros c H. apply orb_prop in H as [H|H].
  - apply orb_prop in H as [H|H]; apply andb_prop in H as [A B]; apply Z.leb_le in A, B; lia.
  - apply Z.eqb_eq in H. lia.
Qed.
Lemma wide_range : forall c, 0 <= c < 256 -> -128 <= wide c < 128.
Proof. intros c R. unfold wide. destruct (Z.ltb_spec c 128); lia. Qed.
Lemma letter_start : forall b, 0 <= b < 256 -> is_letter (wide b) || (wide b =? 95) = true -> name_start b.
Proof.
  intros b R H.
  assert (A : forallb (fun c => implb (is_letter c || (c =? 95)) (name_startb c)) chars_below = true) by (vm_compute; reflexivity).
  rewrite forallb_forall in A. specialize (A (wide b) (in_chars_below _ (wide_range b R))). rewrite H in A. cbn in A.
  apply name_startb_spec in A. unfold wide in A. unfold name_start in *. destruct (Z.ltb_spec b 128); lia.
Qed.
Lemma digit_char : forall b, 0 <= b < 256 -> is_digit (wide b) || (wide b =? 45) || (wide b =? 46) = true -> name_char b.
Proof.
  intros b R H.
  assert (A : forallb (fun c => implb (is_digit c || (c =? 45) || (c =? 46)) (((48 <=? c) && (c <=? 57)) || (c =? 45) || (c =? 46))) chars_below = true) by (vm_compute; reflexivity).
  rewrite forallb_forall in A. specialize (A (wide b) (in_chars_below _ (wide_range b R))). rewrite H in A. cbn in A.
  unfold wide in A. unfold name_char. right. apply orb_prop in A as [A|A].
  - apply orb_prop in A as [A|A].
    + apply andb_prop in A as [X Y]. apply Z.leb_le in X, Y. destruct (Z.ltb_spec b 128); lia.
    + apply Z.eqb_eq in A. destruct (Z.ltb_spec b 128); lia.
  - apply Z.eqb_eq in A. destruct (Z.ltb_spec b 128); lia.
Qed.

Definition tail_ok (start : bool) (r : str) : Prop := if start then r = [] \/ ncname r else Forall name_char r.
Lemma underscore : name_start 95.
Proof. unfold name_start. lia. Qed.
Lemma tail_chars : forall start r, tail_ok start r -> Forall name_char r.
Proof. intros [|] r H; [|exact H]. destruct H as [->|H]; [constructor|apply ncname_chars; exact H]. Qed.
Lemma tail_cons : forall start b r, name_start b -> Forall name_char r -> tail_ok start (b :: r).
Proof. intros [|] b r N H; [right; split; assumption|]. constructor; [left; exact N|exact H]. Qed.
Lemma tail_char : forall start b r, name_char b -> Forall name_char r -> tail_ok start ((if start then [95] else []) ++ b :: r).
Proof.
  intros [|] b r N H; cbn [app]; [|constructor; assumption].
  right. split; [exact underscore|]. constructor; assumption.
Qed.
Lemma name_chars_seen : forall F s start, bytes s -> tail_ok start (name_chars F s start true).
Proof.
  intros F s. induction s as [|b s IH]; intros start B.
  - destruct start; cbn; [left; reflexivity|constructor].
  - inversion B as [|x l R B']; subst. cbn [name_chars].
    destruct (is_letter (wide b) || (wide b =? 95)) eqn:L.
    { apply tail_cons; [apply letter_start; assumption|]. exact (tail_chars _ _ (IH false B')). }
    destruct (is_digit (wide b) || (wide b =? 45) || (wide b =? 46)) eqn:D.
    { apply tail_char; [apply digit_char; assumption|]. exact (tail_chars _ _ (IH false B')). }
    rewrite andb_false_r. apply IH. exact B'.
Qed.
Lemma name_chars_shape : forall F s start, bytes s ->
  tail_ok start (name_chars F s start false) \/
  exists p l, name_chars F s start false = p ++ 58 :: l /\ (if start then ncname p else Forall name_char p) /\ (l = [] \/ ncname l).
Proof.
  intros F s. induction s as [|b s IH]; intros start B.
  - left. destruct start; cbn; [left; reflexivity|constructor].
  - inversion B as [|x l0 R B']; subst. cbn [name_chars].
    destruct (is_letter (wide b) || (wide b =? 95)) eqn:L.
    { pose proof (letter_start b R L) as N. destruct (IH false B') as [T|(p & l & E & P & Q)].
      - left. apply tail_cons; [exact N|exact T].
      - right. exists (b :: p), l. rewrite E. split; [reflexivity|]. split; [|exact Q].
        destruct start; [split; assumption|constructor; [left; exact N|exact P]]. }
    destruct (is_digit (wide b) || (wide b =? 45) || (wide b =? 46)) eqn:D.
    { pose proof (digit_char b R D) as N. destruct (IH false B') as [T|(p & l & E & P & Q)].
      - left. apply tail_char; [exact N|exact T].
      - right. exists ((if start then [95] else []) ++ b :: p), l. rewrite E. split; [rewrite <- app_assoc; reflexivity|]. split; [|exact Q].
        destruct start; cbn [app]; [split; [exact underscore|constructor; assumption]|constructor; assumption]. }
    destruct ((wide b =? 58) && negb false) eqn:C.
    { pose proof (name_chars_seen F s true B') as T. destruct (fe_translate_colons F).
      - left. apply tail_char; [left; exact underscore|]. exact (tail_chars _ _ T).
      - rewrite andb_true_r in C. apply Z.eqb_eq in C. assert (b = 58) by (unfold wide in C; destruct (Z.ltb_spec b 128); lia). subst b.
        destruct start.
        + right. exists [95], (name_chars F s true true). split; [reflexivity|]. split; [split; [exact underscore|constructor]|exact T].
        + right. exists [], (name_chars F s true true). split; [reflexivity|]. split; [constructor|exact T]. }
    apply IH. exact B'.
Qed.
Lemma last_not_colon : forall s, Forall name_char s -> forall c r, rev s = c :: r -> c <> 58.
Proof.
  intros s H c r E. assert (I : In c s) by (apply in_rev; rewrite E; left; reflexivity).
  rewrite Forall_forall in H. apply H in I. apply name_char_pos in I. lia.
Qed.
Theorem make_name_parts : forall F s, bytes s -> exists p l, parts (make_name F s) p l.
Proof.
  intros F s B. unfold make_name. destruct (name_chars_shape F s true B) as [T|(p & l & E & P & Q)].
  - destruct T as [E|N].
    + rewrite E. exists None, [95]. constructor. split; [exact underscore|constructor].
    + pose proof (ncname_chars _ N) as [NE FC]. destruct (rev (name_chars F s true false)) as [|c r] eqn:R.
      * apply (f_equal (@rev Z)) in R. rewrite rev_involutive in R. contradiction.
      * pose proof (last_not_colon _ FC c r R). destruct (Z.eqb_spec c 58); [contradiction|]. exists None, (name_chars F s true false). constructor. exact N.
  - rewrite E. destruct Q as [->|N].
    + rewrite rev_unit. cbn. exists (Some p), [95]. rewrite <- app_assoc. constructor; [exact P|]. split; [exact underscore|constructor].
    + destruct (rev (p ++ 58 :: l)) as [|c r] eqn:R.
      * apply (f_equal (@rev Z)) in R. rewrite rev_involutive in R. destruct p; discriminate.
      * pose proof (ncname_chars _ N) as [NE FC]. rewrite rev_app_distr in R. cbn in R. destruct (rev l) as [|c' r'] eqn:R'.
        { apply (f_equal (@rev Z)) in R'. rewrite rev_involutive in R'. contradiction. }
        cbn in R. injection R as <- _. pose proof (last_not_colon _ FC c' r' R'). destruct (Z.eqb_spec c' 58); [contradiction|].
        exists (Some p), l. constructor; assumption.
Qed.

(** The parts of a name as the code finds them. *)
Lemma firstn_app_len : forall (p l : str), firstn (length p) (p ++ l) = p.
Proof. intros p l. rewrite firstn_app, Nat.sub_diag, firstn_all, firstn_O, app_nil_r. reflexivity. Qed.
Lemma parts_find : forall q p l, parts q p l ->
  prefix_of q = match p with Some x => x | None => [] end /\ local_name q = l /\
  (forall b, namespace_name q b = match p with Some x => prefix_uri x | None => if b then [] else schema_uri end) /\
  (forall x, p = Some x -> x <> []) /\ Forall (fun c => c <> 0) q /\ Forall (fun c => c <> 60) q /\ l <> [] /\ q <> [].
Proof.
  intros q p l [l' N|p' l' P N].
  - destruct (ncname_chars _ N) as [NE FC]. unfold prefix_of, local_name, namespace_name. rewrite (find_char_none _ FC).
    repeat split; auto; try discriminate. { apply chars_nonzero; exact FC. }
    eapply Forall_impl; [|exact FC]. intros c H. apply name_char_pos in H. lia.
  - destruct (ncname_chars _ N) as [NE FC]. destruct (ncname_chars _ P) as [PE PC]. unfold prefix_of, local_name, namespace_name. rewrite (find_char_colon _ _ PC).
    split; [apply firstn_app_len|]. split.
    { rewrite skipn_app. replace (S (length p') - length p')%nat with 1%nat by lia. rewrite skipn_all2 by lia. reflexivity. }
    split. { intros b. rewrite firstn_app_len. reflexivity. }
    split. { intros x E. injection E as <-. exact PE. }
    split. { apply Forall_app. split; [apply chars_nonzero; exact PC|]. constructor; [discriminate|]. apply chars_nonzero; exact FC. }
    split. { apply Forall_app. split; [|constructor; [discriminate|]]; eapply Forall_impl; try eassumption; intros c H; apply name_char_pos in H; lia. }
    split; [exact NE|]. destruct p'; discriminate.
Qed.
Lemma lower_start : forall c, name_start c -> name_start (lower c).
Proof. unfold name_start, lower. intros c H. destruct (Z.leb_spec 65 c), (Z.leb_spec c 90); cbn; lia. Qed.
Lemma lower_char : forall c, name_char c -> name_char (lower c).
Proof. unfold name_char, name_start, lower. intros c H. destruct (Z.leb_spec 65 c), (Z.leb_spec c 90); cbn; lia. Qed.
Lemma lower_ncname : forall s, ncname s -> ncname (lower_case s).
Proof. intros [|c r] H; [exact H|]. destruct H as [A B]. split; [apply lower_start; exact A|]. apply Forall_map. eapply Forall_impl; [|exact B]. exact lower_char. Qed.
Lemma lower_parts : forall q p l, parts q p l -> exists p' l', parts (lower_case q) p' l'.
Proof.
  intros q p l [l' N|p' l' P N].
  - exists None, (lower_case l'). constructor. apply lower_ncname. exact N.
  - exists (Some (lower_case p')), (lower_case l'). unfold lower_case. rewrite map_app. cbn [map]. change (lower 58) with 58. constructor; apply lower_ncname; assumption.
Qed.

(** * Attributes *)
Definition atts_fine (l : list attr) : Prop := Forall attribute_names l /\ NoDup (map a_qname l).
Lemma map_filter_nodup : forall (f : attr -> bool) l, NoDup (map a_qname l) -> NoDup (map a_qname (filter f l)).
Proof.
  intros f l. induction l as [|a l IH]; cbn; intro N; [constructor|]. inversion N as [|x y NI N']; subst.
  destruct (f a); cbn; [|apply IH; exact N']. constructor; [|apply IH; exact N'].
  intro I. apply NI. apply in_map_iff in I as (b & E & I). apply filter_In in I as [I _]. apply in_map_iff. exists b. auto.
Qed.
Lemma atts_fine_filter : forall f l, atts_fine l -> atts_fine (filter f l).
Proof.
  intros f l [A N]. split; [|apply map_filter_nodup; exact N]. rewrite Forall_forall in *. intros a I. apply filter_In in I as [I _]. auto.
Qed.
Lemma update_forall : forall (P : attr -> Prop) l i a, Forall P l -> P a -> Forall P (Attrs.update l i (fun _ => a)).
Proof. intros P l. induction l as [|b l IH]; intros i a H Pa; cbn; [constructor|]. inversion H; subst. destruct i; constructor; auto. Qed.
Lemma update_same : forall l i a q, find_pos (has_qname q) l = Some i -> a_qname a = q -> map a_qname (Attrs.update l i (fun _ => a)) = map a_qname l.
Proof.
  intros l. induction l as [|b l IH]; intros i a q H E; cbn; [reflexivity|]. cbn in H.
  destruct (has_qname q b) eqn:Q.
  - injection H as <-. cbn. f_equal. unfold has_qname in Q. apply str_eqb_true in Q. congruence.
  - destruct (find_pos (has_qname q) l) as [j|] eqn:F; [|discriminate]. injection H as <-. cbn. f_equal. eapply IH; eauto.
Qed.
Lemma nodup_snoc : forall (l : list str) x, NoDup l -> ~ In x l -> NoDup (l ++ [x]).
Proof.
  induction l as [|a l IH]; cbn; intros x N I; [constructor; auto; constructor|]. inversion N; subst. constructor.
  - rewrite in_app_iff. cbn. intros [J|[J|[]]]; auto.
  - apply IH; auto.
Qed.
Lemma starts_with_app : forall p s, starts_with p (p ++ s) = true.
Proof. intros p s. unfold starts_with. rewrite firstn_app_len. apply str_eqb_true. reflexivity. Qed.
Lemma set_attribute_fine : forall l n ty v, atts_fine l -> (exists p x, parts n p x) -> exists l', set_attribute l n ty v = Val l' /\ atts_fine l'.
Proof.
  intros l n ty v FL (p & x & P). unfold set_attribute.
  destruct (str_eqb n (ascii_str "xmlns") || starts_with (ascii_str "xmlns:") n) eqn:X; [exists l; auto|].
  apply orb_false_elim in X as [X1 X2].
  set (t := match ty with [] => _ | _ => _ end).
  assert (V : exists v', (if str_eqb t (ascii_str "CDATA") then Val v else normalize_whitespace v) = Val v').
  { destruct (str_eqb t (ascii_str "CDATA")); [eexists; reflexivity|]. rewrite normalize_whitespace_spec. eexists; reflexivity. }
  destruct V as (v' & ->). cbn [obind]. eexists. split; [reflexivity|].
  assert (AN : attribute_names (Attr (namespace_name n true) (local_name n) n t v')).
  { destruct (parts_find _ _ _ P) as (_ & EL & EN & _). exists p, x. cbn. rewrite EN. split; [exact P|]. split; [exact EL|].
    split; [destruct p; reflexivity|]. split.
    - intros ->. rewrite (proj2 (str_eqb_true _ _) eq_refl) in X1. discriminate.
    - intros ->. inversion P as [|p' l' P' N]; subst.
      assert (T : forall y, starts_with (ascii_str "xmlns:") (ascii_str "xmlns" ++ 58 :: y) = true) by (intro y; exact (starts_with_app (ascii_str "xmlns:") y)).
      rewrite T in X2. discriminate. }
  destruct FL as [A N]. destruct (index_of_q l n) as [i|] eqn:I.
  - split; [apply update_forall; assumption|]. rewrite (update_same l i _ n I) by reflexivity. exact N.
  - split; [apply Forall_app; split; [exact A|constructor; [exact AN|constructor]]|].
    rewrite map_app. cbn. apply nodup_snoc; [exact N|]. intro J. apply in_map_iff in J as (b & E & J).
    pose proof (proj1 (find_pos_none _ _) I b J) as K. unfold has_qname in K. apply str_eqb_false in K. contradiction.
Qed.

(** * Elements *)
Definition fine (e : elem) : Prop := (exists p l, parts (el_name e) p l) /\ atts_fine (el_atts e).
Lemma fine_clean : forall e, fine e -> fine (clean e).
Proof. intros e [A B]. split; [exact A|]. apply atts_fine_filter. exact B. Qed.
Lemma fine_anonymize : forall e, fine e -> fine (anonymize e).
Proof. intros e [A B]. split; [exact A|]. apply atts_fine_filter. exact B. Qed.

Definition mappings (F : features) (e : elem) : list (str * str) :=
  (if foreign (prefix_of (el_name e)) (shown_uri F e) then [(c_string (prefix_of (el_name e)), c_string (shown_uri F e))] else []) ++
  flat_map (fun a => if foreign (prefix_of (a_qname a)) (a_uri a) then [(c_string (prefix_of (a_qname a)), c_string (a_uri a))] else []) (el_atts e).
Definition start_of (F : features) (e : elem) : hevent :=
  HStart (c_string (shown_uri F e)) (c_string (shown_local F e)) (c_string (el_name e)) (map shown_att (el_atts e)).
Definition end_of (F : features) (e : elem) : hevent := HEnd (c_string (shown_uri F e)) (c_string (shown_local F e)) (c_string (el_name e)).
Definition ends (F : features) (e : elem) : list str :=
  (if foreign (prefix_of (el_name e)) (shown_uri F e) then [c_string (prefix_of (el_name e))] else []) ++
  rev (flat_map (fun a => if foreign (prefix_of (a_qname a)) (a_uri a) then [c_string (prefix_of (a_qname a))] else []) (el_atts e)).
Definition open_events (F : features) (e : elem) : list hevent := map (fun m => HStartMapping (fst m) (snd m)) (mappings F e) ++ [start_of F e].
Definition close_events (F : features) (e : elem) : list hevent := end_of F e :: map HEndMapping (ends F e).

Lemma map_flat_map : forall A B C (f : B -> C) (g : A -> list B) l, map f (flat_map g l) = flat_map (fun x => map f (g x)) l.
Proof. intros A B C f g l. induction l; cbn; [reflexivity|]. rewrite map_app, IHl. reflexivity. Qed.
Lemma push_out : forall F e g, tg_out (push F e g) = tg_out g ++ open_events F (clean e).
Proof.
  intros F e g. unfold push. match goal with |- tg_out (if ?c then _ else _) = _ => destruct c end; cbn [tg_out set_cdata set_virgin set_stack tell]; f_equal; unfold open_events, mappings, start_of;
    rewrite map_app, map_flat_map, <- app_assoc; f_equal;
    try (destruct (foreign (prefix_of (el_name (clean e))) (shown_uri F (clean e))); reflexivity);
    (f_equal; apply flat_map_ext; intros a; destruct (foreign (prefix_of (a_qname a)) (a_uri a)); reflexivity).
Qed.
Lemma pop_out : forall F e s g, tg_stack g = e :: s -> tg_out (pop F g) = tg_out g ++ close_events F e.
Proof.
  intros F e s g E. unfold pop. rewrite E. cbn [tg_out set_stack tell]. f_equal. unfold close_events, ends. cbn [app]. f_equal.
  rewrite map_app, map_rev, map_flat_map. f_equal.
  - destruct (foreign (prefix_of (el_name e)) (shown_uri F e)); reflexivity.
  - f_equal. apply flat_map_ext. intros a. destruct (foreign (prefix_of (a_qname a)) (a_uri a)); reflexivity.
Qed.
Lemma ends_mappings : forall F e, Permutation (ends F e) (map fst (mappings F e)).
Proof.
  intros F e. unfold ends, mappings. rewrite map_app, map_flat_map. apply Permutation_app.
  - destruct (foreign (prefix_of (el_name e)) (shown_uri F e)); apply Permutation_refl.
  - etransitivity; [symmetry; apply Permutation_rev|]. erewrite flat_map_ext; [apply Permutation_refl|].
    intros a. cbn. destruct (foreign (prefix_of (a_qname a)) (a_uri a)); reflexivity.
Qed.
(** What is shown of fine names. *)
Lemma prefix_uri_nonzero : forall p, Forall (fun c => c <> 0) p -> Forall (fun c => c <> 0) (prefix_uri p).
Proof.
  intros p H. unfold prefix_uri. destruct (str_eqb p (ascii_str "xml")).
  - apply Forall_forall. intros c I. intros ->. vm_compute in I. repeat (destruct I as [I|I]; [discriminate|]). destruct I.
  - apply Forall_app. split; [|exact H]. apply Forall_forall. intros c I. intros ->. vm_compute in I. repeat (destruct I as [I|I]; [discriminate|]). destruct I.
Qed.
Lemma prefix_uri_foreign : forall p, prefix_uri p <> [] /\ prefix_uri p <> schema_uri.
Proof.
  intros p. unfold prefix_uri. destruct (str_eqb p (ascii_str "xml")); split; try discriminate. 
Qed.
Lemma parts_prefix_nonzero : forall q p l, parts q (Some p) l -> Forall (fun c => c <> 0) p /\ p <> [].
Proof. intros q p l H. inversion H; subst. split; [apply chars_nonzero|]; apply ncname_chars; assumption. Qed.
Lemma parts_local_nonzero : forall q p l, parts q p l -> Forall (fun c => c <> 0) l.
Proof. intros q p l H. inversion H; subst; apply chars_nonzero; apply ncname_chars; assumption. Qed.
Lemma foreign_prefix : forall p, p <> [] -> foreign p (prefix_uri p) = true.
Proof.
  intros p N. unfold foreign. destruct (prefix_uri_foreign p) as [A B]. destruct p; [contradiction|]. cbn [nothing].
  destruct (prefix_uri (z :: p)) eqn:E; [contradiction|]. cbn [nothing orb]. apply str_eqb_false in B. rewrite B. reflexivity.
Qed.
Lemma schema_uri_shown : c_string schema_uri = schema_uri.
Proof. vm_compute. reflexivity. Qed.
Lemma parts_unique : forall q p l p' l', parts q p l -> parts q p' l' -> p = p' /\ l = l'.
Proof.
  intros q p l p' l' A B. destruct (parts_find _ _ _ A) as (A1 & A2 & _ & A3 & _). destruct (parts_find _ _ _ B) as (B1 & B2 & _ & B3 & _).
  split; [|congruence]. destruct p as [x|], p' as [y|]; try reflexivity.
  - congruence.
  - exfalso. apply (A3 x eq_refl). congruence.
  - exfalso. apply (B3 y eq_refl). congruence.
Qed.
Lemma shown_names : forall F e p l, parts (el_name e) p l ->
  c_string (el_name e) = el_name e /\ c_string (shown_local F e) = (if fe_namespaces F then l else []) /\
  c_string (shown_uri F e) = shown_uri F e /\
  shown_uri F e = (if fe_namespaces F then match p with None => schema_uri | Some x => prefix_uri x end else []).
Proof.
  intros F e p l P. destruct (parts_find _ _ _ P) as (_ & EL & EN & _ & NZ & _). split; [apply c_string_same; exact NZ|].
  unfold shown_local, shown_uri. destruct (fe_namespaces F); [|auto].
  split; [rewrite EL; apply c_string_same; eapply parts_local_nonzero; exact P|].
  rewrite EN. split; [|reflexivity]. destruct p as [x|]; [|exact schema_uri_shown]. apply c_string_same, prefix_uri_nonzero. eapply parts_prefix_nonzero; exact P.
Qed.
Lemma shown_att_names : forall a, attribute_names a -> attribute_names (shown_att a) /\ a_qname (shown_att a) = a_qname a /\ a_uri (shown_att a) = a_uri a.
Proof.
  intros a (p & l & P & EL & EU & X & Y). destruct (parts_find _ _ _ P) as (_ & _ & _ & _ & NZ & _).
  assert (Q : c_string (a_qname a) = a_qname a) by (apply c_string_same; exact NZ).
  assert (L : c_string (a_local a) = a_local a) by (rewrite EL; apply c_string_same; eapply parts_local_nonzero; exact P).
  assert (U : c_string (a_uri a) = a_uri a).
  { rewrite EU. destruct p as [x|]; [|reflexivity]. apply c_string_same, prefix_uri_nonzero. eapply parts_prefix_nonzero; exact P. }
  unfold shown_att. cbn [a_qname a_uri]. rewrite Q, L, U. split; [|auto]. exists p, l. cbn. auto.
Qed.
Lemma start_names_of : forall F e, fine e -> start_names (fe_namespaces F) (start_of F e).
Proof.
  intros F e ((p & l & P) & A & N). unfold start_of, start_names. destruct (shown_names F e p l P) as (Q & L & U & UU).
  rewrite Q, L, U, UU. split.
  - exists p, l. split; [exact P|]. destruct (fe_namespaces F); [|auto]. split; [reflexivity|]. destruct p; reflexivity.
  - split.
    + apply Forall_map. eapply Forall_impl; [|exact A]. intros a H. apply shown_att_names. exact H.
    + rewrite map_map. erewrite map_ext_in; [exact N|]. intros a I. rewrite Forall_forall in A. apply shown_att_names. auto.
Qed.
Lemma declares_of : forall F e, fine e -> declares (mappings F e) (c_string (shown_uri F e)) (c_string (el_name e)) (map shown_att (el_atts e)).
Proof.
  intros F e ((p & l & P) & A & N). destruct (shown_names F e p l P) as (Q & L & U & UU). rewrite Q, U. split.
  - intros x y PX NU. destruct (parts_unique _ _ _ _ _ P PX) as [-> ->]. destruct (parts_find _ _ _ P) as (EP & _).
    unfold mappings. rewrite EP. rewrite UU in NU |- *. destruct (fe_namespaces F); [|contradiction]. destruct (parts_prefix_nonzero _ _ _ P) as [NZ NE].
    rewrite (foreign_prefix x NE). apply in_app_iff. left. cbn. left. rewrite (c_string_same x NZ), (c_string_same _ (prefix_uri_nonzero _ NZ)). reflexivity.
  - intros a' x y I PX. apply in_map_iff in I as (a & <- & I). rewrite Forall_forall in A. pose proof (A a I) as AN. destruct (shown_att_names a AN) as (_ & EQ & EU).
    rewrite EQ in PX. rewrite EU. destruct AN as (p2 & l2 & P2 & _ & E2 & _). destruct (parts_unique _ _ _ _ _ P2 PX) as [-> ->].
    unfold mappings. apply in_app_iff. right. apply in_flat_map. exists a. split; [exact I|].
    destruct (parts_find _ _ _ P2) as (EP & _). rewrite EP, E2. destruct (parts_prefix_nonzero _ _ _ P2) as [NZ NE].
    rewrite (foreign_prefix x NE). left. rewrite (c_string_same x NZ), (c_string_same _ (prefix_uri_nonzero _ NZ)). reflexivity.
Qed.
