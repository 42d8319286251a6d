From Coq Require Import String List ZArith Bool Lia.
From Coq Require Import List.
Import ListNotations.
Open Scope Z_scope.
From Verif.Model Require Import Base Attrs Sax XSort.
From Verif.Spec Require Import XmlChars GardenSpec.
From Verif.Proof Require ContainersProof.
From Verif.Model Require Import Garden.

(** * Characters *)
Lemma among_small c rs :
  among c rs -> byte c ->
  existsb (fun r => (fst r <=? c) && (c <=? snd r)) (filter (fun r => fst r <? 256) rs) = true.
Proof.
  intros (lo & hi & I & H) B. apply existsb_exists. exists (lo, hi). split.
  - apply filter_In. split; [assumption|]. cbn. apply Z.ltb_lt. unfold byte in B. lia.
  - cbn. apply andb_true_iff. split; apply Z.leb_le; lia.
Qed.
Ltac small H B :=
  let Q := fresh in pose proof (among_small _ _ H B) as Q;
  match type of Q with existsb _ ?l = true =>
    let l' := eval vm_compute in l in
    let E := fresh in assert (E : l = l') by (vm_compute; reflexivity); rewrite E in Q; clear E
  end; cbn [existsb fst snd] in Q.
Ltac zb :=
  repeat match goal with
  | H : _ && _ = true |- _ => apply andb_true_iff in H; destruct H
  | H : _ || _ = true |- _ => apply orb_true_iff in H; destruct H
  | H : (_ <=? _) = true |- _ => apply Z.leb_le in H
  | H : (_ =? _) = true |- _ => apply Z.eqb_eq in H
  | H : false = true |- _ => discriminate H
  end.
Ltac zdec :=
  repeat match goal with
  | |- context [?a <=? ?b] => destruct (Z.leb_spec a b); try lia
  | |- context [?a =? ?b] => destruct (Z.eqb_spec a b); try lia
  end; try reflexivity.

Lemma letter_start c : byte c -> (among c Letter \/ c = 95 \/ c = 58) -> is_name_start c = true.
Proof.
  intros B [H|[->| ->]]; [|reflexivity|reflexivity]. small H B.
  unfold is_name_start, is_letter, between. zb; subst; zdec.
Qed.
Lemma name_char c : byte c -> among c NameChar -> is_name_char c = true.
Proof.
  intros B H. small H B.
  unfold is_name_char, is_letter, is_digit, between. zb; subst; zdec.
Qed.
Lemma white c : among c White -> is_space c = true.
Proof.
  intros (lo & hi & I & H). unfold White in I. cbn in I.
  repeat (destruct I as [[= <- <-]|I]; [unfold is_space; zdec|]). destruct I.
Qed.
Lemma white_inv c : is_space c = true -> among c White.
Proof.
  unfold is_space. intro H. assert (c = 32 \/ c = 9 \/ c = 13 \/ c = 10) as K by (zb; lia).
  exists c, c. split; [|lia]. unfold White.
  destruct K as [->|[->|[->| ->]]]; cbn; tauto.
Qed.

(** * Parsers *)
Section Parsers.
  Context (n : nat).
  (** p reads t when r follows, *)
  Definition reads (p : parser) (g : garden) (t r : str) (g' : garden) : Prop :=
    (length (t ++ r) < n)%nat -> p g (t ++ r) = Res true g' r.
  (** p does not match, and says nothing. *)
  Definition stops (p : parser) (g : garden) (s : str) : Prop :=
    (length s < n)%nat -> exists r, p g s = Res false g r.

  Lemma r_seq a b g t1 t2 r g1 g2 :
    reads a g t1 (t2 ++ r) g1 -> reads b g1 t2 r g2 -> reads (seq a b) g (t1 ++ t2) r g2.
  Proof.
    unfold reads. intros A B L. unfold seq. rewrite <- app_assoc in *. rewrite A by assumption.
    apply B. rewrite app_length in L. lia.
  Qed.
  Lemma r_seq' a b g t t1 t2 r g1 g2 :
    t = t1 ++ t2 -> reads a g t1 (t2 ++ r) g1 -> reads b g1 t2 r g2 -> reads (seq a b) g t r g2.
  Proof. intros ->. apply r_seq. Qed.
  Lemma s_seq_l a b g s : stops a g s -> stops (seq a b) g s.
  Proof. intros A L. destruct (A L) as (r & E). exists r. unfold seq. rewrite E. reflexivity. Qed.
  Lemma s_seq_r a b g t r g' : reads a g t r g -> stops b g r -> g' = g -> stops (seq a b) g' (t ++ r).
  Proof.
    intros A B -> L. unfold seq. rewrite (A L). apply B. rewrite app_length in L. lia.
  Qed.
  Lemma r_alt_l a b g t r g' : reads a g t r g' -> reads (alt a b) g t r g'.
  Proof. intros A L. unfold alt. rewrite (A L). reflexivity. Qed.
  Lemma r_alt_r a b g t r g' : stops a g (t ++ r) -> reads b g t r g' -> reads (alt a b) g t r g'.
  Proof. intros A B L. destruct (A L) as (x & E). unfold alt. rewrite E. apply B. exact L. Qed.
  Lemma s_alt a b g s : stops a g s -> stops b g s -> stops (alt a b) g s.
  Proof. intros A B L. destruct (A L) as (x & E). unfold alt. rewrite E. apply B. exact L. Qed.
  Lemma r_opt a g t r g' : reads a g t r g' -> reads (opt a) g t r g'.
  Proof. intros A L. unfold opt. rewrite (A L). reflexivity. Qed.
  Lemma r_opt_none a g r : stops a g r -> reads (opt a) g [] r g.
  Proof. intros A L. destruct (A L) as (x & E). unfold opt. cbn [app] in *. rewrite E. reflexivity. Qed.
  Lemma r_act f a g t r g' : reads a g t r g' -> reads (act f a) g t r (f t g').
  Proof.
    intros A L. unfold act. rewrite (A L).
    replace (length (t ++ r) - length r)%nat with (length t) by (rewrite app_length; lia).
    rewrite firstn_app, Nat.sub_diag, firstn_all, firstn_O, app_nil_r. reflexivity.
  Qed.
  Lemma s_act f a g s : stops a g s -> stops (act f a) g s.
  Proof. intros A L. destruct (A L) as (x & E). exists x. unfold act. rewrite E. reflexivity. Qed.
  Lemma r_chr p g c r : p c = true -> reads (chr p) g [c] r g.
  Proof. intros P _. cbn. rewrite P. reflexivity. Qed.
  Definition starts_not (p : Z -> bool) (s : str) : Prop :=
    match s with [] => True | c :: _ => p c = false end.
  Lemma s_chr p g s : starts_not p s -> stops (chr p) g s.
  Proof.
    intros P _. destruct s as [|c s]; cbn in *; [eexists; reflexivity|]. rewrite P. eexists; reflexivity.
  Qed.
  Lemma r_text g t r : reads (str_p t) g t r g.
  Proof.
    unfold reads, str_p. intros _. induction t as [|c t IH]; cbn; [destruct r; reflexivity|].
    rewrite Z.eqb_refl. exact IH.
  Qed.
  Lemma r_text' g t t' r : t = t' -> reads (str_p t) g t' r g.
  Proof. intros ->. apply r_text. Qed.
  (** t and s differ somewhere in the length of t. *)
  Fixpoint clash (t s : str) : bool :=
    match t, s with
    | [], _ => false
    | _ :: _, [] => true
    | c :: t', d :: s' => negb (c =? d) || clash t' s'
    end.
  Lemma s_text g t s : clash t s = true -> stops (str_p t) g s.
  Proof.
    unfold stops, str_p. intros C _. revert s C. induction t as [|c t IH]; intros [|d s]; cbn; try discriminate.
    - eexists; reflexivity.
    - destruct (c =? d); cbn; [apply IH|eexists; reflexivity].
  Qed.

  Lemma star_none a g r : stops a g r -> reads (star n a) g [] r g.
  Proof.
    intros A L. cbn [app] in *. destruct (A L) as (x & E). destruct n as [|k]; [lia|].
    cbn [star]. rewrite E. reflexivity.
  Qed.
  (** Repetition, with as much fuel as there is text. *)
  Definition repeats (a : parser) (g : garden) (t r : str) (g' : garden) : Prop :=
    forall f, (length (t ++ r) < n)%nat -> (length (t ++ r) < f)%nat -> star f a g (t ++ r) = Res true g' r.
  Lemma repeats_none a g r : stops a g r -> repeats a g [] r g.
  Proof.
    intros A f L F. cbn [app] in *. destruct (A L) as (x & E). destruct f as [|k]; [lia|].
    cbn [star]. rewrite E. reflexivity.
  Qed.
  Lemma repeats_more a g t1 t2 r g1 g2 :
    t1 <> [] -> reads a g t1 (t2 ++ r) g1 -> repeats a g1 t2 r g2 -> repeats a g (t1 ++ t2) r g2.
  Proof.
    intros N A B f L F. rewrite <- app_assoc in *. destruct f as [|k]; [lia|].
    cbn [star]. rewrite (A L).
    destruct t1 as [|c t1]; [contradiction|]. cbn [length app] in L, F.
    rewrite app_length in L, F. apply B; lia.
  Qed.
  Lemma r_star a g t r g' : repeats a g t r g' -> reads (star n a) g t r g'.
  Proof. intros A L. apply A; exact L. Qed.

  Lemma repeats_chr p g t r :
    Forall (fun c => p c = true) t -> starts_not p r -> repeats (chr p) g t r g.
  Proof.
    intros F S. induction F as [|c t C F IH]; [apply repeats_none, s_chr, S|].
    apply (repeats_more _ _ [c] t r g g); [discriminate|apply r_chr, C|exact IH].
  Qed.
  Lemma r_star_chr p g t r :
    Forall (fun c => p c = true) t -> starts_not p r -> reads (star n (chr p)) g t r g.
  Proof. intros. apply r_star, repeats_chr; assumption. Qed.
  Lemma r_plus_chr p g t r :
    t <> [] -> Forall (fun c => p c = true) t -> starts_not p r -> reads (plus n (chr p)) g t r g.
  Proof.
    intros N F S. destruct t as [|c t]; [contradiction|]. inversion F; subst.
    unfold plus. apply (r_seq' _ _ _ _ [c] t r g g); [reflexivity|apply r_chr; assumption|].
    apply r_star_chr; assumption.
  Qed.

  Lemma r_diff_text p t g c r : p c = true -> clash t (c :: r) = true -> reads (diff (chr p) (str_p t)) g [c] r g.
  Proof.
    intros P C L. unfold diff. cbn [app chr]. rewrite P.
    destruct (s_text g t (c :: r) C L) as (x & E). rewrite E. reflexivity.
  Qed.
  Lemma s_diff_char p t g s : starts_not p s -> stops (diff (chr p) (str_p t)) g s.
  Proof. intros P L. destruct (s_chr p g s P L) as (x & E). exists x. unfold diff. rewrite E. reflexivity. Qed.
  Lemma s_diff_text p t g r : t <> [] -> stops (diff (chr p) (str_p t)) g (t ++ r).
  Proof.
    intros N L. unfold diff. destruct t as [|c t]; [contradiction|].
    cbn [app chr]. destruct (p c); [|eexists; reflexivity].
    pose proof (r_text g (c :: t) r L) as E. cbn [app] in E. rewrite E.
    replace (_ <? _)%nat with false; [eexists; reflexivity|].
    symmetry. apply Nat.ltb_ge. cbn [length]. rewrite app_length. lia.
  Qed.
  Lemma never_tail t c s : never t (c :: s) -> never t s.
  Proof. intros N a b E. apply (N (c :: a) b). cbn. f_equal. exact E. Qed.
End Parsers.

Lemma clash_app t s : (forall b, s <> t ++ b) -> clash t s = true.
Proof.
  revert s. induction t as [|c t IH]; intros s N; [destruct (N s eq_refl)|].
  destruct s as [|d s]; [reflexivity|]. cbn. destruct (Z.eqb_spec c d) as [->|]; [cbn|reflexivity].
  apply IH. intros b E. apply (N b). cbn. f_equal. exact E.
Qed.
Lemma clash_not t b s : clash t s = true -> s <> t ++ b.
Proof.
  revert s. induction t as [|c t IH]; intros [|d s] C; cbn in *; try discriminate.
  destruct (Z.eqb_spec c d) as [->|N]; cbn in C.
  - intros [= E]. revert E. apply IH, C.
  - congruence.
Qed.

Section Grammar.
  Context (signed has_errors : bool) (n : nat).
  Notation reads := (reads n).
  Notation stops := (stops n).

  Lemma r_spaces g t r :
    space t -> t <> [] -> starts_not is_space r -> reads (Spaces n) g t r g.
  Proof.
    intros S N R. apply r_plus_chr; [assumption| |assumption].
    eapply Forall_impl; [|exact S]. exact white.
  Qed.
  Lemma s_spaces g s : starts_not is_space s -> stops (Spaces n) g s.
  Proof. intro R. apply s_seq_l, s_chr, R. Qed.
  Lemma r_opt_spaces g t r : space t -> starts_not is_space r -> reads (opt (Spaces n)) g t r g.
  Proof.
    intros S R. destruct t as [|c t].
    - apply r_opt_none, s_spaces, R.
    - apply r_opt, r_spaces; [assumption|discriminate|assumption].
  Qed.
  Lemma r_name g t r : name t -> starts_not is_name_char r -> reads (Garden.Name n) g t r g.
  Proof.
    intros [N B] R. destruct t as [|c t]; [destruct N|]. destruct N as [C T].
    inversion B as [|? ? Bc Bt]; subst.
    apply (r_seq' _ _ _ _ _ [c] t r g g); [reflexivity|apply r_chr, letter_start; assumption|].
    apply r_star_chr; [|assumption].
    rewrite Forall_forall in *. intros d I. apply name_char; auto.
  Qed.
  Lemma s_name g s : starts_not is_name_start s -> stops (Garden.Name n) g s.
  Proof. intro R. apply s_seq_l, s_chr, R. Qed.

  Lemma r_eq g a b r : space a -> space b -> starts_not is_space r -> reads (Eq n) g (a ++ [61] ++ b) r g.
  Proof.
    intros A B R.
    apply (r_seq _ _ _ _ a ([61] ++ b) r g g); [apply r_opt_spaces; [assumption|reflexivity]|].
    apply (r_seq _ _ _ _ [61] b r g g); [apply r_chr; reflexivity|apply r_opt_spaces; assumption].
  Qed.

  (** Spans that end where a text begins. *)
  Lemma repeats_span p t e g s :
    e <> [] -> Forall (fun c => p c = true) s -> (forall k, (k < length s)%nat -> clash e (skipn k s ++ e ++ t) = true) ->
    repeats n (diff (chr p) (str_p e)) g s (e ++ t) g.
  Proof.
    intros N F. induction F as [|c s C F IH]; intro K.
    - apply repeats_none, s_diff_text, N.
    - apply (repeats_more _ _ _ [c] s (e ++ t) g g); [discriminate| |].
      + apply r_diff_text; [exact C|]. apply (K O). cbn. lia.
      + apply IH. intros k L. apply (K (S k)). cbn. lia.
  Qed.
  Lemma clash3 s t k : (* ]]> *)
    never [93; 93; 62] s -> (k < length s)%nat -> clash [93; 93; 62] (skipn k s ++ [93; 93; 62] ++ t) = true.
  Proof.
    intros N L. remember (skipn k s) as u.
    assert (NU : never [93; 93; 62] u).
    { intros a b E. apply (N (firstn k s ++ a) b). rewrite <- (firstn_skipn k s) at 1.
      rewrite <- Hequ, E, <- app_assoc. reflexivity. }
    assert (U : u <> []).
    { intro E. apply (f_equal (@length Z)) in Hequ. rewrite skipn_length, E in Hequ. cbn in Hequ. lia. }
    destruct u as [|a [|b [|c u]]]; [contradiction| | |].
    - cbn. rewrite !orb_true_r. reflexivity.
    - cbn. rewrite !orb_true_r. reflexivity.
    - assert (C : clash [93; 93; 62] (a :: b :: c :: u) = true) by (apply clash_app; intros q E; exact (NU [] q E)).
      cbn in *. exact C.
  Qed.
  Lemma clash2 s t k : (* ?> *)
    never [63; 62] s -> (k < length s)%nat -> clash [63; 62] (skipn k s ++ [63; 62] ++ t) = true.
  Proof.
    intros N L. remember (skipn k s) as u.
    assert (NU : never [63; 62] u).
    { intros a b E. apply (N (firstn k s ++ a) b). rewrite <- (firstn_skipn k s) at 1.
      rewrite <- Hequ, E, <- app_assoc. reflexivity. }
    assert (U : u <> []).
    { intro E. apply (f_equal (@length Z)) in Hequ. rewrite skipn_length, E in Hequ. cbn in Hequ. lia. }
    destruct u as [|a [|b u]]; [contradiction| |].
    - cbn. rewrite !orb_true_r. reflexivity.
    - assert (C : clash [63; 62] (a :: b :: u) = true) by (apply clash_app; intros q E; exact (NU [] q E)).
      cbn in *. exact C.
  Qed.

  Context (char : Z -> Prop) (char_ok : forall c, char c -> is_char signed c = true).
  Notation element := (Garden.element signed true has_errors n).
  Notation Reference := (Garden.Reference true has_errors n).
  Notation CharData := (Garden.CharData true n).
  Notation Comment_ := (Garden.Comment_ signed n).
  Notation CDSect := (Garden.CDSect signed true n).
  Notation PI_ := (Garden.PI_ signed true n).

  (** g' has heard the events after g, and is in the same elements. *)
  Definition tells (g : garden) (evs : list sax) (g' : garden) : Prop :=
    g_heard g' = g_heard g ++ map Said evs /\ g_elements g' = g_elements g.
  Lemma tells_none g : tells g [] g.
  Proof. split; [symmetry; apply app_nil_r|reflexivity]. Qed.
  Lemma tells_app g a g1 b g2 : tells g a g1 -> tells g1 b g2 -> tells g (a ++ b) g2.
  Proof.
    intros [A A'] [B B']. split; [|congruence]. rewrite B, A, map_app, app_assoc. reflexivity.
  Qed.
  Lemma tells_say g e : tells g [e] (say true e g).
  Proof. split; reflexivity. Qed.

  (** What may follow text. *)
  Definition markup (r : str) : Prop := match r with [] => True | c :: _ => c = 60 \/ c = 38 end.
  Lemma r_chardata g t r :
    good_text t -> markup r -> exists g', reads CharData g t r g' /\ tells g (text_told t) g'.
  Proof.
    intros (A & B & C) M. exists (element_content true t g). split.
    - apply r_act, r_star.
      assert (P : Forall (fun c => negb (is 60 c) && negb (is 38 c) = true) t).
      { apply Forall_forall. intros c I. unfold is.
        destruct (Z.eqb_spec 60 c) as [<-|]; [contradiction|].
        destruct (Z.eqb_spec 38 c) as [<-|]; [contradiction|reflexivity]. }
      clear A B. induction P as [|c t Pc P IH].
      + apply repeats_none, s_diff_char. destruct r as [|c r]; [exact I|]. cbn in *.
        destruct M as [->| ->]; reflexivity.
      + apply (repeats_more _ _ _ [c] t r g g); [discriminate| |apply IH; eapply never_tail, C].
        apply r_diff_text; [exact Pc|].
        destruct t as [|d [|e t]].
        * cbn. destruct r as [|x r]; cbn; [rewrite !orb_true_r; reflexivity|].
          destruct M as [->| ->]; cbn; rewrite !orb_true_r; reflexivity.
        * cbn. destruct r as [|x r]; cbn; [rewrite !orb_true_r; reflexivity|].
          destruct M as [->| ->]; cbn; rewrite !orb_true_r; reflexivity.
        * assert (K : clash [93; 93; 62] (c :: d :: e :: t) = true)
            by (apply clash_app; intros q E; exact (C [] q E)).
          cbn in *. exact K.
    - destruct t; [apply tells_none|apply tells_say].
  Qed.

  Lemma repeats_remark g r k : forall s,
    (length s < k)%nat -> good_remark char s ->
    repeats n (alt (Char_but signed (is 45)) (seq (chr (is 45)) (Char_but signed (is 45)))) g s ([45; 45; 62] ++ r) g.
  Proof.
    induction k as [|k IH]; [lia|]. intros s L (A & B & C).
    assert (one : forall c, char c -> c <> 45 -> is_char signed c && negb (is 45 c) = true).
    { intros c H N. rewrite (char_ok _ H). unfold is. destruct (Z.eqb_spec 45 c); [congruence|reflexivity]. }
    destruct s as [|c s].
    - apply repeats_none, s_alt.
      + apply s_chr. cbn. apply andb_false_r.
      + apply (s_seq_r _ _ _ g [45] ([45; 62] ++ r)); [apply r_chr; reflexivity|apply s_chr|reflexivity].
        cbn. apply andb_false_r.
    - inversion A as [|? ? Ac As]; subst. destruct (Z.eq_dec c 45) as [->|N].
      + destruct s as [|d s]; [destruct (C [] eq_refl)|].
        assert (d <> 45) by (intros ->; exact (B [] s eq_refl)).
        inversion As as [|? ? Ad Ass]; subst.
        apply (repeats_more _ _ _ [45; d] s _ g g); [discriminate| |].
        * apply r_alt_r; [apply s_chr; cbn; apply andb_false_r|].
          apply (r_seq _ _ _ _ [45] [d] _ g g); [apply r_chr; reflexivity|apply r_chr, one; assumption].
        * apply IH; [cbn in L; lia|]. split; [assumption|split].
          -- eapply never_tail, never_tail, B.
          -- intros a E. apply (C (45 :: d :: a)). cbn. congruence.
      + apply (repeats_more _ _ _ [c] s _ g g); [discriminate| |].
        * apply r_alt_l, r_chr, one; assumption.
        * apply IH; [cbn in L; lia|]. split; [assumption|split].
          -- eapply never_tail, B.
          -- intros a E. apply (C (c :: a)). cbn. congruence.
  Qed.
  Lemma r_remark g s r : good_remark char s -> reads Comment_ g (write_remark s) r g.
  Proof.
    intro G. unfold write_remark.
    apply (r_seq _ _ _ _ _ _ _ g g); [apply r_text'; reflexivity|].
    apply (r_seq _ _ _ _ _ _ _ g g); [|apply r_text'; reflexivity].
    apply r_star. apply (repeats_remark g r (S (length s))); [lia|exact G].
  Qed.
  Lemma chars_ok s : Forall char s -> Forall (fun c => is_char signed c = true) s.
  Proof. intro F. eapply Forall_impl; [|exact F]. exact char_ok. Qed.
  Lemma r_section g s r :
    good_section char s -> exists g', reads CDSect g (write_section s) r g' /\ tells g (text_told s) g'.
  Proof.
    intros [A B]. exists (element_content true s g). split.
    - unfold write_section.
      apply (r_seq _ _ _ _ _ _ _ g (element_content true s g)); [apply r_text'; reflexivity|].
      apply (r_seq _ _ _ _ _ _ _ (element_content true s g)); [|apply r_text'; reflexivity].
      apply r_act, r_star. apply (repeats_span _ r [93; 93; 62]); [discriminate|apply chars_ok, A|].
      intros k L. apply clash3; assumption.
    - destruct s; [apply tells_none|apply tells_say].
  Qed.

  Lemma lower_is c k : 97 <= k <= 122 -> (k =? lower c) = true -> c = k \/ c = k - 32.
  Proof.
    intros K E. apply Z.eqb_eq in E. unfold lower in E.
    destruct ((65 <=? c) && (c <=? 90)) eqn:B; [right; lia|left; lia].
  Qed.
  Lemma xml_p g s :
    (exists r, text_p lower (ascii_str "xml") g s = Res false g r)
    \/ exists x m l r, s = x :: m :: l :: r /\ (x = 120 \/ x = 88) /\ (m = 109 \/ m = 77) /\ (l = 108 \/ l = 76)
       /\ text_p lower (ascii_str "xml") g s = Res true g r.
  Proof.
    assert (E : ascii_str "xml" = [120; 109; 108]) by reflexivity. rewrite E.
    destruct s as [|x s]; [left; eexists; reflexivity|]. cbn [text_p].
    destruct (120 =? lower x) eqn:X; [|left; eexists; reflexivity].
    destruct s as [|m s]; [left; eexists; reflexivity|].
    destruct (109 =? lower m) eqn:M; [|left; eexists; reflexivity].
    destruct s as [|l s]; [left; eexists; reflexivity|].
    destruct (108 =? lower l) eqn:L; [|left; eexists; reflexivity].
    right. exists x, m, l, s. split; [reflexivity|].
    apply lower_is in X; [|lia]. apply lower_is in M; [|lia]. apply lower_is in L; [|lia].
    repeat split; try lia.
  Qed.
  Lemma r_target g t r :
    name t -> ~ says_xml t -> starts_not is_name_char r -> reads (PITarget n) g t r g.
  Proof.
    intros N X R L. unfold PITarget, diff.
    rewrite (r_name g t r N R L).
    destruct (xml_p g (t ++ r)) as [(q & E)|(x & m & l & q & E & Hx & Hm & Hl & P)].
    - rewrite E. reflexivity.
    - rewrite P. rewrite E at 1.
      replace (_ <? _)%nat with true; [reflexivity|].
      assert (HR : forall c, In c [120; 88; 109; 77; 108; 76] -> is_name_char c = true).
      { intros c I. cbn in I. repeat (destruct I as [<-|I]; [reflexivity|]). destruct I. }
      assert (G : (3 < length t)%nat).
      { destruct t as [|a [|b [|c [|d t]]]]; cbn in E.
        - destruct N as [[] _].
        - injection E as -> ->. exfalso. cbn in R. rewrite HR in R; [discriminate|].
          destruct Hm as [->| ->]; cbn; tauto.
        - injection E as -> -> ->. exfalso. cbn in R. rewrite HR in R; [discriminate|].
          destruct Hl as [->| ->]; cbn; tauto.
        - injection E as -> -> -> ->. exfalso. apply X. exists x, m, l. repeat split; assumption.
        - cbn. lia. }
      symmetry. apply Nat.ltb_lt. rewrite E. cbn [length].
      assert (K := f_equal (@length Z) E). rewrite app_length in K. cbn [length] in K. lia.
  Qed.
  Lemma r_instruction g t gap d r :
    good_instruction char t gap d ->
    exists g', reads PI_ g (write_instruction t gap d) r g' /\ tells g [PI t d] g'.
  Proof.
    intros (N & X & S & F & NE & G & B).
    exists (pi_end true [63; 62] (pi_data d (pi_target t g))). split.
    - unfold write_instruction.
      apply (r_seq _ _ _ _ _ _ _ g); [apply r_text'; reflexivity|].
      apply (r_seq _ _ _ _ _ _ _ (pi_target t g)).
      { apply r_act, r_target; [assumption|assumption|].
        destruct gap as [|c gap]; [|inversion S as [|? ? W ?]; subst].
        - destruct d; [reflexivity|]. destruct G; [discriminate|reflexivity].
        - apply white in W. cbn. unfold is_space in W. zb; subst; reflexivity. }
      assert (SP : forall q, starts_not is_space (d ++ [63; 62] ++ q)).
      { intro q. destruct d as [|c d]; [reflexivity|]. cbn. destruct (is_space c) eqn:W; [|reflexivity].
        destruct B. apply white_inv, W. }
      apply (r_seq _ _ _ _ _ _ _ (pi_target t g)).
      { apply r_opt_spaces; [assumption|]. rewrite <- app_assoc. apply SP. }
      apply (r_seq _ _ _ _ _ _ _ (pi_data d (pi_target t g))).
      2:{ apply r_act, r_text'. reflexivity. }
      apply r_act, r_opt. apply (r_seq _ _ _ _ [] d _ (pi_target t g) (pi_target t g)).
      { apply r_opt_spaces; [constructor|apply SP]. }
      apply r_star, (repeats_span _ r [63; 62]); [discriminate|apply chars_ok, F|].
      intros k L. apply clash2; assumption.
    - split; reflexivity.
  Qed.

  Lemma s_reference g s : starts_not (is 38) s -> stops Reference g s.
  Proof.
    intro S. apply s_alt; [apply s_seq_l, s_chr, S|].
    assert (E1 : ascii_str "&#" = [38; 35]) by reflexivity.
    assert (E2 : ascii_str "&#x" = [38; 35; 120]) by reflexivity.
    apply s_alt; apply s_seq_l, s_text; rewrite ?E1, ?E2; (destruct s as [|c s]; [reflexivity|]);
      unfold starts_not, is in S; cbn [clash]; rewrite S; reflexivity.
  Qed.
  Lemma r_stands g p r :
    exists g', reads Reference g (write_predefined p) r g' /\ tells g [Characters [stands_for p]] g'.
  Proof.
    exists (say true (Characters [stands_for p]) g). split; [|apply tells_say].
    set (nm := match p with Lt_ => [108; 116] | Gt_ => [103; 116] | Amp_ => [97; 109; 112]
                          | Apos_ => [97; 112; 111; 115] | Quot_ => [113; 117; 111; 116] end).
    assert (E : write_predefined p = [38] ++ nm ++ [59]) by (destruct p; reflexivity). rewrite E.
    apply r_alt_l. apply (r_seq _ _ _ _ _ _ _ g); [apply r_chr; reflexivity|].
    assert (K : say true (Characters [stands_for p]) g = entity_ref true has_errors (nm ++ [59]) g)
      by (destruct p; reflexivity).
    rewrite K. apply r_act.
    apply (r_seq _ _ _ _ _ _ _ g g); [|apply r_chr; reflexivity].
    apply r_name; [|reflexivity].
    split.
    - assert (Q : forall c, In c nm -> 97 <= c <= 122) by
        (intros c I; destruct p; cbn in I; repeat (destruct I as [<-|I]; [lia|]); destruct I).
      assert (Q' : forall c, In c nm -> among c Letter).
      { intros c I. exists 97, 122. split; [|apply Q, I]. unfold Letter, BaseChar. cbn. tauto. }
      destruct nm as [|c t]; [destruct p; discriminate|]. split; [left; apply Q'; left; reflexivity|].
      apply Forall_forall. intros d I. destruct (Q' d (or_intror I)) as (lo & hi & H1 & H2).
      exists lo, hi. split; [|exact H2]. unfold NameChar. apply in_or_app. left. exact H1.
    - destruct p; repeat constructor; unfold byte; lia.
  Qed.

  (** * Tags *)
  Definition with_attr (a : att) (g : garden) : garden :=
    attribute_value (at_value a) (attribute_name (at_name a) g).
  Lemma quote_not_space q : q = 34 \/ q = 39 -> is_space q = false.
  Proof. intros [->| ->]; reflexivity. Qed.
  Lemma space_not_name c : is_space c = true -> is_name_char c = false.
  Proof. unfold is_space. intro W. zb; subst; reflexivity. Qed.
  Lemma value_reads g q v r :
    (q = 34 \/ q = 39) -> ~ In 60 v -> ~ In 38 v -> ~ In q v ->
    reads (value_until true has_errors n q) g v ([q] ++ r) g.
  Proof.
    intros Q A B C. apply r_star.
    assert (P : Forall (fun c => negb (is 60 c) && negb (is 38 c) && negb (is q c) = true) v).
    { apply Forall_forall. intros c I. unfold is.
      destruct (Z.eqb_spec 60 c) as [<-|]; [contradiction|].
      destruct (Z.eqb_spec 38 c) as [<-|]; [contradiction|].
      destruct (Z.eqb_spec q c) as [<-|]; [contradiction|reflexivity]. }
    clear A B C. induction P as [|c v Pc P IH].
    - apply repeats_none, s_alt.
      + apply s_chr. unfold starts_not, is. cbn [app]. rewrite Z.eqb_refl. apply andb_false_r.
      + apply s_reference. destruct Q as [->| ->]; reflexivity.
    - apply (repeats_more _ _ _ [c] v _ g g); [discriminate|apply r_alt_l, r_chr, Pc|exact IH].
  Qed.
  Lemma r_attribute g a r :
    good_att a -> reads (seq (Spaces n) (Attribute true has_errors n)) g (write_att a) r (with_attr a g).
  Proof.
    intros (S & SN & N & S1 & S2 & Q & V1 & V2 & V3). unfold write_att.
    assert (NS : forall q, starts_not is_space (at_name a ++ q)).
    { intro q. destruct N as [N B]. destruct (at_name a) as [|c t]; [destruct N|]. destruct N as [C _].
      inversion B; subst. apply letter_start in C; [|assumption]. cbn.
      destruct (is_space c) eqn:W; [|reflexivity].
      unfold is_space in W. zb; subst; discriminate. }
    apply (r_seq _ _ _ _ _ _ _ g).
    { apply r_spaces; [assumption|assumption|]. rewrite <- app_assoc. apply NS. }
    apply (r_seq _ _ _ _ _ _ _ (attribute_name (at_name a) g)).
    { apply r_act, r_name; [assumption|].
      destruct (at_eq1 a) as [|c s]; [reflexivity|]. inversion S1; subst. cbn.
      apply space_not_name, white. assumption. }
    apply (r_seq' _ _ _ _ _ (at_eq1 a ++ [61] ++ at_eq2 a) ([at_quote a] ++ at_value a ++ [at_quote a]) _
             (attribute_name (at_name a) g)).
    { rewrite <- !app_assoc. reflexivity. }
    { apply r_eq; [assumption|assumption|]. cbn. apply quote_not_space, Q. }
    assert (V : forall q, at_quote a = q -> (q = 34 \/ q = 39) ->
      reads (seq (chr (is q)) (seq (act attribute_value (value_until true has_errors n q)) (chr (is q))))
        (attribute_name (at_name a) g) ([at_quote a] ++ at_value a ++ [at_quote a]) r (with_attr a g)).
    { intros q E Hq. rewrite E in *.
      apply (r_seq _ _ _ _ _ _ _ (attribute_name (at_name a) g)); [apply r_chr; unfold is; apply Z.eqb_refl|].
      apply (r_seq _ _ _ _ _ _ _ (with_attr a g)).
      - apply r_act, value_reads; assumption.
      - apply r_chr. unfold is. apply Z.eqb_refl. }
    destruct Q as [Q|Q].
    - apply r_alt_l, V; [exact Q|left; reflexivity].
    - apply r_alt_r; [|apply V; [exact Q|right; reflexivity]].
      apply s_seq_l, s_chr. rewrite Q. reflexivity.
  Qed.
  Fixpoint with_attrs (l : list att) (g : garden) : garden :=
    match l with [] => g | a :: l => with_attrs l (with_attr a g) end.
  Lemma with_attrs_says l : forall g,
    g_attrs (with_attrs l g) = g_attrs g ++ map att_told l /\ g_heard (with_attrs l g) = g_heard g
    /\ g_elements (with_attrs l g) = g_elements g.
  Proof.
    induction l as [|a l IH]; intro g; cbn; [split; [symmetry; apply app_nil_r|split; reflexivity]|].
    destruct (IH (with_attr a g)) as (A & B & C). rewrite A, B, C. cbn. rewrite <- app_assoc.
    repeat split; reflexivity.
  Qed.
  Lemma r_attributes atts tail r : Forall good_att atts -> space tail ->
    starts_not is_space r -> starts_not is_name_start r ->
    forall g, repeats n (seq (Spaces n) (Attribute true has_errors n)) g (flat_map write_att atts) (tail ++ r) (with_attrs atts g).
  Proof.
    intros F T R1 R2. induction F as [|a l A F IH]; intro g; cbn.
    - apply repeats_none. destruct tail as [|c tail].
      + apply s_seq_l, s_spaces, R1.
      + apply (s_seq_r _ _ _ g (c :: tail) r); [|apply s_seq_l, s_act, s_name, R2|reflexivity].
        apply r_spaces; [assumption|discriminate|assumption].
    - apply (repeats_more _ _ _ _ _ _ (with_attr a g)); [|apply r_attribute, A|apply IH].
      destruct A as (_ & N & _). unfold write_att. destruct (at_gap a); [contradiction|discriminate].
  Qed.
  Lemma atts_end atts tail r : Forall good_att atts -> space tail -> starts_not is_name_char r ->
    starts_not is_name_char (flat_map write_att atts ++ tail ++ r).
  Proof.
    intros F T R. destruct F as [|a l A F]; cbn.
    - destruct tail as [|c tail]; [exact R|]. inversion T; subst. cbn. apply space_not_name, white. assumption.
    - destruct A as (S & N & _). unfold write_att. destruct (at_gap a) as [|c q]; [contradiction|].
      inversion S; subst. cbn. apply space_not_name, white. assumption.
  Qed.
  Lemma r_stag g nm atts tail r :
    name nm -> Forall good_att atts -> space tail ->
    starts_not is_space r -> starts_not is_name_char r -> starts_not is_name_start r ->
    reads (STag true has_errors n) g (write_start nm atts tail) r (with_attrs atts (open_element nm g)).
  Proof.
    intros N F T R1 R2 R3. unfold write_start.
    apply (r_seq _ _ _ _ _ _ _ g); [apply r_chr; reflexivity|].
    apply (r_seq _ _ _ _ _ _ _ (open_element nm g)).
    { apply r_act, r_name; [assumption|]. rewrite <- app_assoc. apply atts_end; assumption. }
    apply (r_seq _ _ _ _ _ _ _ (with_attrs atts (open_element nm g))).
    - apply r_star, r_attributes; assumption.
    - apply r_opt_spaces; assumption.
  Qed.

  (** * Nodes *)
  Section NodeInd.
    Context (P : node -> Prop)
      (HE : forall n a t, P (Empty_ n a t))
      (HF : forall n a t f kids t', Forall (fun k => P (fst k)) kids -> P (Full_ n a t f kids t'))
      (HS : forall p, P (Stands p)) (HC : forall s, P (Section_ s)) (HR : forall s, P (Remark_ s))
      (HI : forall t g d, P (Instruction_ t g d)).
    Fixpoint node_ind2 (x : node) : P x :=
      match x with
      | Empty_ n a t => HE n a t
      | Full_ n a t f kids t' =>
          HF n a t f kids t'
            ((fix go (l : list (node * str)) : Forall (fun k => P (fst k)) l :=
                match l with
                | [] => Forall_nil _
                | k :: r => Forall_cons k (node_ind2 (fst k)) (go r)
                end) kids)
      | Stands p => HS p | Section_ s => HC s | Remark_ s => HR s | Instruction_ t g d => HI t g d
      end.
  End NodeInd.

  Definition item (d : nat) : parser := alt (element d) (alt Reference (alt CDSect (alt Comment_ PI_))).
  Lemma e1 : ascii_str "<![CDATA[" = [60; 33; 91; 67; 68; 65; 84; 65; 91]. Proof. reflexivity. Qed.
  Lemma e2 : ascii_str "<!--" = [60; 33; 45; 45]. Proof. reflexivity. Qed.
  Lemma e3 : ascii_str "<?" = [60; 63]. Proof. reflexivity. Qed.
  Lemma e4 : ascii_str "</" = [60; 47]. Proof. reflexivity. Qed.
  Lemma e5 : ascii_str "/>" = [47; 62]. Proof. reflexivity. Qed.
  Lemma e6 : ascii_str "<?xml" = [60; 63; 120; 109; 108]. Proof. reflexivity. Qed.
  Lemma e7 : ascii_str "<!DOCTYPE" = [60; 33; 68; 79; 67; 84; 89; 80; 69]. Proof. reflexivity. Qed.
  Lemma s_section g s : clash [60; 33; 91; 67; 68; 65; 84; 65; 91] s = true -> stops CDSect g s.
  Proof. intro C. apply s_seq_l, s_text. rewrite e1. exact C. Qed.
  Lemma s_remark g s : clash [60; 33; 45; 45] s = true -> stops Comment_ g s.
  Proof. intro C. apply s_seq_l, s_text. rewrite e2. exact C. Qed.
  Lemma s_instruction g s : clash [60; 63] s = true -> stops PI_ g s.
  Proof. intro C. apply s_seq_l, s_text. rewrite e3. exact C. Qed.

  (** An element does not begin here. *)
  Definition no_element (s : str) : Prop :=
    match s with 60 :: t => starts_not is_name_start t | _ => True end.
  Lemma s_element d g s : (0 < d)%nat -> no_element s -> stops (element d) g s.
  Proof.
    intros D E. destruct d as [|d]; [lia|].
    cbn [Garden.element]. intro L. refine (s_seq_l n _ _ g s _ L). clear L.
    destruct s as [|c s]; [apply s_seq_l, s_chr; exact I|].
    destruct (Z.eq_dec c 60) as [->|N].
    - apply (s_seq_r _ _ _ g [60] s); [apply r_chr; reflexivity| |reflexivity].
      apply s_seq_l, s_act, s_name, E.
    - apply s_seq_l, s_chr. unfold starts_not, is. apply Z.eqb_neq. congruence.
  Qed.

  Lemma name_first t r : name t -> exists c q, t ++ r = c :: q /\ is_name_start c = true.
  Proof.
    intros [N B]. destruct t as [|c t]; [destruct N|]. inversion B; subst. exists c, (t ++ r).
    split; [reflexivity|]. apply letter_start; [assumption|apply N].
  Qed.
  Lemma markup_write x r : markup (write x ++ r).
  Proof. destruct x as [| |[]| | |]; cbn; tauto. Qed.

  Lemma with_attrs_close l nm g :
    tells g [StartElement [] nm [] (map att_told l)]
      (pop (close_element true [62] (with_attrs l (open_element nm g))))
    /\ g_elements (close_element true [62] (with_attrs l (open_element nm g))) = nm :: g_elements g.
  Proof.
    destruct (with_attrs_says l (open_element nm g)) as (A & B & C).
    unfold close_element, say, pop, tells, top. cbn [g_heard g_elements g_attrs g_attr g_target g_data].
    rewrite A, B, C. repeat split; reflexivity.
  Qed.

  Definition node_read (x : node) : Prop :=
    good char x -> forall d g r, (length (write x ++ r) < d)%nat ->
    exists g', reads (item d) g (write x) r g' /\ tells g (told x) g'.

  Lemma content_read d g first kids r :
    Forall (fun k => node_read (fst k)) kids ->
    good_text first -> Forall (fun k => good char (fst k) /\ good_text (snd k)) kids ->
    (length (first ++ flat_map (fun k => write (fst k) ++ snd k) kids ++ [60; 47]%Z ++ r) < d)%nat ->
    exists g', reads (content signed true has_errors n (element d)) g
                 (first ++ flat_map (fun k => write (fst k) ++ snd k) kids) ([60; 47] ++ r) g'
               /\ tells g (text_told first ++ flat_map (fun k => told (fst k) ++ text_told (snd k)) kids) g'.
  Proof.
    intros H F G L.
    assert (M : forall l, markup (flat_map (fun k => write (fst k) ++ snd k) l ++ [60; 47] ++ r)).
    { intros [|[x t] l]; [left; reflexivity|]. cbn [flat_map fst snd]. rewrite <- !app_assoc. apply markup_write. }
    destruct (r_chardata g first _ F (M kids)) as (g1 & R1 & T1).
    assert (K : exists g', repeats n (seq (item d) (opt CharData)) g1
                 (flat_map (fun k => write (fst k) ++ snd k) kids) ([60; 47] ++ r) g'
               /\ tells g1 (flat_map (fun k => told (fst k) ++ text_told (snd k)) kids) g').
    { rewrite app_length in L.
      assert (L' : (length (flat_map (fun k => write (fst k) ++ snd k) kids ++ [60; 47]%Z ++ r) < d)%nat) by lia.
      clear L R1 T1 F. revert g1. induction kids as [|[x t] kids IH]; intro g1.
      - exists g1. split; [|apply tells_none]. cbn [flat_map].
        apply repeats_none, s_seq_l. cbn [flat_map app] in *.
        apply s_alt; [apply s_element; [cbn in L'; lia|reflexivity]|].
        apply s_alt; [apply s_reference; reflexivity|].
        apply s_alt; [apply s_section; reflexivity|].
        apply s_alt; [apply s_remark; reflexivity|apply s_instruction; reflexivity].
      - cbn [flat_map fst snd] in *. inversion H as [|? ? Hx Hk]; subst. inversion G as [|? ? Gx Gk]; subst.
        cbn [fst snd] in *. destruct Gx as [Gx Gt].
        rewrite <- !app_assoc in L'.
        destruct (Hx Gx d g1 _ L') as (g2 & R2 & T2).
        destruct (r_chardata g2 t _ Gt (M kids)) as (g3 & R3 & T3).
        destruct (IH Hk Gk) with (g1 := g3) as (g4 & R4 & T4).
        { rewrite !app_length in *. lia. }
        exists g4. split.
        + apply (repeats_more _ _ _ _ _ _ g3).
          * destruct x as [| |[]| | |]; discriminate.
          * apply (r_seq _ _ _ _ _ _ _ g2); [exact R2|]. apply r_opt. exact R3.
          * exact R4.
        + apply (tells_app _ _ g3); [|exact T4]. apply (tells_app _ _ g2); assumption. }
    destruct K as (g2 & R2 & T2). exists g2. split.
    - unfold content. apply (r_seq _ _ _ _ _ _ _ g1); [apply r_opt; exact R1|]. apply r_star, R2.
    - apply (tells_app _ _ g1); assumption.
  Qed.

  Lemma r_item_element d g t r g' : reads (element d) g t r g' -> reads (item d) g t r g'.
  Proof. apply r_alt_l. Qed.
  Lemma element_read_empty d g nm atts tail r :
    good char (Empty_ nm atts tail) -> (0 < d)%nat ->
    exists g', reads (element d) g (write (Empty_ nm atts tail)) r g' /\ tells g (told (Empty_ nm atts tail)) g'.
  Proof.
    intros G D. inversion G as [? ? ? N F T| | | | |]; subst. destruct d as [|d]; [lia|].
    exists (close_empty true [47; 62] (with_attrs atts (open_element nm g))). split.
    - cbn [write]. intro L. cbn [Garden.element]. revert L.
      apply (r_seq _ _ _ _ _ _ _ (with_attrs atts (open_element nm g))).
      + apply r_stag; try assumption; reflexivity.
      + apply r_alt_l, r_act, r_text'. reflexivity.
    - destruct (with_attrs_says atts (open_element nm g)) as (A & B & C).
      unfold close_empty, say, pop, tells, top. cbn [g_heard g_elements g_attrs g_attr g_target g_data].
      rewrite A, B, C. cbn. split; [rewrite <- app_assoc; reflexivity|reflexivity].
  Qed.
  Lemma element_read_full d g nm atts tail first kids tail' r :
    Forall (fun k => node_read (fst k)) kids ->
    good char (Full_ nm atts tail first kids tail') ->
    (length (write (Full_ nm atts tail first kids tail') ++ r) < d)%nat ->
    exists g', reads (element d) g (write (Full_ nm atts tail first kids tail')) r g'
               /\ tells g (told (Full_ nm atts tail first kids tail')) g'.
  Proof.
    intros H G L. inversion G as [|? ? ? ? ? ? N F T TX K T'| | | |]; subst.
    destruct d as [|d]; [lia|].
    set (g0 := close_element true [62] (with_attrs atts (open_element nm g))).
    destruct (with_attrs_close atts nm g) as [[W1 W2] W3]. fold g0 in W1, W2, W3.
    assert (L' : (length (first ++ flat_map (fun k => write (fst k) ++ snd k) kids ++ [60; 47]%Z ++ (nm ++ tail' ++ [62]%Z) ++ r) < d)%nat).
    { cbn [write] in L. unfold write_start in L. rewrite !app_length in *. cbn [length] in *. lia. }
    destruct (content_read d g0 first kids ((nm ++ tail' ++ [62]) ++ r) H TX K L') as (g1 & R1 & [T1 T1']).
    exists (end_element true ([60; 47] ++ nm ++ tail' ++ [62]) g1). split.
    - cbn [write]. intro Q. cbn [Garden.element]. revert Q.
      apply (r_seq _ _ _ _ _ _ _ (with_attrs atts (open_element nm g))).
      { apply r_stag; try assumption; reflexivity. }
      apply r_alt_r.
      { apply s_act, s_text. rewrite e5. reflexivity. }
      apply (r_seq _ _ _ _ _ _ _ g0).
      { apply r_act, r_text. }
      apply (r_seq' _ _ _ _ _ (first ++ flat_map (fun k => write (fst k) ++ snd k) kids) ([60; 47] ++ nm ++ tail' ++ [62]) r g1).
      { rewrite <- !app_assoc. reflexivity. }
      { rewrite <- !app_assoc. rewrite <- !app_assoc in R1. exact R1. }
      unfold ETag. apply r_act.
      apply (r_seq _ _ _ _ _ _ _ g1); [apply r_text'; reflexivity|].
      assert (E : end_name has_errors nm g1 = g1).
      { unfold end_name, top. rewrite T1', W3. cbn [hd].
        replace (str_eqb nm nm) with true; [reflexivity|].
        symmetry. apply ContainersProof.str_eqb_true. reflexivity. }
      apply (r_seq _ _ _ _ _ _ _ g1).
      { rewrite <- E at 2. apply r_act, r_name; [assumption|].
        destruct tail' as [|c q]; [reflexivity|]. inversion T'; subst. cbn. apply space_not_name, white. assumption. }
      apply (r_seq _ _ _ _ _ _ _ g1); [apply r_opt_spaces; [assumption|reflexivity]|].
      apply r_chr. reflexivity.
    - assert (Q : top g1 = nm) by (unfold top; rewrite T1', W3; reflexivity).
      unfold end_element, pop, say, tells. cbn [g_heard g_elements]. rewrite Q, T1, T1', W3.
      unfold pop in W1. cbn [g_heard] in W1. rewrite W1. split; [|reflexivity].
      cbn [told]. rewrite !map_app, <- !app_assoc. reflexivity.
  Qed.

  Lemma all_read x : node_read x.
  Proof.
    induction x as [nm a t|nm a t f kids t' IH|p|s|s|t gp dt] using node_ind2; intros G d g r L.
    - destruct (element_read_empty d g nm a t r G) as (g' & R & T); [lia|].
      exists g'. split; [apply r_item_element, R|exact T].
    - destruct (element_read_full d g nm a t f kids t' r IH G L) as (g' & R & T).
      exists g'. split; [apply r_item_element, R|exact T].
    - destruct (r_stands g p r) as (g' & R & T). exists g'. split; [|exact T].
      apply r_alt_r; [|apply r_alt_l, R]. apply s_element; [lia|]. destruct p; exact I.
    - inversion G as [| | |? G'| |]; subst. destruct (r_section g s r G') as (g' & R & T).
      exists g'. split; [|exact T].
      apply r_alt_r; [apply s_element; [lia|reflexivity]|].
      apply r_alt_r; [apply s_reference; reflexivity|]. apply r_alt_l, R.
    - inversion G as [| | | |? G'|]; subst. exists g. split; [|apply tells_none].
      apply r_alt_r; [apply s_element; [lia|reflexivity]|].
      apply r_alt_r; [apply s_reference; reflexivity|].
      apply r_alt_r; [apply s_section; reflexivity|]. apply r_alt_l, r_remark, G'.
    - inversion G as [| | | | |? ? ? G']; subst. destruct (r_instruction g t gp dt r G') as (g' & R & T).
      exists g'. split; [|exact T].
      apply r_alt_r; [apply s_element; [lia|reflexivity]|].
      apply r_alt_r; [apply s_reference; reflexivity|].
      apply r_alt_r; [apply s_section; reflexivity|].
      apply r_alt_r; [apply s_remark; reflexivity|]. exact R.
  Qed.
  Lemma root_read d g x r :
    is_element x -> good char x -> (length (write x ++ r) < d)%nat ->
    exists g', reads (element d) g (write x) r g' /\ tells g (told x) g'.
  Proof.
    intros E G L. destruct x; try destruct E.
    - apply element_read_empty; [exact G|lia].
    - apply element_read_full; [|exact G|exact L]. apply Forall_forall. intros k _. apply all_read.
  Qed.

  (** * The document *)
  Notation Misc := (Garden.Misc signed true n).
  Definition after_misc (r : str) : Prop :=
    starts_not is_space r /\ clash [60; 33; 45; 45] r = true /\ clash [60; 63] r = true.
  Lemma s_misc g r : after_misc r -> stops Misc g r.
  Proof.
    intros (A & B & C). apply s_alt; [apply s_remark, B|].
    apply s_alt; [apply s_spaces, A|apply s_instruction, C].
  Qed.
  Lemma spaces_misc g sp t r g' :
    space sp -> starts_not is_space (t ++ r) -> repeats n Misc g t r g' -> repeats n Misc g (sp ++ t) r g'.
  Proof.
    intros S N R. destruct sp as [|c sp]; [exact R|].
    apply (repeats_more _ _ _ (c :: sp) t r g); [discriminate| |exact R].
    apply r_alt_r.
    - apply s_remark. inversion S as [|? ? W ?]; subst. apply white in W.
      unfold is_space in W. zb; subst; reflexivity.
    - apply r_alt_l, r_spaces; [exact S|discriminate|exact N].
  Qed.
  Lemma misc_first x r : is_misc x -> starts_not is_space (write x ++ r).
  Proof. destruct x; try contradiction; reflexivity. Qed.
  Lemma r_misc g m r :
    good_misc char m -> after_misc r ->
    exists g', reads (star n Misc) g (write_misc m) r g' /\ tells g (misc_told m) g'.
  Proof.
    intros [S F] A. destruct m as [sp items]. unfold write_misc, misc_told. cbn [m_space m_items] in *.
    assert (SP : forall l, Forall (fun k => is_misc (fst k) /\ good char (fst k) /\ space (snd k)) l ->
                 starts_not is_space (flat_map (fun k : node * str => write (fst k) ++ snd k) l ++ r)).
    { intros l H. destruct H as [|k l [I _] H]; [apply A|]. cbn [flat_map]. rewrite <- !app_assoc.
      apply misc_first, I. }
    assert (K : exists g', repeats n Misc g (flat_map (fun k => write (fst k) ++ snd k) items) r g'
                /\ tells g (flat_map (fun k => told (fst k)) items) g').
    { revert g. induction F as [|[x t] items (I & G & T) F IH]; intro g.
      - exists g. split; [apply repeats_none, s_misc, A|apply tells_none].
      - cbn [flat_map fst snd] in *.
        assert (R1 : exists g1, reads Misc g (write x) (t ++ flat_map (fun k => write (fst k) ++ snd k) items ++ r) g1
                     /\ tells g (told x) g1).
        { destruct x; try contradiction.
          - inversion G as [| | | |? G'|]; subst. exists g. split; [|apply tells_none].
            apply r_alt_l, r_remark, G'.
          - inversion G as [| | | | |? ? ? G']; subst.
            destruct (r_instruction g target gap data (t ++ flat_map (fun k => write (fst k) ++ snd k) items ++ r) G')
              as (g1 & R & T1).
            exists g1. split; [|exact T1].
            apply r_alt_r; [apply s_remark; reflexivity|].
            apply r_alt_r; [apply s_spaces; reflexivity|exact R]. }
        destruct R1 as (g1 & R1 & T1). destruct (IH g1) as (g2 & R2 & T2).
        exists g2. split; [|apply (tells_app _ _ g1); assumption].
        rewrite <- app_assoc. apply (repeats_more _ _ _ (write x) _ r g1).
        + destruct x as [| |[]| | |]; discriminate.
        + rewrite <- app_assoc. exact R1.
        + apply spaces_misc; [exact T|apply SP, F|exact R2]. }
    destruct K as (g' & R & T). exists g'. split; [|exact T].
    apply r_star, spaces_misc; [exact S|apply SP, F|exact R].
  Qed.

  Definition either (q1 q2 : Z) (p : parser) : parser :=
    alt (seq (chr (is q1)) (seq p (chr (is q1)))) (seq (chr (is q2)) (seq p (chr (is q2)))).
  Lemma r_either g q1 q2 q p v r :
    (q = q1 \/ q = q2) -> reads p g v ([q] ++ r) g -> reads (either q1 q2 p) g ([q] ++ v ++ [q]) r g.
  Proof.
    intros Q R.
    assert (K : reads (seq (chr (is q)) (seq p (chr (is q)))) g ([q] ++ v ++ [q]) r g).
    { apply (r_seq _ _ _ _ _ _ _ g); [apply r_chr; unfold is; apply Z.eqb_refl|].
      apply (r_seq _ _ _ _ _ _ _ g); [exact R|apply r_chr; unfold is; apply Z.eqb_refl]. }
    destruct (Z.eq_dec q q1) as [->|N]; [apply r_alt_l, K|].
    destruct Q as [->| ->]; [contradiction|].
    apply r_alt_r; [|exact K]. apply s_seq_l, s_chr. unfold starts_not, is. cbn [app].
    apply Z.eqb_neq. congruence.
  Qed.
  Definition pseudo_p (nm : str) (q1 q2 : Z) (p : parser) : parser :=
    seq (Spaces n) (seq (str_p nm) (seq (Eq n) (either q1 q2 p))).
  Lemma r_pseudo g nm value ps q1 q2 p r :
    good_pseudo value ps -> (ps_quote ps = 34 \/ ps_quote ps = 39 -> ps_quote ps = q1 \/ ps_quote ps = q2) ->
    (exists c t, nm = c :: t /\ is_space c = false) ->
    (value (ps_value ps) -> reads p g (ps_value ps) ([ps_quote ps] ++ r) g) ->
    reads (pseudo_p nm q1 q2 p) g (write_pseudo nm ps) r g.
  Proof.
    intros (S & SN & S1 & S2 & Q & V) Q' (c & t & NM & NS) R. unfold write_pseudo, pseudo_p.
    apply (r_seq _ _ _ _ _ _ _ g); [apply r_spaces; [assumption|assumption|]|].
    { rewrite NM. exact NS. }
    apply (r_seq _ _ _ _ _ _ _ g); [apply r_text|].
    apply (r_seq' _ _ _ _ _ (ps_eq1 ps ++ [61] ++ ps_eq2 ps) ([ps_quote ps] ++ ps_value ps ++ [ps_quote ps]) _ g).
    { rewrite <- !app_assoc. reflexivity. }
    { apply r_eq; [assumption|assumption|]. cbn. apply quote_not_space, Q. }
    apply r_either; [apply Q', Q|apply R, V].
  Qed.
  Lemma s_pseudo g nm q1 q2 p sp r :
    space sp -> starts_not is_space r -> clash nm r = true -> stops (pseudo_p nm q1 q2 p) g (sp ++ r).
  Proof.
    intros S N C. destruct sp as [|c sp]; [apply s_seq_l, s_spaces, N|].
    apply (s_seq_r _ _ _ g (c :: sp) r); [|apply s_seq_l, s_text, C|reflexivity].
    apply r_spaces; [exact S|discriminate|exact N].
  Qed.

  Lemma v_version g s q r : version s -> (q = 34 \/ q = 39) -> reads (plus n (chr is_version)) g s ([q] ++ r) g.
  Proof.
    intros [N F] Q. apply r_plus_chr; [exact N| |destruct Q as [->| ->]; reflexivity].
    eapply Forall_impl; [|exact F]. intros c (lo & hi & I & B). cbn in I.
    unfold is_version, between, is_digit, between.
    repeat (destruct I as [[= <- <-]|I]; [zdec|]). destruct I.
  Qed.
  Lemma v_encoding g s q r : encoding s -> (q = 34 \/ q = 39) -> reads (EncName n) g s ([q] ++ r) g.
  Proof.
    intros E Q. destruct s as [|c s]; [destruct E|]. destruct E as [C F].
    apply (r_seq' _ _ _ _ _ [c] s _ g); [reflexivity|apply r_chr|apply r_star_chr].
    - destruct C as (lo & hi & I & B). cbn in I. unfold is_alpha, between.
      repeat (destruct I as [[= <- <-]|I]; [zdec|]). destruct I.
    - eapply Forall_impl; [|exact F]. intros d [(lo & hi & I & B) N]. cbn in I.
      unfold is_version, between, is_digit, between, is.
      repeat (destruct I as [[= <- <-]|I]; [zdec|]). destruct I.
    - destruct Q as [->| ->]; reflexivity.
  Qed.
  Lemma v_yes_no g s q r : yes_no s -> (q = 34 \/ q = 39) ->
    reads (alt (str_p (ascii_str "yes")) (str_p (ascii_str "no"))) g s ([q] ++ r) g.
  Proof.
    intros [->| ->] Q.
    - apply r_alt_l, r_text'. reflexivity.
    - apply r_alt_r; [apply s_text; reflexivity|apply r_text'; reflexivity].
  Qed.

  Lemma swap q : q = 34 \/ q = 39 -> q = 39 \/ q = 34. Proof. tauto. Qed.
  Lemma r_declaration g d r : good_declaration d -> reads (XMLDecl n) g (write_declaration d) r g.
  Proof.
    intros (V & E & SD & T). unfold write_declaration.
    assert (P : forall x y, ps_quote x = y -> good_pseudo version x -> y = 34 \/ y = 39)
      by (intros x y <- (_ & _ & _ & _ & Q & _); exact Q).
    apply (r_seq _ _ _ _ _ _ _ g); [apply r_text'; reflexivity|].
    apply (r_seq _ _ _ _ _ _ _ g).
    { apply (r_pseudo g [118; 101; 114; 115; 105; 111; 110] version (d_version d) 39 34); [exact V|apply swap| |].
      - exists 118. eexists. split; reflexivity.
      - intro K. apply v_version; [exact K|]. apply V. }
    set (sd := write_option (write_pseudo [115; 116; 97; 110; 100; 97; 108; 111; 110; 101]) (d_standalone d)).
    apply (r_seq _ _ _ _ _ _ _ g).
    { destruct (d_encoding d) as [e|]; cbn [write_option if_given] in *.
      - apply r_opt.
        apply (r_pseudo g [101; 110; 99; 111; 100; 105; 110; 103] encoding e 34 39); [exact E|tauto| |].
        + exists 101. eexists. split; reflexivity.
        + intro K. apply v_encoding; [exact K|]. apply E.
      - apply r_opt_none. unfold sd. destruct (d_standalone d) as [s|]; cbn [write_option if_given] in *.
        + unfold write_pseudo. rewrite <- !app_assoc.
          apply (s_pseudo g [101; 110; 99; 111; 100; 105; 110; 103] 34 39); [apply SD|reflexivity|reflexivity].
        + cbn [app]. rewrite <- app_assoc.
          apply (s_pseudo g [101; 110; 99; 111; 100; 105; 110; 103] 34 39); [exact T|reflexivity|reflexivity]. }
    apply (r_seq _ _ _ _ _ _ _ g).
    { unfold sd. destruct (d_standalone d) as [s|]; cbn [write_option if_given] in *.
      - apply r_opt.
        apply (r_pseudo g [115; 116; 97; 110; 100; 97; 108; 111; 110; 101] yes_no s 39 34); [exact SD|apply swap| |].
        + exists 115. eexists. split; reflexivity.
        + intro K. apply v_yes_no; [exact K|]. apply SD.
      - apply r_opt_none. rewrite <- app_assoc.
        apply (s_pseudo g [115; 116; 97; 110; 100; 97; 108; 111; 110; 101] 39 34); [exact T|reflexivity|reflexivity]. }
    apply (r_seq _ _ _ _ _ _ _ g); [apply r_opt_spaces; [exact T|reflexivity]|].
    apply r_text'. reflexivity.
  Qed.

  Lemma s_declaration_text g s : clash [60; 63; 120; 109; 108] s = true -> stops (XMLDecl n) g s.
  Proof. intro C. apply s_seq_l, s_text. rewrite e6. exact C. Qed.
  Lemma s_declaration_pi g t gap d r :
    good_instruction char t gap d -> stops (XMLDecl n) g (write_instruction t gap d ++ r).
  Proof.
    intros (N & X & S & F & NE & G & B).
    unfold write_instruction. rewrite <- !app_assoc.
    assert (R : starts_not is_name_char (gap ++ d ++ [63; 62] ++ r)).
    { destruct gap as [|c gap]; [|inversion S as [|? ? W ?]; subst; cbn; apply space_not_name, white, W].
      destruct d; [reflexivity|]. destruct G; [discriminate|reflexivity]. }
    set (q := gap ++ d ++ [63; 62] ++ r) in *.
    destruct (clash [60; 63; 120; 109; 108] ([60; 63] ++ t ++ q)) eqn:C; [apply s_declaration_text, C|].
    destruct N as [N BT].
    destruct t as [|a [|b [|c [|e t]]]]; cbn in N; try contradiction.
    - exfalso. destruct q as [|x q]; [cbn [clash app] in C; rewrite !orb_true_r in C; discriminate|].
      cbn [clash app] in C. repeat (apply orb_false_iff in C; destruct C as [? C]).
      repeat match goal with H : negb (_ =? _) = false |- _ => apply negb_false_iff, Z.eqb_eq in H end.
      subst x. discriminate R.
    - exfalso. destruct q as [|x q]; [cbn [clash app] in C; rewrite !orb_true_r in C; discriminate|].
      cbn [clash app] in C. repeat (apply orb_false_iff in C; destruct C as [? C]).
      repeat match goal with H : negb (_ =? _) = false |- _ => apply negb_false_iff, Z.eqb_eq in H end.
      subst x. discriminate R.
    - exfalso. cbn [clash app] in C. repeat (apply orb_false_iff in C; destruct C as [? C]).
      apply X. exists a, b, c. split; [reflexivity|].
      repeat match goal with H : negb (_ =? _) = false |- _ => apply negb_false_iff, Z.eqb_eq in H end.
      repeat split; left; congruence.
    - cbn [clash app] in C. repeat (apply orb_false_iff in C; destruct C as [? C]).
      repeat match goal with H : negb (_ =? _) = false |- _ => apply negb_false_iff, Z.eqb_eq in H end.
      subst a b c.
      destruct N as [_ NT]. inversion NT as [|? ? _ NT1]; subst. inversion NT1 as [|? ? _ NT2]; subst.
      inversion NT2 as [|? ? Ne _]; subst.
      apply (s_seq_r _ _ _ g [60; 63; 120; 109; 108] (e :: t ++ q)); [apply r_text'; reflexivity| |reflexivity].
      apply s_seq_l, s_seq_l, s_spaces. cbn. destruct (is_space e) eqn:W; [|reflexivity].
      apply space_not_name in W. rewrite name_char in W; [discriminate| |exact Ne].
      inversion BT as [|? ? _ B1]; subst. inversion B1 as [|? ? _ B2]; subst. inversion B2 as [|? ? _ B3]; subst.
      inversion B3; subst. assumption.
  Qed.
  Lemma s_declaration_misc g m r :
    good_misc char m -> (m_space m = [] -> m_items m = [] -> clash [60; 63; 120; 109; 108] r = true) ->
    stops (XMLDecl n) g (write_misc m ++ r).
  Proof.
    intros [S F] R. destruct m as [sp items]. unfold write_misc. cbn [m_space m_items] in *.
    destruct sp as [|c sp].
    - destruct F as [|[x t] l (I & G & _) F]; [apply s_declaration_text, R; reflexivity|].
      cbn [flat_map fst snd app] in *. rewrite <- !app_assoc.
      destruct x; try contradiction.
      + apply s_declaration_text. reflexivity.
      + inversion G; subst. apply s_declaration_pi. assumption.
    - apply s_declaration_text. inversion S as [|? ? W ?]; subst. apply white in W.
      unfold is_space in W. zb; subst; reflexivity.
  Qed.

  Lemma r_doctype g t r :
    good_doctype char t -> after_misc r ->
    exists g', reads (seq (doctypedecl signed n) (star n Misc)) g (write_doctype t) r g'
               /\ tells g (misc_told (t_after t)) g'.
  Proof.
    intros (F & N1 & N2 & SUB & M) A.
    destruct (r_misc g (t_after t) r M A) as (g' & R & T). exists g'. split; [|exact T].
    unfold write_doctype.
    apply (r_seq' _ _ _ _ _ ([60; 33; 68; 79; 67; 84; 89; 80; 69] ++ t_start t
             ++ write_option (fun s => [91] ++ s ++ [93]) (t_subset t) ++ [62]) (write_misc (t_after t)) r g).
    { rewrite <- !app_assoc. reflexivity. }
    2:{ exact R. }
    apply (r_seq _ _ _ _ _ _ _ g); [apply r_text'; reflexivity|].
    apply (r_seq _ _ _ _ _ _ _ g).
    { apply r_star_chr.
      - apply Forall_forall. intros c I. rewrite Forall_forall in F. rewrite (char_ok c (F c I)). unfold is.
        destruct (Z.eqb_spec 91 c) as [<-|]; [contradiction|].
        destruct (Z.eqb_spec 62 c) as [<-|]; [contradiction|reflexivity].
      - destruct (t_subset t); cbn; apply andb_false_r. }
    apply (r_seq _ _ _ _ _ _ _ g); [|apply r_chr; reflexivity].
    destruct (t_subset t) as [s|]; cbn [write_option if_given] in *.
    - destruct SUB as [FS NS]. apply r_opt.
      apply (r_seq _ _ _ _ _ _ _ g); [apply r_chr; reflexivity|].
      apply (r_seq _ _ _ _ _ _ _ g); [|apply r_chr; reflexivity].
      apply r_star_chr.
      + apply Forall_forall. intros c I. rewrite Forall_forall in FS. rewrite (char_ok c (FS c I)). unfold is.
        destruct (Z.eqb_spec 93 c) as [<-|]; [contradiction|reflexivity].
      + cbn. apply andb_false_r.
    - apply r_opt_none, s_seq_l, s_chr. reflexivity.
  Qed.

  Lemma root_first x r : is_element x -> good char x ->
    exists c q, write x ++ r = 60 :: c :: q /\ is_name_start c = true.
  Proof.
    intros E G. destruct x; try destruct E.
    - inversion G as [? ? ? N _ _| | | | |]; subst. cbn [write]. unfold write_start. rewrite <- !app_assoc.
      destruct (name_first n0 (flat_map write_att atts ++ tail ++ [47; 62] ++ r) N) as (c & q & K & C).
      exists c, q. split; [cbn [app] in *; rewrite K; reflexivity|exact C].
    - inversion G as [|? ? ? ? ? ? N _ _ _ _ _| | | |]; subst. cbn [write]. unfold write_start. rewrite <- !app_assoc.
      destruct (name_first n0 (flat_map write_att atts ++ tail ++ [62] ++ first ++ flat_map (fun k => write (fst k) ++ snd k) kids
        ++ [60; 47] ++ n0 ++ tail' ++ [62] ++ r) N) as (c & q & K & C).
      exists c, q. split; [cbn [app] in *; rewrite K; reflexivity|exact C].
  Qed.
  Lemma root_ends x r : is_element x -> good char x ->
    after_misc (write x ++ r) /\ clash [60; 63; 120; 109; 108] (write x ++ r) = true
    /\ clash [60; 33; 68; 79; 67; 84; 89; 80; 69] (write x ++ r) = true.
  Proof.
    intros E G. destruct (root_first x r E G) as (c & q & K & C). rewrite K.
    assert (c <> 33 /\ c <> 63) as [N1 N2] by (split; intros ->; discriminate).
    assert (D1 : (33 =? c) = false) by (apply Z.eqb_neq; congruence).
    assert (D2 : (63 =? c) = false) by (apply Z.eqb_neq; congruence).
    unfold after_misc. cbn [clash starts_not]. rewrite D1, D2. cbn. repeat split; reflexivity.
  Qed.

  Lemma doc_read depth d g :
    good_doc char d -> (length (write_doc d) < depth)%nat ->
    exists g', reads (document signed true has_errors n depth) g (write_doc d) [] g'
      /\ tells g (misc_told (x_before d)
                  ++ match x_doctype d with Some t => misc_told (t_after t) | None => [] end
                  ++ told (x_root d) ++ misc_told (x_after d)) g'.
  Proof.
    intros (D & B & T & E & G & A) L. unfold write_doc in *.
    set (root := write (x_root d) ++ write_misc (x_after d)) in *.
    destruct (root_ends (x_root d) (write_misc (x_after d)) E G) as (K1 & K2 & K3). fold root in K1, K2, K3.
    (* before the document type *)
    assert (K4 : after_misc (write_option write_doctype (x_doctype d) ++ root)).
    { destruct (x_doctype d); [|exact K1]. cbn. unfold after_misc. repeat split; reflexivity. }
    destruct (r_misc g (x_before d) _ B K4) as (g1 & R1 & T1).
    assert (K5 : exists g2, reads (opt (seq (doctypedecl signed n) (star n Misc))) g1
                   (write_option write_doctype (x_doctype d)) root g2
                 /\ tells g1 (match x_doctype d with Some t => misc_told (t_after t) | None => [] end) g2).
    { destruct (x_doctype d) as [t|]; cbn [write_option if_given] in *.
      - destruct (r_doctype g1 t root T K1) as (g2 & R & Q). exists g2. split; [apply r_opt, R|exact Q].
      - exists g1. split; [|apply tells_none]. apply r_opt_none, s_seq_l, s_seq_l, s_text. rewrite e7. exact K3. }
    destruct K5 as (g2 & R2 & T2).
    destruct (root_read depth g2 (x_root d) (write_misc (x_after d)) E G) as (g3 & R3 & T3).
    { unfold root in L. rewrite !app_length in L. rewrite app_length. lia. }
    destruct (r_misc g3 (x_after d) [] A) as (g4 & R4 & T4).
    { repeat split. }
    exists g4. split.
    - unfold document, prolog.
      apply (r_seq' _ _ _ _ _ (write_option write_declaration (x_declaration d) ++ write_misc (x_before d)
               ++ write_option write_doctype (x_doctype d)) root [] g2).
      { rewrite <- !app_assoc. reflexivity. }
      + rewrite app_nil_r.
        apply (r_seq _ _ _ _ _ _ _ g).
        { destruct (x_declaration d) as [dc|]; cbn [write_option if_given] in *.
          - apply r_opt, r_declaration, D.
          - apply r_opt_none. rewrite <- app_assoc. apply s_declaration_misc; [exact B|].
            intros _ _. destruct (x_doctype d); [reflexivity|exact K2]. }
        apply (r_seq _ _ _ _ _ _ _ g1); [exact R1|exact R2].
      + unfold root. apply (r_seq _ _ _ _ _ _ _ g3); [|exact R4]. rewrite app_nil_r. exact R3.
    - apply (tells_app _ _ g1); [exact T1|]. apply (tells_app _ _ g2); [exact T2|].
      apply (tells_app _ _ g3); assumption.
  Qed.
End Grammar.

Lemma parse_reads signed has_errors (char : Z -> Prop) d :
  (forall c, char c -> is_char signed c = true) -> good_doc char d ->
  parse signed true has_errors (write_doc d) = Val (true, map Said (doc_told d)).
Proof.
  intros C G. unfold parse.
  destruct (doc_read signed has_errors (S (length (write_doc d))) char C (S (length (write_doc d))) d
              (say true StartDocument new_garden) G) as (g' & R & [T _]); [lia|].
  unfold reads in R. rewrite app_nil_r in R. rewrite R by lia.
  unfold doc_told. cbn [say g_heard]. rewrite T. cbn. f_equal. f_equal. f_equal.
  rewrite !map_app, <- !app_assoc. reflexivity.
Qed.

(** To check that a text does not occur in another. *)
Fixpoint nowhere (t s : str) : bool :=
  clash t s && match s with [] => true | _ :: r => nowhere t r end.
Lemma nowhere_never t s : nowhere t s = true -> never t s.
Proof.
  induction s as [|c s IH]; cbn; intro H; apply andb_true_iff in H; destruct H as [C H]; intros a b E.
  - destruct a; [|discriminate]. exact (clash_not _ _ _ C E).
  - destruct a as [|d a]; [exact (clash_not _ _ _ C E)|]. injection E as -> E. exact (IH H a b E).
Qed.
