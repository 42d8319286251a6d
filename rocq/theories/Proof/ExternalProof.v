(** Proofs about external entities. *)
From Coq Require Import Lia.
From Verif.Model Require Import Base Attrs Sax External.
From Verif.Spec Require Import ExternalSpec.
From Verif.Proof Require Import ContainersProof.

Lemma name_at_app : forall k m k' v, name_at k (m ++ [(k', v)]) = match name_at k m with Some x => Some x | None => if str_eqb k k' then Some v else None end.
Proof. intros k m k' v. induction m as [|(a & b) m IH]; cbn; [reflexivity|]. destruct (str_eqb k a); [reflexivity|exact IH]. Qed.
Lemma name_at_insert : forall k k' v m, name_at k (insert_name k' v m) =
  match name_at k m with Some x => Some x | None => if str_eqb k k' then Some v else None end.
Proof.
  intros k k' v m. unfold insert_name. destruct (name_at k' m) eqn:E; [|apply name_at_app].
  destruct (name_at k m) eqn:K; [reflexivity|]. destruct (str_eqb k k') eqn:Q; [|reflexivity]. apply str_eqb_true in Q. subst k'. congruence.
Qed.
(** The map after declarations. *)
Definition record (m : names) (d : declaration) : names :=
  match d with External n p s => insert_name s n (insert_name (ids p) n m) | _ => m end.
Definition from (l : list declaration) (m : names) : Prop :=
  forall k v, name_at k m = Some v -> exists p s, In (External v p s) l /\ (k = s \/ k = ids p).
Lemma record_from : forall l m d, from l m -> In d l -> from l (record m d).
Proof.
  intros l m d F I. destruct d as [n p s| | |]; cbn [record]; auto.
  intros k v. rewrite !name_at_insert. destruct (name_at k m) eqn:E; [intros X; injection X as ->; apply F, E|].
  destruct (str_eqb k (ids p)) eqn:Q; [apply str_eqb_true in Q; intros X; injection X as <-; exists p, s; auto|].
  destruct (str_eqb k s) eqn:Q2; [apply str_eqb_true in Q2; intros X; injection X as <-; exists p, s; auto|discriminate].
Qed.
Lemma records_from : forall l k m, from l m -> (forall d, In d k -> In d l) -> from l (fold_left record k m).
Proof. intros l. induction k as [|d k IH]; intros m F I; [exact F|]. apply IH; [apply record_from; [exact F|apply I; left; reflexivity]|intros x X; apply I; right; exact X]. Qed.
Lemma record_keeps : forall k m v d, name_at k m = Some v -> name_at k (record m d) = Some v.
Proof. intros k m v [n p s| | |] E; cbn [record]; auto. rewrite !name_at_insert, E. reflexivity. Qed.
Lemma records_keep : forall l k m v, name_at k m = Some v -> name_at k (fold_left record l m) = Some v.
Proof. induction l as [|d l IH]; intros k m v E; [exact E|]. apply IH, record_keeps, E. Qed.
Lemma records_have : forall l n p s m, In (External n p s) l -> name_at s (fold_left record l m) <> None.
Proof.
  induction l as [|d l IH]; intros n p s m I; [destruct I|]. destruct I as [->|I]; [|apply (IH n p s), I]. cbn [fold_left record].
  destruct (name_at s (record m (External n p s))) as [v|] eqn:E; [cbn [record] in E; rewrite (records_keep l s _ v E); discriminate|].
  exfalso. cbn [record] in E. rewrite name_at_insert in E. destruct (name_at s (insert_name (ids p) n m)); [discriminate|].
  rewrite (proj2 (str_eqb_true s s) eq_refl) in E. discriminate.
Qed.
Lemma records_name : forall l n p s, own_places l -> In (External n p s) l -> name_at s (fold_left record l []) = Some n.
Proof.
  intros l n p s O I. assert (F : from l (fold_left record l [])) by (apply records_from; [intros k v E; discriminate|auto]).
  destruct (name_at s (fold_left record l [])) as [v|] eqn:E; [|destruct (records_have l n p s [] I E)].
  destruct (F s v E) as (p' & s' & I' & K). destruct (O n p s I) as (_ & NE & U). destruct (U v p' s' I') as (S & P).
  destruct K as [->|K].
  - destruct S as (-> & _); auto.
  - exfalso. destruct p' as [x|]; cbn in K; [apply P; congruence|apply NE, K].
Qed.

Section Reader.
  Context (h : settings) (text : str -> str -> option (list callback * bool)).
  Lemma do_parse_next : forall f place m, do_parse h text (S f) place m =
    match text (fst place) (snd place) with
    | None => Val (if s_errors h then [Unresolved] else [], m, false)
    | Some (l, fine) =>
        obind (feed h (do_parse h text f) l m) (fun '(e, m, ok) =>
        if ok && fine then Val (e, m, true) else Val (e ++ (if s_errors h then [Malformed] else []), m, false))
    end.
  Proof. reflexivity. Qed.
  Lemma source_at : forall pub sys, is_at h pub sys (source h pub sys).
  Proof.
    intros pub sys. unfold is_at, source. destruct (s_resolver h) as [f|]; [|reflexivity].
    destruct (f pub sys) as [[|a p] [|b s]]; cbn; [left; auto| | |]; right; split; congruence.
  Qed.
  Lemma places_in : forall l n p s, places n l = Some (p, s) -> In (External n p s) l.
  Proof.
    induction l as [|d l IH]; intros n p s E; [discriminate|]. destruct d as [n' p' s'| | |]; cbn in E; try (right; apply IH, E).
    destruct (str_eqb n n') eqn:Q; [|right; apply IH, E]. apply str_eqb_true in Q. subst n'. injection E as -> ->. left. reflexivity.
  Qed.
  Lemma places_some : forall l n p s, In (External n p s) l -> places n l <> None.
  Proof.
    induction l as [|d l IH]; intros n p s I; [destruct I|]. destruct I as [->|I].
    - cbn. rewrite (proj2 (str_eqb_true n n) eq_refl). discriminate.
    - destruct d as [n' p' s'| | |]; cbn; try (eapply IH; eauto). destruct (str_eqb n n'); [discriminate|eapply IH; eauto].
  Qed.
  Lemma feed_decls : forall inner l rest m, all_told h ->
    feed h inner (map declared_as l ++ rest) m =
    obind (feed h inner rest (fold_left record l m)) (fun '(e, m, ok) => Val (map (fun d => Heard (declares d)) l ++ e, m, ok)).
  Proof.
    intros inner l rest m (C & L & D & T). revert m. induction l as [|d l IH]; intros m.
    - cbn [map app fold_left]. destruct (feed h inner rest m) as [((e & m') & ok)| |]; reflexivity.
    - cbn [map app feed fold_left].
      assert (X : (match declared_as d with XExternal sys pub => external h inner sys pub m
                   | _ => let '(e, m0) := declare h (declared_as d) m in Val (e, m0, true) end) = Val ([Heard (declares d)], record m d, true)).
      { destruct d as [n p s|n v|n p s k|n p s]; cbn [declared_as declare declares record text_of_id]; rewrite ?D, ?T; cbn [tell]; try reflexivity.
        all: destruct p; reflexivity. }
      rewrite X. cbn [obind]. rewrite IH. destruct (feed h inner rest _) as [((e & m') & ok)| |]; reflexivity.
  Qed.

  Lemma feed_tells : forall l body, all_told h -> s_resolving h = true -> own_places l -> has_text h text l body ->
    forall t e, tells body t e -> all_declared l t ->
    exists f0, forall f, (f0 <= f)%nat -> forall m, m = fold_left record l [] ->
      feed h (do_parse h text f) (map (called l) t) m = Val (map Heard e, m, true).
  Proof.
    intros l body (HC & HL & HD & HT) HR O B t e K. induction K as [|s t e K IH|n t i e K1 IH1 K2 IH2]; intros A.
    - exists 0%nat. intros f _ m _. reflexivity.
    - destruct IH as (f0 & IH); [intros n I; apply A; right; exact I|]. exists f0. intros f Hf m M.
      cbn [map called feed declare]. rewrite HC. cbn [tell obind]. rewrite (IH f Hf m M). reflexivity.
    - destruct IH2 as (f2 & IH2); [intros x I; apply A; right; exact I|].
      destruct (A n) as (p0 & s0 & I0); [left; reflexivity|]. destruct (places n l) as [[p s]|] eqn:P; [|destruct (places_some l n p0 s0 I0 P)].
      assert (I := places_in l n p s P).
      destruct (B n p s (source h (ids p) s) I (source_at _ _)) as (TX & AD). destruct (IH1 AD) as (f1 & IH1').
      exists (S (f1 + f2)). intros f Hf m M. cbn [map called feed]. rewrite P. cbn [external].
      assert (NM : name_at s m = Some n) by (rewrite M; apply (records_name l n p s); auto).
      unfold external. unfold look_name. rewrite NM, HR. cbn [text_of_id].
      change (text_of_id p) with (ids p).
      destruct f as [|f]; [lia|]. rewrite do_parse_next. rewrite TX. rewrite (IH1' f ltac:(lia) m M). cbn [obind andb].
      rewrite HL. destruct (O n p s I) as (NE & _). assert (NN : nonempty n = true) by (destruct n; [congruence|reflexivity]). rewrite NN. cbn [tell andb].
      rewrite (IH2 (S f) ltac:(lia) m M). cbn [obind map]. rewrite map_app. cbn [map]. rewrite <- !app_assoc. reflexivity.
  Qed.
  Lemma reported_lemma : forall l body t e place, all_told h -> s_resolving h = true -> own_places l -> has_text h text l body ->
    tells body t e -> all_declared l t -> text (fst place) (snd place) = Some (map declared_as l ++ map (called l) t, true) ->
    exists f0, forall f, (f0 <= f)%nat -> exists m, do_parse h text f place [] = Val (map Heard (map declares l ++ e), m, true).
  Proof.
    intros l body t e place HT HR O B K A TX. destruct (feed_tells l body HT HR O B t e K A) as (f0 & F).
    exists (S f0). intros [|f] Hf; [lia|]. cbn [do_parse]. rewrite TX, feed_decls by exact HT.
    rewrite (F f ltac:(lia) _ eq_refl). eexists. cbn [obind andb]. rewrite map_app, map_map. reflexivity.
  Qed.
  Lemma skipped_lemma : forall l t place, all_told h -> s_resolving h = false -> own_places l -> all_declared l t ->
    text (fst place) (snd place) = Some (map declared_as l ++ map (called l) t, true) ->
    forall f, exists m, do_parse h text (S f) place [] = Val (map Heard (map declares l ++ skips t), m, true).
  Proof.
    intros l t place HT HR O A TX f. cbn [do_parse]. rewrite TX, feed_decls by exact HT. destruct HT as (HC & HL & HD & HT).
    assert (F : feed h (do_parse h text f) (map (called l) t) (fold_left record l []) = Val (map Heard (skips t), fold_left record l [], true)).
    { clear TX. set (m := fold_left record l []). assert (M : m = fold_left record l []) by reflexivity. clearbody m.
      induction t as [|[s|n] t IH]; [reflexivity| |].
      - cbn [map called feed declare]. rewrite HC. cbn [tell obind]. rewrite IH by (intros n I; apply A; right; exact I). reflexivity.
      - destruct (A n) as (p0 & s0 & I0); [left; reflexivity|]. destruct (places n l) as [[p s]|] eqn:P; [|destruct (places_some l n p0 s0 I0 P)].
        assert (I := places_in l n p s P). cbn [map called feed]. rewrite P. unfold external, look_name.
        rewrite M, (records_name l n p s O I), <- M, HR, HC.
        destruct (O n p s I) as (NE & _). assert (NN : nonempty n = true) by (destruct n; [congruence|reflexivity]). rewrite NN. cbn [tell andb obind].
        rewrite IH by (intros x X; apply A; right; exact X). reflexivity. }
    rewrite F. eexists. cbn [obind andb]. rewrite map_app, map_map. reflexivity.
  Qed.

  (** * Entities match *)
  Lemma matched_app : forall a b, matched a -> matched b -> matched (a ++ b).
  Proof.
    intros a b A B. induction A as [|e l N A IH|n i l I IHI A IH]; [exact B| |].
    - cbn. apply M_other; auto.
    - cbn. rewrite <- app_assoc. cbn. apply M_entity; auto.
  Qed.
  Lemma matched_plain : forall e, (forall n, e <> Heard (StartEntity n) /\ e <> Heard (EndEntity n)) -> matched [e].
  Proof. intros e N. apply M_other; [exact N|constructor]. Qed.
  Lemma matched_tell : forall on e, (forall n, e <> StartEntity n /\ e <> EndEntity n) -> matched (tell on e).
  Proof. intros [] e N; [|constructor]. apply matched_plain. intros n. destruct (N n). split; congruence. Qed.
  Lemma matched_declare : forall c m, matched (fst (declare h c m)).
  Proof.
    intros c m. destruct c as [n par v s p k|n s p|n s p| |s|n|s p]; cbn [declare].
    - destruct s, p, k; cbn [fst]; apply matched_tell; intros x; split; discriminate.
    - apply matched_tell; intros x; split; discriminate.
    - destruct (s_lexical h); [|constructor]. apply matched_plain. intros x. split; discriminate.
    - apply matched_tell; intros x; split; discriminate.
    - apply matched_tell; intros x; split; discriminate.
    - apply matched_tell; intros x; split; discriminate.
    - constructor.
  Qed.
  Lemma matched_external : forall inner sys pub m l m' ok,
    (forall place m l m' ok, inner place m = Val (l, m', ok) -> matched l) -> external h inner sys pub m = Val (l, m', ok) -> matched l.
  Proof.
    intros inner sys pub m l m' ok I. unfold external. destruct (match sys, pub with Some s, _ => _ | None, Some p => _ | None, None => _ end) as [n m1].
    destruct (s_resolving h).
    - destruct (inner _ m1) as [((i & m2) & ok2)| |] eqn:E; try discriminate. intros X. injection X as <- <- <-. apply I in E.
      destruct (nonempty n && s_lexical h); cbn [tell app]; [apply M_entity; [exact E|constructor]|]. rewrite app_nil_r. exact E.
    - intros X. injection X as <- <- <-. apply matched_tell. intros x. split; discriminate.
  Qed.
  Lemma matched_feed : forall inner, (forall place m l m' ok, inner place m = Val (l, m', ok) -> matched l) ->
    forall c m l m' ok, feed h inner c m = Val (l, m', ok) -> matched l.
  Proof.
    intros inner I. induction c as [|x c IH]; intros m l m' ok E; cbn in E; [injection E as <- <- <-; constructor|].
    match type of E with obind ?a _ = _ => destruct a as [((e & m1) & ok1)| |] eqn:X; cbn [obind] in E; try discriminate end.
    assert (M : matched e).
    { destruct x; try (match type of X with (let '(_, _) := declare h ?c ?m in _) = _ =>
        assert (D := matched_declare c m); destruct (declare h c m); injection X as <- <- <-; exact D end).
      eapply matched_external; eauto. }
    destruct ok1; [|injection E as <- <- <-; exact M].
    destruct (feed h inner c m1) as [((e' & m2) & ok2)| |] eqn:F; cbn [obind] in E; try discriminate. injection E as <- <- <-.
    apply matched_app; [exact M|]. eapply IH; exact F.
  Qed.
  Lemma matched_lemma : forall f place m l m' ok, do_parse h text f place m = Val (l, m', ok) -> matched l.
  Proof.
    induction f as [|f IH]; intros place m l m' ok E; [discriminate|]. cbn in E. destruct (text _ _) as [[c fine]|].
    - destruct (feed h _ c m) as [((e & m1) & ok1)| |] eqn:F; cbn [obind] in E; try discriminate.
      assert (M := matched_feed _ IH _ _ _ _ _ F). destruct (ok1 && fine); injection E as <- <- <-; [exact M|].
      apply matched_app; [exact M|]. destruct (s_errors h); [|constructor]. apply matched_plain. intros n. split; discriminate.
    - destruct (s_errors h); injection E as <- <- <-; [|constructor]. apply matched_plain. intros n. split; discriminate.
  Qed.

  (** * The text *)
  Lemma letters_app : forall a b, letters (a ++ b) = letters a ++ letters b.
  Proof. induction a as [|x a IH]; intros b; [reflexivity|]. destruct x as [e| |]; cbn; try apply IH. destruct e; cbn; rewrite ?IH, ?app_assoc; reflexivity. Qed.
  Lemma letters_tell : forall on e, (forall s, e <> Characters s) -> letters (tell on e) = [].
  Proof. intros [] e N; [|reflexivity]. destruct e; try reflexivity. destruct (N s eq_refl). Qed.
  Lemma feed_expands : forall l body, s_content h = true -> s_resolving h = true -> has_text h text l body ->
    forall t x, expands body t x -> all_declared l t ->
    exists f0, forall f, (f0 <= f)%nat -> forall m, exists e m', feed h (do_parse h text f) (map (called l) t) m = Val (e, m', true) /\ letters e = x.
  Proof.
    intros l body HC HR B t x K. induction K as [|s t x K IH|n t i x K1 IH1 K2 IH2]; intros A.
    - exists 0%nat. intros f _ m. exists [], m. split; reflexivity.
    - destruct IH as (f0 & IH); [intros n I; apply A; right; exact I|]. exists f0. intros f Hf m. destruct (IH f Hf m) as (e & m' & E & X).
      cbn [map called feed declare]. rewrite HC. cbn [tell obind]. rewrite E. cbn [obind]. eexists. eexists. split; [reflexivity|]. cbn. rewrite X. reflexivity.
    - destruct IH2 as (f2 & IH2); [intros y I; apply A; right; exact I|].
      destruct (A n) as (p0 & s0 & I0); [left; reflexivity|]. destruct (places n l) as [[p s]|] eqn:P; [|destruct (places_some l n p0 s0 I0 P)].
      assert (I := places_in l n p s P).
      destruct (B n p s (source h (ids p) s) I (source_at _ _)) as (TX & AD). destruct (IH1 AD) as (f1 & IH1').
      exists (S (f1 + f2)). intros f Hf m. cbn [map called feed]. rewrite P. unfold external. destruct (look_name s m) as [k m1]. rewrite HR.
      cbn [text_of_id]. change (text_of_id p) with (ids p). destruct f as [|f]; [lia|]. rewrite do_parse_next. rewrite TX.
      destruct (IH1' f ltac:(lia) m1) as (e1 & m2 & E1 & X1). rewrite E1. cbn [obind andb].
      destruct (IH2 (S f) ltac:(lia) m2) as (e2 & m3 & E2 & X2). rewrite E2. cbn [obind]. eexists. eexists. split; [reflexivity|].
      rewrite !letters_app, !letters_tell by discriminate. rewrite X1, X2, app_nil_r. reflexivity.
  Qed.
  Lemma text_lemma : forall l body t x place, s_content h = true -> s_resolving h = true -> has_text h text l body ->
    expands body t x -> all_declared l t -> text (fst place) (snd place) = Some (map (called l) t, true) ->
    exists f0, forall f, (f0 <= f)%nat -> forall m, exists e m', do_parse h text f place m = Val (e, m', true) /\ letters e = x.
  Proof.
    intros l body t x place HC HR B K A TX. destruct (feed_expands l body HC HR B t x K A) as (f0 & F).
    exists (S f0). intros [|f] Hf m; [lia|]. cbn [do_parse]. rewrite TX. destruct (F f ltac:(lia) m) as (e & m' & E & X).
    rewrite E. cbn [obind andb]. exists e, m'. auto.
  Qed.
End Reader.
