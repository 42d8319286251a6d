(** Lemmas about where the bytes of a document come from. *)
From Coq Require Import Lia.
From Verif.Model Require Import Base Text Uri Resolver.
From Verif.Spec Require Import UriSpec ResolverSpec.
From Verif.Proof Require Import Tac ContainersProof UriProof.
From Coq Require Import List ZArith.
Import ListNotations.
Open Scope Z_scope.

Section Proof.
  Context {T : Type}.
  Notation change := (change (T := T)).
  Notation registry := (registry (T := T)).
  Definition names (c : change) : str := match c with Register n _ | Unregister n => n end.

  Lemma eqb_refl_ : forall s : str, str_eqb s s = true.
  Proof. intros s. destruct (str_eqb s s) eqn:E; [reflexivity|]. apply str_eqb_false in E. congruence. Qed.
  Lemma eqb_ne : forall s t : str, s <> t -> str_eqb s t = false.
  Proof. intros s t N. destruct (str_eqb s t) eqn:E; [|reflexivity]. apply str_eqb_true in E. congruence. Qed.
  Lemma find_unregister : forall (r : registry) m n, find_resolver (unregister n r) m = if str_eqb n m then None else find_resolver r m.
  Proof.
    intros r m n. unfold find_resolver, unregister. induction r as [|[k f] r IH]; cbn [filter find fst option_map]; [destruct (str_eqb n m); reflexivity|].
    destruct (str_eqb k n) eqn:E; cbn [negb].
    - rewrite IH. destruct (str_eqb n m) eqn:F; [reflexivity|]. apply str_eqb_true in E. subst k. rewrite F. reflexivity.
    - cbn [find fst]. destruct (str_eqb k m) eqn:F; [|exact IH]. destruct (str_eqb n m) eqn:G; [|reflexivity].
      apply str_eqb_true in F, G. subst. rewrite eqb_refl_ in E. discriminate E.
  Qed.
  Lemma find_change : forall (c : change) (r : registry) m, find_resolver (apply_change r c) m =
    if str_eqb (names c) m then match c with Register _ f => Some f | Unregister _ => None end else find_resolver r m.
  Proof.
    intros [n f|n] r m; cbn [apply_change names].
    - unfold register, find_resolver at 1. cbn [find fst]. destruct (str_eqb n m) eqn:E; [reflexivity|].
      fold (find_resolver (unregister n r) m). rewrite find_unregister, E. reflexivity.
    - apply find_unregister.
  Qed.
  Lemma others : forall (l : list change) (r : registry) m, (forall c, In c l -> match c with Register n _ | Unregister n => n <> m end) ->
    find_resolver (changed l r) m = find_resolver r m.
  Proof.
    induction l as [|c l IH]; intros r m H; [reflexivity|]. unfold changed in *. cbn [fold_left]. rewrite IH by (intros c' I; apply H; right; exact I).
    rewrite find_change. assert (E : str_eqb (names c) m = false).
    { apply eqb_ne. specialize (H c (or_introl eq_refl)). destruct c; exact H. }
    rewrite E. reflexivity.
  Qed.
  Lemma in_force_found : forall m l f, in_force (T := T) m l f -> find_resolver (changed l []) m = f.
  Proof.
    intros m l f H. destruct H as [l H|a f b H|a b H].
    - rewrite others by exact H. reflexivity.
    - unfold changed. rewrite fold_left_app. cbn [fold_left]. fold (changed (T := T) b (apply_change (fold_left apply_change a []) (Register m f))).
      rewrite others by exact H. rewrite find_change. cbn [names]. rewrite eqb_refl_. reflexivity.
    - unfold changed. rewrite fold_left_app. cbn [fold_left]. fold (changed (T := T) b (apply_change (fold_left apply_change a []) (Unregister m))).
      rewrite others by exact H. rewrite find_change. cbn [names]. rewrite eqb_refl_. reflexivity.
  Qed.
  (** Every history leaves one. *)
  Lemma in_force_total : forall m (l : list change), exists f, in_force m l f.
  Proof.
    intros m l. induction l as [|c l IH] using rev_ind; [exists None; apply never; intros c []|].
    destruct (str_eqb (names c) m) eqn:E.
    - apply str_eqb_true in E. destruct c as [n f|n]; cbn in E; subst n.
      + exists (Some f). apply (by_registering m l f []). intros c [].
      + exists None. apply (by_unregistering m l []). intros c [].
    - apply str_eqb_false in E. assert (E' : match c with Register n _ | Unregister n => n <> m end) by (destruct c; exact E).
      destruct IH as [f IH]. destruct IH as [l H|a f b H|a b H].
      + exists None. apply never. intros d I. apply in_app_iff in I as [I|[<-|[]]]; [apply H, I|exact E'].
      + exists (Some f). rewrite <- app_assoc. apply by_registering. intros d I. apply in_app_iff in I as [I|[<-|[]]]; [apply H, I|exact E'].
      + exists None. rewrite <- app_assoc. apply by_unregistering. intros d I. apply in_app_iff in I as [I|[<-|[]]]; [apply H, I|exact E'].
  Qed.

  Lemma c_str_same : forall s, ~ In 0 s -> c_str s = s.
  Proof.
    induction s as [|c s IH]; intros H; [reflexivity|]. cbn [c_str]. destruct (Z.eqb_spec c 0) as [->|NE]; [exfalso; apply H; left; reflexivity|].
    f_equal. apply IH. intros I. apply H. right. exact I.
  Qed.
  Lemma fix_same : forall s, ~ In 92 s -> fix_slashes s = s.
  Proof.
    induction s as [|c s IH]; intros H; [reflexivity|]. cbn [fix_slashes map]. destruct (Z.eqb_spec c 92) as [->|NE]; [exfalso; apply H; left; reflexivity|].
    f_equal. apply IH. intros I. apply H. right. exact I.
  Qed.
  Lemma open_plain : forall fs (r : registry) s, plain_name s ->
    open fs r false s = Val (match fs s with Some t => (Some (File s t), true) | None => (None, false) end).
  Proof.
    intros fs r s (H1 & H2 & H3). unfold open. rewrite parse_rel by exact H1. cbn [obind u_scheme u_path str_eqb]. unfold open_file.
    rewrite fix_same by exact H2. rewrite c_str_same by exact H3. destruct (fs s); reflexivity.
  Qed.
  Lemma scheme_parsed : forall s scheme rest, has_scheme s scheme rest -> exists u, parse s = Val u /\ u_scheme u = scheme.
  Proof.
    intros s scheme rest (-> & H1 & H2 & H3 & H4 & H5). cbn [app]. rewrite parse_scheme by assumption.
    destruct rest as [|c1 r1]; [congruence|]. cbn [rest_parse]. destruct (c1 =? slash) eqn:E1.
    - destruct r1 as [|c2 r2]; [apply Z.eqb_eq in E1; exfalso; apply H5; rewrite E1; reflexivity|]. destruct (c2 =? slash).
      + destruct (parse_authority r2) as [[h p] rest]. eexists. split; reflexivity.
      + eexists. split; reflexivity.
    - eexists. split; reflexivity.
  Qed.
  Lemma open_registered : forall fs (l : list change) s scheme rest f t, has_scheme s scheme rest -> in_force scheme l (Some f) -> f s = Val (Some t) ->
    open fs (changed l []) false s = Val (Some t, true).
  Proof.
    intros fs l s scheme rest f t H F E. destruct (scheme_parsed _ _ _ H) as (u & P & S). unfold open. rewrite P. cbn [obind]. rewrite S.
    rewrite eqb_ne by (apply H). rewrite (in_force_found _ _ _ F), E. reflexivity.
  Qed.
  (** file:, file:/// *)
  Lemma file_parsed : forall path, starts 47 path -> ~ starts 47 (tl path) -> tl path <> [] ->
    parse ([102; 105; 108; 101] ++ [58] ++ path) = Val (Uri s_file [] [] path true) /\
    parse ([102; 105; 108; 101] ++ [58; 47; 47] ++ path) = Val (Uri s_file [] [] path true).
  Proof.
    intros path [r ->] NS NE. cbn [tl] in *. change ([102; 105; 108; 101] ++ [58; 47; 47] ++ 47 :: r) with ([102; 105; 108; 101] ++ [58] ++ 47 :: 47 :: 47 :: r).
    assert (F : ~ In 58 [102; 105; 108; 101]) by (cbn; lia).
    change (47 :: r) with ([] ++ 47 :: r). cbn [app]. split.
    - change (102 :: 105 :: 108 :: 101 :: 58 :: 47 :: r) with ([102; 105; 108; 101] ++ 58 :: 47 :: r). rewrite parse_scheme by (exact F || discriminate).
      cbn [rest_parse]. destruct r as [|c r]; [congruence|]. cbn [Z.eqb slash Pos.eqb]. destruct (c =? slash) eqn:E; [|reflexivity].
      apply Z.eqb_eq in E. subst c. exfalso. apply NS. exists r. reflexivity.
    - reflexivity.
  Qed.
End Proof.
